(** From tokens back to pieces: the printed tokens lex to the same items as the source. *)
From Coq Require Import String Arith List NArith ZArith Bool Lia.
From Verif Require Import Base CssModel CssSpec CssProofs1 CssProofs2 CssProofs3 CssProofs4.
Import ListNotations.
Open Scope N_scope.

(** Pieces of a word; an empty word never occurs and gets a piece the automaton refuses. *)
Definition wordp (s : str) : list piece := match s with [] => [PPunct 0] | _ => map PChar s end.

(** The pieces that a printed token lexes to. *)
Definition tp (t : token) : list piece :=
  match t with
  | TComment b => [PCom b]
  | TLicense b => [PLic b; PBlank]
  | TChar k =>
      if rchar_useless k then [PBlank]
      else match k with Backslash => [PBs] | _ => [PPunct (rchar_show k)] end
  | TOther s => wordp s
  | TSelectorElement (PseudoClass s) => PPunct 0x3A :: wordp s
  | TSelectorElement (Class s) => PChar 0x2E :: wordp s
  | TSelectorElement (Id s) => PChar 0x23 :: wordp s
  | TSelectorElement (Tag s) => wordp s
  | TSelectorElement (Media s) => PChar 0x40 :: wordp s ++ [PBlank]
  | TString t => [PStr t]
  | TSelectorOperator o =>
      [PPunct (match o with
               | OneAttributeEquals => 0x7E
               | EqualsOrStartsWithFollowedByDash => 0x7C
               | EndsWith => 0x24
               | FirstStartsWith => 0x5E
               | Contains => 0x2A
               end); PPunct 0x3D]
  | TOperator _ => [PPunct 0]
  end.

Definition tps (l : list token) : list piece := concat (map tp l).

Lemma tps_app : forall a b, tps (a ++ b) = tps a ++ tps b.
Proof. intros. unfold tps. rewrite map_app, concat_app. reflexivity. Qed.

Lemma tps_snoc : forall l t, tps (rev (t :: l)) = tps (rev l) ++ tp t.
Proof. intros. cbn [rev]. rewrite tps_app. unfold tps at 2. cbn. rewrite app_nil_r. reflexivity. Qed.

Lemma tps_cons : forall t l, tps (t :: l) = tp t ++ tps l.
Proof. reflexivity. Qed.

(** ** The states reached by words *)

Lemma hrun_word : forall s h h', hrun h (map PChar s) = Some h' -> s <> [] -> wordish h'.
Proof.
  induction s as [|c s IH] using rev_ind; intros h h' H Hn; [congruence|].
  rewrite map_app, hrun_app in H. destruct (hrun h (map PChar s)) as [h1|]; [|discriminate].
  cbn in H. destruct h1; cbn in H; try (injection H as <-; exact I);
    destruct (wordc c); try discriminate; try (destruct (c =? 64)); injection H as <-; exact I.
Qed.

Lemma hrun_word_run : forall s h h', hrun h (map PChar s) = Some h' -> s <> [] -> runst h ->
  (h' = HA0 \/ h' = HA1 \/ h' = HW) /\ Forall (fun c => wordc c = true) s.
Proof.
  induction s as [|c s IH] using rev_ind; intros h h' H Hn R; [congruence|].
  rewrite map_app, hrun_app in H. destruct (hrun h (map PChar s)) as [h1|] eqn:E; [|discriminate].
  cbn in H.
  assert (Hw : wordc c = true /\ (h' = HA0 \/ h' = HA1 \/ h' = HW) /\ h1 <> HBs).
  { assert (h1 <> HBs).
    { intros ->. destruct s as [|d s]. { cbn in E. injection E as ->. exact R. }
      apply hrun_word in E; [exact E|discriminate]. }
    destruct h1; cbn in H; try congruence; destruct (wordc c); try discriminate;
      try (destruct (c =? 64)); injection H as <-; repeat split; auto; discriminate. }
  destruct Hw as (A & B & C). split; [exact B|]. apply Forall_app. split; [|constructor; auto].
  destruct s as [|d s]; [constructor|]. eapply IH; eauto. discriminate.
Qed.

Lemma hrun_at : forall name h h', hrun h (map PChar (0x40 :: name)) = Some h' -> name <> [] -> runst h -> h' = HA1.
Proof.
  intros name h h' H Hn R. cbn [map hrun] in H.
  assert (E : hstep h (PChar 64) = Some HA0) by (destruct h; cbn in R; try contradiction; reflexivity).
  rewrite E in H.
  assert (G : forall nm h3, h3 = HA0 \/ h3 = HA1 -> nm <> [] -> hrun h3 (map PChar nm) = Some h' -> h' = HA1).
  { induction nm as [|c nm IH]; intros h3 Hh Hne H3; [congruence|]. cbn [map hrun] in H3.
    assert (E3 : hstep h3 (PChar c) = if wordc c then Some HA1 else None) by (destruct Hh; subst; reflexivity).
    rewrite E3 in H3. destruct (wordc c); [|discriminate]. destruct nm as [|d nm].
    - cbn in H3. congruence.
    - apply (IH HA1); auto. discriminate. }
  apply (G name HA0); auto.
Qed.

Lemma xrun_fst : forall ps x y, xrun x ps = Some y -> hrun (fst x) ps = Some (fst y).
Proof.
  intros ps x y H. rewrite xrun_hrun in H. destruct (hrun (fst x) ps); [|discriminate].
  injection H as <-. reflexivity.
Qed.

Lemma xstep_run : forall x p y, xstep x p = Some y -> xrun x [p] = Some y.
Proof. intros x p y H. cbn. rewrite H. reflexivity. Qed.

Lemma xrun_snoc : forall ps p x y, xrun x (ps ++ [p]) = Some y <-> exists z, xrun x ps = Some z /\ xstep z p = Some y.
Proof.
  intros ps p x y. rewrite xrun_app. split.
  - destruct (xrun x ps) as [z|]; [|discriminate]. cbn. destruct (xstep z p) eqn:E; [|discriminate].
    intro H. exists z. split; congruence.
  - intros (z & -> & H). cbn. rewrite H. reflexivity.
Qed.

Lemma flush2 : forall w (l : list item), flush w [] ++ flush [] l = flush w l.
Proof. intros [|c w] l; reflexivity. Qed.

Lemma istep_blank2 : forall a p, match p with PChar _ | PBs => False | _ => True end ->
  istep (istep a PBlank) p = istep a p.
Proof.
  intros [acc w] p H. destruct p; try contradiction; cbn [istep fst snd];
    rewrite <- app_assoc, flush2; reflexivity.
Qed.

(** A blank after an at-keyword changes nothing for what may follow. *)
Lemma xstep_media : forall x y p z, fst x = HA1 -> xstep x PBlank = Some y ->
  match p with PChar _ => False | _ => True end -> xstep x p = Some z -> xstep y p = Some z.
Proof.
  intros [h a] y p z Hh Hy Hp H. cbn in Hh. subst h. cbn in Hy. injection Hy as <-.
  unfold xstep in *. cbn [fst snd] in *.
  destruct p; try contradiction; try discriminate;
    (change (fst a ++ flush (snd a) [], []) with (istep a PBlank); rewrite istep_blank2 by exact I; exact H).
Qed.

Section Alpha.
Variable alpha : N -> bool.

(** ** The tokenizer keeps the items *)

Definition AI (st : pst) (x : xst) : Prop :=
  exists y, xrun x0 (tps (rev (mv st))) = Some y /\ xrun y (map PChar (mseg st)) = Some x /\
    (mesc st = true <-> fst x = HBs) /\ (fst y = HBs \/ runst (fst y)) /\ (mseg st <> [] -> runst (fst y)).

Lemma selement_tp : forall seg e, selement_of alpha seg = Some e -> Forall (fun c => wordc c = true) seg ->
  match e with Media s => seg = 0x40 :: s /\ s <> [] | _ => tp (TSelectorElement e) = map PChar seg end.
Proof.
  intros [|c v] e H Hf; cbn [selement_of] in H; [discriminate|].
  inversion Hf; subst.
  assert (Hne : forall k, match v with [] => None | _ => Some (k v) end = Some e -> v <> [] /\ e = k v).
  { intros k E. destruct v; [discriminate|]. injection E as <-. split; [discriminate|reflexivity]. }
  assert (Hwp : v <> [] -> wordp v = map PChar v) by (intro; destruct v; [congruence|reflexivity]).
  destruct (N.eqb_spec c 0x2E). { apply Hne in H. destruct H as [H ->]. subst. cbn [tp]. rewrite Hwp; auto. }
  destruct (N.eqb_spec c 0x23). { apply Hne in H. destruct H as [H ->]. subst. cbn [tp]. rewrite Hwp; auto. }
  destruct (N.eqb_spec c 0x40). { apply Hne in H. destruct H as [H ->]. subst. auto. }
  destruct (N.eqb_spec c 0x3A). { subst. discriminate. }
  destruct (is_alphabetic alpha c); [|discriminate]. injection H as <-. reflexivity.
Qed.

Lemma fillp_run : forall st x, AI st x ->
  exists y', xrun x0 (tps (rev (fillp alpha st))) = Some y' /\
             (y' = x \/ (fst x = HA1 /\ xstep x PBlank = Some y')).
Proof.
  intros st x (y & H1 & H2 & _ & _ & Hr). unfold fillp.
  destruct (mseg st) as [|c0 seg0] eqn:Es.
  { cbn in H2. injection H2 as <-. exists y. auto. }
  rewrite <- Es in *. assert (Hne : mseg st <> []) by (rewrite Es; discriminate).
  specialize (Hr Hne).
  assert (Hw : Forall (fun c => wordc c = true) (mseg st)).
  { apply xrun_fst in H2. eapply hrun_word_run; eauto. }
  assert (Hp : wordp (mseg st) = map PChar (mseg st)) by (rewrite Es; reflexivity).
  clear c0 seg0 Es.
  assert (Ho : exists y', xrun x0 (tps (rev (TOther (mseg st) :: mv st))) = Some y' /\
             (y' = x \/ (fst x = HA1 /\ xstep x PBlank = Some y'))).
  { exists x. split; [|auto]. rewrite tps_snoc, xrun_app, H1. cbn [tp]. rewrite Hp. exact H2. }
  destruct (selector_context _ _ _); [|exact Ho].
  destruct (some_and (is_the_char Colon) (hd_error (mv st))) eqn:Ec.
  - destruct (mcol st); [|exact Ho].
    destruct (selement_of alpha (58 :: mseg st)) as [e|] eqn:Ee; [|exact Ho].
    cbn in Ee. destruct (mseg st) as [|c s] eqn:Em; [discriminate|]. injection Ee as <-.
    exists x. split; [|auto].
    destruct (mv st) as [|t v]; [discriminate|]. cbn [hd_error some_and] in Ec. cbn [tl].
    destruct t; try discriminate. cbn in Ec. apply rchar_eqb_eq in Ec. subst c0.
    rewrite tps_snoc in *. cbn [tp] in *. change (PPunct 58 :: wordp (c :: s)) with ([PPunct 58] ++ map PChar (c :: s)).
    rewrite app_assoc, xrun_app.
    change (tps (rev v) ++ [PPunct 58]) with (tps (rev v) ++ (if rchar_useless Colon then [PBlank] else [PPunct (rchar_show Colon)])).
    cbn [rchar_useless]. cbn iota.
    change (tp (TChar Colon)) with [PPunct 58] in H1.
    change (rchar_show Colon) with 58. cbn [rchar_useless rchar_show] in H1. rewrite H1. exact H2.
  - destruct (selement_of alpha (mseg st)) as [e|] eqn:Ee; [|exact Ho].
    pose proof (selement_tp _ _ Ee Hw) as Ht.
    destruct e as [s|s|s|s|s];
      try (exists x; split; [|auto]; rewrite tps_snoc, xrun_app, H1, Ht; exact H2).
    destruct Ht as [Ht Hs].
    assert (Hx : fst x = HA1).
    { apply xrun_fst in H2. rewrite Ht in H2. eapply hrun_at; eauto. }
    assert (exists y', xstep x PBlank = Some y') as [y' Hy'].
    { unfold xstep. rewrite Hx. cbn. eauto. }
    exists y'. split; [|auto]. rewrite tps_snoc, xrun_app, H1. cbn [tp].
    assert (Hs' : wordp s = map PChar s) by (destruct s; [congruence|reflexivity]). rewrite Hs'.
    change (PChar 64 :: map PChar s ++ [PBlank]) with (map PChar (64 :: s) ++ [PBlank]).
    rewrite <- Ht. apply xrun_snoc. eauto.
Qed.

Lemma nopush : forall v y x', push_blank v = false -> xrun x0 (tps (rev v)) = Some y ->
  xstep y PBlank = Some x' -> x' = y.
Proof.
  intros [|t v] y x' Hp H Hx.
  - cbn in H. injection H as <-. cbn in Hx. injection Hx as <-. reflexivity.
  - rewrite tps_snoc, xrun_app in H. destruct (xrun x0 (tps (rev v))) as [z|]; [|discriminate].
    unfold push_blank in Hp. cbn [hd_error] in Hp.
    destruct t as [| |k| | | | |]; try discriminate.
    cbn [tp] in H.
    destruct (rchar_useless k) eqn:Eu.
    + cbn in H. destruct z as [h [acc w]]. unfold xstep in H, Hx. cbn in H.
      destruct (hsep h) as [h1|] eqn:Eh; cbn in H; [|discriminate]. injection H as <-. cbn in Hx.
      rewrite app_nil_r in Hx.
      destruct h; cbn in Eh; try discriminate; injection Eh as <-; cbn in Hx; injection Hx as <-; reflexivity.
    + assert (Hk : k = Backslash \/ (k <> Slash /\ k <> Star /\ k <> Backslash)).
      { destruct k; try discriminate; auto; right; repeat split; discriminate. }
      destruct Hk as [->|(Hk1 & Hk2 & Hk3)].
      * cbn in H. destruct z as [h [acc w]]. unfold xstep in H, Hx. cbn in H.
        assert (fst y = HBs).
        { destruct h; cbn in H; try discriminate; injection H as <-; reflexivity. }
        rewrite H0 in Hx. discriminate.
      * assert (Htp : match k with Backslash => [PBs] | _ => [PPunct (rchar_show k)] end = [PPunct (rchar_show k)])
          by (destruct k; congruence || reflexivity).
        rewrite Htp in H. cbn [xrun] in H.
        destruct (xstep z (PPunct (rchar_show k))) as [y0|] eqn:E; [|discriminate]. injection H as <-.
        destruct z as [h [acc w]]. unfold xstep in E. cbn [fst snd] in E.
        destruct (hstep h (PPunct (rchar_show k))) as [h1|] eqn:Eh; [|discriminate].
        cbn [option_map istep fst snd] in E. injection E as <-.
        assert (h1 = HN).
        { cbn [hstep] in Eh.
          assert (rchar_show k =? 47 = false) by (destruct k; congruence || reflexivity).
          assert (rchar_show k =? 42 = false) by (destruct k; congruence || reflexivity).
          rewrite H, H0 in Eh. destruct h; try discriminate;
            destruct (punct_char (rchar_show k)); try discriminate; destruct (rchar_show k =? 61); congruence. }
        subst h1. cbn in Hx. injection Hx as <-. rewrite app_nil_r. reflexivity.
Qed.

Lemma hstep_runst : forall h p h', hstep h p = Some h' -> match p with PChar _ | PBs => False | _ => True end -> runst h'.
Proof.
  intros h p h' H Hp. destruct p as [c| | |t|b|b|c]; try contradiction; cbn [hstep] in H.
  - destruct h; cbn in H; try discriminate; injection H as <-; exact I.
  - destruct h; try discriminate; destruct (strok t); try discriminate; injection H as <-; exact I.
  - destruct h; cbn in H; try discriminate; injection H as <-; exact I.
  - destruct h; try discriminate; destruct (licok b); try discriminate; injection H as <-; exact I.
  - destruct h; try discriminate; (destruct (punct_char c); [|discriminate]);
      (destruct (c =? 47); [injection H as <-; exact I|]);
      (destruct (c =? 42); [try discriminate; injection H as <-; exact I|]);
      (destruct (c =? 61); try discriminate); injection H as <-; exact I.
Qed.

Lemma runst_not_bs : forall h, runst h -> h <> HBs.
Proof. intros h H ->. exact H. Qed.

Lemma AI_push : forall v x' col block media attr,
  xrun x0 (tps (rev v)) = Some x' -> runst (fst x') -> AI (mk v col block media attr false) x'.
Proof.
  intros v x' col block media attr H Hr. exists x'. cbn [mv mseg mesc mk map xrun].
  split; [exact H|]. split; [reflexivity|]. split.
  - split; [discriminate|]. intro E. apply runst_not_bs in Hr. contradiction.
  - split; [auto|]. congruence.
Qed.

Lemma pstep_AI : forall st x p x' st', AI st x -> xstep x p = Some x' -> pstep alpha st p = Ok st' -> AI st' x'.
Proof.
  intros st x p x' st' HA Hx Hs.
  destruct (fillp_run st x HA) as (y' & Hf & Hy').
  assert (Hpush : match p with PChar _ => False | _ => True end -> xstep y' p = Some x').
  { intro Hp. destruct Hy' as [->|[A B]]; [exact Hx|]. eapply xstep_media; eauto. }
  assert (Hsn : match p with PChar _ => False | _ => True end -> forall t, tp t = [p] -> xrun x0 (tps (rev (t :: fillp alpha st))) = Some x').
  { intros Hp t Ht. rewrite tps_snoc, Ht. apply xrun_snoc. eauto. }
  assert (Hrun : match p with PChar _ | PBs => False | _ => True end -> runst (fst x')).
  { intro Hp. unfold xstep in Hx. destruct (hstep (fst x) p) as [h|] eqn:E; [|discriminate].
    injection Hx as <-. eapply hstep_runst; eauto. }
  destruct p as [c| | |t|b|b|c]; cbn [pstep] in Hs.
  - destruct HA as (y & H1 & H2 & H3 & H4 & H5).
    destruct (mesc st) eqn:Ee.
    + injection Hs as <-. assert (Hb : fst x = HBs) by (apply H3; reflexivity).
      assert (Hm : mseg st = []).
      { destruct (mseg st) eqn:Em; [reflexivity|]. exfalso. rewrite <- Em in *.
        assert (Hne : mseg st <> []) by (rewrite Em; discriminate).
        apply xrun_fst in H2. destruct (hrun_word_run _ _ _ H2 Hne (H5 Hne)) as [[E|[E|E]] _]; congruence. }
      rewrite Hm in H2. cbn in H2. injection H2 as <-.
      apply AI_push.
      * rewrite tps_snoc, xrun_app, H1. cbn. rewrite Hx. reflexivity.
      * unfold xstep in Hx. rewrite Hb in Hx. cbn in Hx. injection Hx as <-. exact I.
    + injection Hs as <-.
      assert (Hb : fst x <> HBs) by (intro E; apply H3 in E; discriminate).
      exists y. cbn [mv mseg mesc]. split; [exact H1|]. split.
      { rewrite map_app. apply xrun_snoc. eauto. }
      split.
      { split; [discriminate|]. intro E. exfalso. unfold xstep in Hx.
        destruct (hstep (fst x) (PChar c)) as [h|] eqn:Eh; [|discriminate]. injection Hx as <-. cbn in E. subst h.
        destruct (fst x); cbn in Eh; try congruence; destruct (wordc c); try discriminate; destruct (c =? 64); discriminate. }
      split; [exact H4|]. intros _. destruct (mseg st) eqn:Em.
      * cbn in H2. injection H2 as <-. destruct H4; [contradiction|assumption].
      * apply H5. discriminate.
  - injection Hs as <-. exists x'. cbn [mv mseg mesc mk map xrun].
    split; [apply Hsn; auto|]. split; [reflexivity|].
    assert (Hb : fst x' = HBs).
    { unfold xstep in Hx. cbn in Hx. destruct (fst x); cbn in Hx; try discriminate; injection Hx as <-; reflexivity. }
    split; [split; auto|]. split; [auto|]. congruence.
  - injection Hs as <-. destruct (push_blank (fillp alpha st)) eqn:Ep.
    + apply AI_push; [apply Hsn; auto|apply Hrun; exact I].
    + assert (x' = y') as -> by (eapply nopush; eauto).
      apply AI_push; [exact Hf|apply Hrun; exact I].
  - injection Hs as <-. apply AI_push; [apply Hsn; auto|apply Hrun; exact I].
  - injection Hs as <-. apply AI_push; [apply Hsn; auto|apply Hrun; exact I].
  - injection Hs as <-. apply AI_push; [|apply Hrun; exact I].
    rewrite tps_snoc. cbn [tp]. change [PLic b; PBlank] with ([PLic b] ++ [PBlank]). rewrite app_assoc.
    apply xrun_snoc. exists x'. split; [apply xrun_snoc; eauto|].
    unfold xstep in Hx. destruct (hstep (fst x) (PLic b)) as [h|] eqn:Eh; [|discriminate].
    assert (h = HN) by (cbn in Eh; destruct (fst x); try discriminate; destruct (licok b); congruence).
    subst h. injection Hx as <-. unfold xstep. cbn [fst snd hstep hsep option_map istep].
    rewrite app_nil_r. reflexivity.
  - assert (Hpc : punct_char c = true).
    { unfold xstep in Hx. cbn [hstep] in Hx. destruct (punct_char c); [reflexivity|]. destruct (fst x); discriminate. }
    destruct (punct_char_rchar c Hpc) as (k & Hk & -> & Hu & H1 & H2 & H3).
    rewrite Hk in Hs.
    assert (Htp : tp (TChar k) = [PPunct (rchar_show k)]) by (cbn [tp]; rewrite Hu; destruct k; congruence || reflexivity).
    assert (Hgo : forall col block media attr, AI (mk (TChar k :: fillp alpha st) col block media attr false) x').
    { intros. apply AI_push; [apply Hsn; auto|apply Hrun; exact I]. }
    destruct k; try congruence; try discriminate Hu;
      try (injection Hs as <-; apply Hgo).
    + destruct (Z.ltb _ _); [discriminate|]. injection Hs as <-; apply Hgo.
    + destruct (mattr st); [discriminate|]. injection Hs as <-; apply Hgo.
    + destruct (mattr st); [|discriminate]. injection Hs as <-; apply Hgo.
    + destruct (equal_operator (fillp alpha st)) as [o|] eqn:Eo; injection Hs as <-; [|apply Hgo].
      apply AI_push; [|apply Hrun; exact I].
      specialize (Hsn I (TChar EqualSign) eq_refl). revert Hsn Eo.
      destruct (fillp alpha st) as [|t v]; [discriminate|]. cbn [tl equal_operator hd_error].
      rewrite !tps_snoc. intros Hsn Eo.
      assert (Ht : tp t ++ tp (TChar EqualSign) = tp (TSelectorOperator o)).
      { destruct t as [| |k| | | | |]; try discriminate. destruct k; try discriminate; injection Eo as <-; reflexivity. }
      rewrite <- app_assoc, Ht in Hsn. exact Hsn.
Qed.

Lemma prun_AI : forall ps st x x' v, AI st x -> xrun x ps = Some x' -> prun alpha st ps None = Ok v ->
  exists y, xrun x0 (tps v) = Some y /\ ifinish (snd y) = ifinish (snd x').
Proof.
  induction ps as [|p ps IH]; intros st x x' v HA Hx Hr; cbn [prun xrun] in *.
  - injection Hx as <-. injection Hr as <-. destruct (fillp_run _ _ HA) as (y & Hy & [->|[_ Hb]]).
    + eauto.
    + exists y. split; [exact Hy|]. destruct x as [h [acc w]]. unfold xstep in Hb. cbn in Hb.
      destruct (hsep h); [|discriminate]. injection Hb as <-. unfold ifinish. cbn. apply app_nil_r.
  - destruct (xstep x p) as [x1|] eqn:E1; [|discriminate].
    destruct (pstep alpha st p) as [st1| | |] eqn:E2; cbn [obind] in Hr; try discriminate.
    eapply IH; [eapply pstep_AI; eauto|exact Hx|exact Hr].
Qed.

End Alpha.

(** ** Removing blanks keeps the items *)

Lemma xsep_idem : forall x y, xstep x PBlank = Some y -> xstep y PBlank = Some y.
Proof.
  intros [h [acc w]] y H. unfold xstep in *. cbn in H. destruct (hsep h) as [h1|] eqn:E; [|discriminate].
  cbn in H. injection H as <-. cbn. rewrite app_nil_r.
  destruct h; cbn in E; try discriminate; injection E as <-; reflexivity.
Qed.

Definition prev_run (prev : option token) (x : xst) : Prop :=
  match prev with
  | None => x = x0
  | Some p => exists b, xrun b (tp p) = Some x
  end.

Lemma istep_word_free : forall a p, match p with PChar _ | PBs => False | _ => True end -> snd (istep a p) = [].
Proof. intros [acc w] p H. destruct p; try contradiction; reflexivity. Qed.

(** After a token whose last piece is neither a word piece nor a slash nor a star, a blank
    changes nothing. *)
Lemma trivial_blank : forall x y, fst x = HN \/ fst x = HWS \/ fst x = HSlS -> snd (snd x) = [] ->
  xstep x PBlank = Some y -> y = x.
Proof.
  intros [h [acc w]] y Hh Hw H. cbn in Hh, Hw. subst w.
  destruct Hh as [ -> | [ -> | -> ] ]; cbn in H; injection H as <-; rewrite app_nil_r; reflexivity.
Qed.

Lemma xrun_last_nonword : forall ps p b x, xrun b (ps ++ [p]) = Some x ->
  match p with PChar _ | PBs => False | _ => True end -> snd (snd x) = [].
Proof.
  intros ps p b x H Hp. apply xrun_snoc in H. destruct H as (z & _ & H). unfold xstep in H.
  destruct (hstep (fst z) p); [|discriminate]. injection H as <-. apply istep_word_free. exact Hp.
Qed.

Lemma xrun_last_punct : forall ps c b x, xrun b (ps ++ [PPunct c]) = Some x ->
  c <> 0x2F -> c <> 0x2A -> fst x = HN /\ snd (snd x) = [].
Proof.
  intros ps c b x H H1 H2. split; [|eapply xrun_last_nonword; eauto; exact I].
  apply xrun_snoc in H. destruct H as (z & _ & H). unfold xstep in H.
  destruct (hstep (fst z) (PPunct c)) as [h|] eqn:E; [|discriminate]. injection H as <-. cbn [fst].
  cbn [hstep] in E. apply N.eqb_neq in H1, H2. rewrite H1, H2 in E.
  destruct (fst z); try discriminate; destruct (punct_char c); try discriminate; destruct (c =? 61); congruence.
Qed.

Lemma hstep_sl_sep : forall p, match p with PChar _ => True | PPunct c => c <> 0x2A | _ => True end ->
  p <> PBs -> hstep HSlS p = hstep HSl p.
Proof.
  intros p H Hb. destruct p; try reflexivity.
  cbn [hstep]. destruct (punct_char c); [|reflexivity]. destruct (c =? 47); [reflexivity|].
  destruct (N.eqb_spec c 42); [contradiction|]. reflexivity.
Qed.

Lemma xrun_same_first : forall h1 h2 a p r,
  hstep h1 p = hstep h2 p -> xrun (h1, a) (p :: r) = xrun (h2, a) (p :: r).
Proof. intros. cbn [xrun]. unfold xstep. cbn [fst snd]. rewrite H. reflexivity. Qed.

Lemma tp_first : forall t, exists p r, tp t = p :: r /\
  (p = PPunct 0x2A -> t = TChar Star \/ t = TSelectorOperator Contains) /\
  (p = PPunct 0x3D -> t = TChar EqualSign).
Proof.
  assert (W : forall s, exists p r, wordp s = p :: r /\ p <> PPunct 42 /\ p <> PPunct 61).
  { intros [|c s]; cbn; repeat eexists; discriminate. }
  intros t. destruct t as [b|b|k|s|e|s|o|o].
  - repeat eexists; discriminate.
  - repeat eexists; discriminate.
  - destruct k; repeat eexists; try discriminate; auto.
  - destruct (W s) as (p & r & E & A & B). cbn [tp]. rewrite E. repeat eexists; congruence.
  - destruct e as [s|s|s|s|s]; cbn [tp]; try (repeat eexists; discriminate).
    destruct (W s) as (p & r & E & A & B). rewrite E. repeat eexists; congruence.
  - repeat eexists; discriminate.
  - destruct o; repeat eexists; try discriminate; auto.
  - repeat eexists; discriminate.
Qed.

Lemma wordp_end : forall s b x, xrun b (wordp s) = Some x -> wordish (fst x).
Proof.
  intros [|c s] b x H.
  - cbn in H. unfold xstep in H. cbn in H. destruct (fst b); discriminate.
  - apply xrun_fst in H. eapply hrun_word; [exact H|discriminate].
Qed.

Lemma pending_ok : forall p x y t calc z,
  (exists b, xrun b (tp p) = Some x) -> xstep x PBlank = Some y -> blankish t = false ->
  retain_blank p (Some t) calc = false -> xrun y (tp t) = Some z -> xrun x (tp t) = Some z.
Proof.
  intros p x y t calc z [b Hb] Hy Ht Hr Hz.
  assert (Htriv : (fst x = HN \/ fst x = HWS \/ fst x = HSlS) -> snd (snd x) = [] -> xrun x (tp t) = Some z).
  { intros A B. rewrite (trivial_blank x y A B Hy) in Hz. exact Hz. }
  assert (Hword : wordish (fst x) -> calc = false -> is_char t = true -> xrun x (tp t) = Some z).
  { intros Hw _ Hc. destruct t as [| |k| | | | |]; try discriminate.
    destruct x as [h a]. cbn [fst] in Hw.
    assert (Ey : y = (HWS, istep a PBlank)).
    { unfold xstep in Hy. destruct h; cbn in Hw; try contradiction; cbn in Hy; injection Hy as <-; reflexivity. }
    subst y. cbn [tp] in *. unfold blankish in Ht. cbn [is_useless is_comment] in Ht. rewrite orb_false_r in Ht. rewrite Ht in *.
    destruct (rchar_eq_dec k Backslash) as [->|Hk]; [discriminate|].
    assert (Htp : match k with Backslash => [PBs] | _ => [PPunct (rchar_show k)] end = [PPunct (rchar_show k)])
      by (destruct k; congruence || reflexivity).
    rewrite Htp in *. cbn [xrun] in *. unfold xstep in *. cbn [fst snd] in *.
    rewrite istep_blank2 in Hz by exact I.
    assert (E : hstep HWS (PPunct (rchar_show k)) = hstep h (PPunct (rchar_show k)))
      by (destruct h; try contradiction; reflexivity).
    rewrite <- E. exact Hz. }
  destruct p as [bd|bd|k|s|e|s|o|o]; cbn [tp] in Hb.
  - (* a comment is never kept, but the state is that of a blank *)
    apply Htriv.
    + cbn in Hb. unfold xstep in Hb. destruct b as [h a]; cbn in Hb.
      destruct h; cbn in Hb; try discriminate; injection Hb as <-; cbn; auto.
    + eapply (xrun_last_nonword []); [exact Hb|exact I].
  - apply Htriv.
    + change [PLic bd; PBlank] with ([PLic bd] ++ [PBlank]) in Hb. apply xrun_snoc in Hb.
      destruct Hb as (w & A & B). cbn in A. unfold xstep in A, B. cbn in A.
      destruct (fst b); cbn in A; try discriminate; destruct (licok bd); try discriminate;
        injection A as <-; cbn in B; injection B as <-; auto.
    + eapply (xrun_last_nonword [PLic bd]); [exact Hb|exact I].
  - destruct (rchar_useless k) eqn:Eu.
    + apply Htriv.
      * cbn in Hb. unfold xstep in Hb. destruct b as [h a]; cbn in Hb.
        destruct h; cbn in Hb; try discriminate; injection Hb as <-; cbn; auto.
      * eapply (xrun_last_nonword []); [exact Hb|exact I].
    + destruct (rchar_eq_dec k Backslash) as [->|Hk1].
      { exfalso. cbn in Hb. unfold xstep in Hb. destruct b as [h a]; cbn in Hb.
        destruct h; cbn in Hb; try discriminate; injection Hb as <-; discriminate. }
      assert (Htp : match k with Backslash => [PBs] | _ => [PPunct (rchar_show k)] end = [PPunct (rchar_show k)])
        by (destruct k; congruence || reflexivity).
      rewrite Htp in Hb.
      destruct (rchar_eq_dec k Slash) as [->|Hk2].
      { assert (Ex : fst x = HSl).
        { cbn in Hb. unfold xstep in Hb. destruct b as [h a]; cbn in Hb.
          destruct h; cbn in Hb; try discriminate; injection Hb as <-; reflexivity. }
        assert (Ew : snd (snd x) = []) by (eapply (xrun_last_nonword []); [exact Hb|exact I]).
        destruct x as [h [acc w]]. cbn in Ex, Ew. subst h w. cbn in Hy. rewrite app_nil_r in Hy. injection Hy as <-.
        destruct (tp_first t) as (p & r & Etp & Hst & _). rewrite Etp in *.
        assert (Hp : p <> PPunct 0x2A).
        { intros ->. destruct (Hst eq_refl) as [->| ->].
          - discriminate Hr.
          - cbn in Etp. injection Etp as <-. cbn in Hz. discriminate. }
        rewrite (xrun_same_first HSl HSlS); [exact Hz|].
        destruct p; try reflexivity. apply eq_sym, hstep_sl_sep; [congruence|discriminate]. }
      destruct (rchar_eq_dec k Star) as [->|Hk3].
      { assert (Ex : fst x = HSS \/ fst x = HN).
        { cbn in Hb. unfold xstep in Hb. destruct b as [h a]; cbn in Hb.
          destruct h; cbn in Hb; try discriminate; injection Hb as <-; auto. }
        assert (Ew : snd (snd x) = []) by (eapply (xrun_last_nonword []); [exact Hb|exact I]).
        destruct Ex as [Ex|Ex]; [|apply Htriv; auto].
        destruct x as [h [acc w]]. cbn in Ex, Ew. subst h w. cbn in Hy. rewrite app_nil_r in Hy. injection Hy as <-.
        destruct (tp_first t) as (p & r & Etp & _ & Heq). rewrite Etp in *.
        assert (Hp : p <> PPunct 0x3D).
        { intros ->. rewrite (Heq eq_refl) in Hr. discriminate Hr. }
        rewrite (xrun_same_first HSS HN); [exact Hz|].
        destruct p; try reflexivity. cbn [hstep]. destruct (punct_char c); [|reflexivity].
        destruct (c =? 47); [reflexivity|]. destruct (c =? 42); [reflexivity|].
        destruct (N.eqb_spec c 61); [congruence|reflexivity]. }
      destruct (xrun_last_punct [] (rchar_show k) b x Hb) as [A B].
      { destruct k; congruence || discriminate. }
      { destruct k; congruence || discriminate. }
      apply Htriv; auto.
  - apply wordp_end in Hb. unfold retain_blank in Hr. cbn [is_the_char is_other andb some_and is_a_selector_element orb is_useless is_char is_a_media is_a_license negb] in Hr.
    destruct (is_other t || is_the_char OpenParenthese t); [discriminate|].
    rewrite andb_false_r in Hr. destruct calc; cbn [negb] in Hr; [discriminate|].
    apply negb_false_iff, andb_true_iff in Hr. apply Hword; tauto.
  - destruct e as [s|s|s|s|s].
    5: { apply Htriv.
         - rewrite app_comm_cons in Hb. apply xrun_snoc in Hb. destruct Hb as (w & _ & B). unfold xstep in B.
           destruct (hstep (fst w) PBlank) as [h|] eqn:E; [|discriminate]. injection B as <-.
           cbn in E. destruct (fst w); cbn in E; try discriminate; injection E as <-; cbn; auto.
         - rewrite app_comm_cons in Hb. eapply xrun_last_nonword; [exact Hb|exact I]. }
    all: assert (Hw : wordish (fst x)) by
        (first [ eapply wordp_end; exact Hb
               | match type of Hb with xrun _ (?q :: wordp ?w) = _ => change (q :: wordp w) with ([q] ++ wordp w) in Hb end;
                 rewrite xrun_app in Hb; destruct (xrun b _); [|discriminate]; eapply wordp_end; exact Hb ]);
      unfold retain_blank in Hr; cbn [is_the_char is_other andb some_and is_a_selector_element orb is_useless is_char is_a_media is_a_license negb] in Hr;
      (destruct (is_the_char Star t); [discriminate|]);
      rewrite andb_false_r in Hr; destruct calc; cbn [negb] in Hr; [discriminate|];
      apply negb_false_iff, andb_true_iff in Hr; apply Hword; tauto.
  - assert (fst x = HN).
    { cbn in Hb. unfold xstep in Hb. destruct b as [h a]; cbn in Hb.
      destruct h; cbn in Hb; try discriminate; destruct (strok s); try discriminate; injection Hb as <-; reflexivity. }
    apply Htriv; [auto|]. eapply (xrun_last_nonword []); [exact Hb|exact I].
  - match type of Hb with xrun _ [?a; ?c] = _ => change [a; c] with ([a] ++ [c]) in Hb end.
    destruct (xrun_last_punct _ 0x3D b x Hb) as [A B]; try discriminate. apply Htriv; auto.
  - exfalso. cbn in Hb. unfold xstep in Hb. cbn in Hb. destruct (fst b); discriminate.
Qed.

Lemma blankish_tp : forall t, blankish t = true -> exists p, tp t = [p] /\ (forall x, xstep x p = xstep x PBlank).
Proof.
  intros t H. destruct t as [b|b|k|s|e|s|o|o]; try discriminate.
  - exists (PCom b). split; reflexivity.
  - unfold blankish in H. cbn [is_useless is_comment] in H. rewrite orb_false_r in H. exists PBlank. cbn [tp]. rewrite H. split; reflexivity.
Qed.

Lemma cz_run : forall l prev calc paren x x' y,
  prev_run prev x' ->
  (x = x' \/ (xstep x' PBlank = Some x /\ exists p, prev = Some p /\
              exists calc0, retain_blank p (hd_error l) calc0 = false)) ->
  xrun x (tps l) = Some y ->
  exists y', xrun x' (tps (cz prev calc paren l)) = Some y' /\ ifinish (snd y') = ifinish (snd y).
Proof.
  induction l as [|t l IH]; intros prev calc paren x x' y Hprev Hrel Hrun.
  - cbn in Hrun. injection Hrun as <-. cbn. exists x'. split; [reflexivity|].
    destruct Hrel as [->|[Hs _]]; [reflexivity|]. destruct x' as [h [acc w]]. unfold xstep in Hs. cbn in Hs.
    destruct (hsep h); [|discriminate]. injection Hs as <-. unfold ifinish. cbn. symmetry. apply app_nil_r.
  - cbn [cz]. destruct (calc_step t calc paren) as [calc' paren'].
    rewrite tps_cons, xrun_app in Hrun.
    destruct (blankish t) eqn:Eb.
    + destruct (blankish_tp t Eb) as (pb & Etp & Hpb). rewrite Etp in Hrun. cbn [xrun] in Hrun. rewrite Hpb in Hrun.
      destruct (xstep x PBlank) as [x2|] eqn:Ex2; [|discriminate].
      assert (Hx' : xstep x' PBlank = Some x2).
      { destruct Hrel as [->|[Hs _]]; [exact Ex2|]. rewrite (xsep_idem _ _ Hs) in Ex2. congruence. }
      destruct (match prev with Some p => retain_blank p (hd_error l) calc' | None => true end) eqn:Er.
      * set (t' := if is_comment t then TChar Space else t).
        assert (Et' : tp t' = [PBlank]).
        { unfold t'. destruct t as [| |k| | | | |]; try discriminate; [reflexivity|]. unfold blankish in Eb. cbn [is_useless is_comment] in Eb. rewrite orb_false_r in Eb.
          cbn [is_comment tp]. rewrite Eb. reflexivity. }
        rewrite tps_cons, Et'. cbn [app xrun]. rewrite Hx'.
        eapply IH; [|left; reflexivity|exact Hrun].
        cbn [prev_run]. exists x'. rewrite Et'. cbn. rewrite Hx'. reflexivity.
      * destruct prev as [p|]; [|discriminate].
        eapply IH; [exact Hprev| |exact Hrun]. right. split; [exact Hx'|]. exists p. split; [reflexivity|]. eauto.
    + destruct (xrun x (tp t)) as [x2|] eqn:Ex2; [|discriminate].
      assert (Hx' : xrun x' (tp t) = Some x2).
      { destruct Hrel as [->|(Hs & p & -> & calc0 & Hr)]; [exact Ex2|].
        eapply pending_ok; [exact Hprev|exact Hs|exact Eb|exact Hr|exact Ex2]. }
      rewrite tps_cons, xrun_app, Hx'.
      eapply IH; [|left; reflexivity|exact Hrun]. cbn [prev_run]. eauto.
Qed.

(** ** Printed pieces lex back *)

Inductive ptext : piece -> str -> Prop :=
| pt_char : forall c, ptext (PChar c) [c]
| pt_bs : ptext PBs [0x5C]
| pt_blank : forall c, blank_char c = true -> ptext PBlank [c]
| pt_str : forall t, ptext (PStr t) t
| pt_lic : forall b, ptext (PLic b) ([0x2F; 0x2A; 0x21] ++ b ++ [0x2A; 0x2F])
| pt_punct : forall c, ptext (PPunct c) [c].

Lemma star_head : forall h p t ts, hstep HSl p = Some h -> ptext p t ->
  match (t ++ concat ts) with d :: _ => d =? 0x2A | [] => false end = false.
Proof.
  intros h p t ts H Ht. inversion Ht; subst; cbn [app].
  - cbn [hstep] in H. destruct (wordc c) eqn:Ew; [|discriminate].
    destruct (N.eqb_spec c 42); [subst; discriminate|reflexivity].
  - reflexivity.
  - destruct (N.eqb_spec c 42); [subst; discriminate|reflexivity].
  - cbn [hstep] in H. destruct (strok t) eqn:Es; [|discriminate]. apply strok_inv in Es.
    destruct Es as (q & b & -> & [->| ->] & _); reflexivity.
  - reflexivity.
  - cbn [hstep] in H. destruct (N.eqb_spec c 42); [|reflexivity]. subst. discriminate.
Qed.

Lemma wordc_class : forall c, wordc c = true -> rchar_of c = None.
Proof. intros c H. unfold wordc in H. destruct (rchar_of c); [discriminate|reflexivity]. Qed.

Lemma lex_back : forall n ps ts h h', (length (concat ts) <= n)%nat -> hrun h ps = Some h' -> h <> HBs ->
  Forall2 ptext ps ts -> lexf n (concat ts) = (ps, None).
Proof.
  induction n as [|n IH]; intros ps ts h h' Hl Hr Hb HF.
  { destruct HF as [|p t ps ts Ht HF]; [reflexivity|]. exfalso.
    cbn [concat] in Hl. rewrite app_length in Hl.
    assert (t = []) by (destruct t; [reflexivity|cbn in Hl; lia]). subst t. inversion Ht; subst.
    cbn [hrun] in Hr. destruct h; discriminate. }
  destruct HF as [|p t ps ts Ht HF]; [reflexivity|].
  cbn [concat hrun] in *. destruct (hstep h p) as [h1|] eqn:Eh; [|discriminate].
  rewrite app_length in Hl.
  assert (Hgo : (length (concat ts) <= n)%nat -> h1 <> HBs -> lexf n (concat ts) = (ps, None)).
  { intros A B. eapply IH; eauto. }
  inversion Ht; subst.
  - (* a word character *)
    assert (Hw : wordc c = true).
    { cbn [hstep] in Eh. destruct h; try congruence; destruct (wordc c); congruence. }
    apply wordc_class in Hw. destruct (class_word c Hw) as (A1 & A2 & A3 & A4 & A5).
    cbn [app lexf]. rewrite A1, A2, A3, A4, A5. cbn [andb]. rewrite Hgo; [reflexivity|cbn in Hl; lia|].
    intros ->. cbn [hstep] in Eh. destruct h; try congruence; destruct (wordc c); try discriminate; destruct (c =? 64); discriminate.
  - (* a backslash *)
    assert (h1 = HBs) by (cbn in Eh; destruct h; congruence). subst h1.
    cbn [app lexf]. change (92 =? 92) with true. cbn iota.
    destruct HF as [|p2 t2 ps ts Ht2 HF]; [reflexivity|].
    cbn [hrun] in Hr. destruct p2; cbn in Hr; try discriminate. inversion Ht2; subst. cbn [concat app].
    assert (Hi : lexf n (concat ts) = (ps, None)).
    { apply (IH ps ts HE h'); [|exact Hr|discriminate|exact HF].
      cbn in Hl. lia. }
    rewrite Hi. reflexivity.
  - cbn [app]. rewrite lexf_blank by assumption. rewrite Hgo; [reflexivity|cbn in Hl; lia|].
    intros ->. destruct h; discriminate.
  - assert (Hs : strok t = true).
    { cbn [hstep] in Eh. destruct h; try congruence; destruct (strok t); congruence. }
    assert (h1 = HN) by (cbn [hstep] in Eh; rewrite Hs in Eh; destruct h; congruence). subst h1.
    apply strok_inv in Hs. destruct Hs as (q & b & -> & Hq & Hbody).
    cbn [app]. rewrite lexf_string by exact Hq. rewrite Hbody. rewrite Hgo; [reflexivity|cbn in Hl; lia|discriminate].
  - assert (Hs : licok b = true).
    { cbn [hstep] in Eh. destruct h; try congruence; destruct (licok b); congruence. }
    assert (h1 = HN) by (cbn [hstep] in Eh; rewrite Hs in Eh; destruct h; congruence). subst h1.
    cbn [app]. rewrite lexf_comment. unfold comment_at. change (33 =? 33) with true. cbn [orb].
    rewrite <- app_assoc. rewrite licok_body by exact Hs. cbn [option_map fst snd].
    rewrite Hgo; [reflexivity|cbn in Hl; lia|discriminate].
  - assert (Hp : punct_char c = true).
    { cbn [hstep] in Eh. destruct h; try congruence; destruct (punct_char c); congruence. }
    assert (Hrs : h1 <> HBs).
    { apply runst_not_bs. eapply hstep_runst; eauto. exact I. }
    cbn [app].
    destruct (N.eqb_spec c 0x2F) as [->|Hns].
    + rewrite lexf_slash.
      * rewrite Hgo; [reflexivity|cbn in Hl; lia|exact Hrs].
      * assert (h1 = HSl) by (cbn in Eh; destruct h; congruence). subst h1.
        destruct HF as [|p2 t2 ps ts Ht2 HF]; [reflexivity|]. cbn [hrun] in Hr.
        destruct (hstep HSl p2) eqn:E2; [|discriminate]. cbn [concat].
        eapply star_head; eauto.
    + destruct (punct_char_rchar c Hp) as (k & Hk & -> & Hu & K1 & K2 & K3).
      rewrite lexf_punct; auto.
      * rewrite Hgo; [reflexivity|cbn in Hl; lia|exact Hrs].
      * intros ->. apply Hns. reflexivity.
Qed.

Lemma Forall2_chars : forall s, Forall2 ptext (map PChar s) (map (fun c => [c]) s).
Proof. induction s; constructor; auto. constructor. Qed.

Lemma concat_chars : forall s : str, concat (map (fun c => [c]) s) = s.
Proof. induction s as [|c s IH]; [reflexivity|]. cbn. rewrite IH. reflexivity. Qed.

Lemma wordp_text : forall s b x, xrun b (wordp s) = Some x -> exists ts, Forall2 ptext (wordp s) ts /\ concat ts = s.
Proof.
  intros [|c s] b x H.
  - cbn in H. unfold xstep in H. cbn in H. destruct (fst b); discriminate.
  - exists (map (fun c => [c]) (c :: s)). split; [apply Forall2_chars|apply concat_chars].
Qed.

Lemma token_text : forall t b x, is_comment t = false -> xrun b (tp t) = Some x ->
  exists ts, Forall2 ptext (tp t) ts /\ concat ts = token_show t.
Proof.
  intros t b x Hc H.
  assert (Hcons : forall c s y, xrun y (PChar c :: wordp s) = Some x -> exists ts, Forall2 ptext (wordp s) ts /\ concat ts = s).
  { intros c s y E. cbn [xrun] in E. destruct (xstep y (PChar c)); [|discriminate]. eapply wordp_text; eauto. }
  destruct t as [bd|bd|k|s|e|s|o|o]; cbn [tp] in *; try discriminate.
  - exists [[0x2F; 0x2A; 0x21] ++ bd ++ [0x2A; 0x2F]; [0xA]]. split.
    + repeat constructor.
    + unfold token_show. cbn. rewrite <- !app_assoc. reflexivity.
  - exists [[rchar_show k]]. unfold token_show. cbn. split; [|reflexivity].
    destruct (rchar_useless k) eqn:Eu.
    + constructor; [|constructor]. constructor. destruct k; try discriminate; reflexivity.
    + destruct k; try discriminate; repeat constructor.
  - destruct (wordp_text _ _ _ H) as (ts & A & B). exists ts. split; [exact A|]. rewrite B.
    unfold token_show. cbn. symmetry. apply app_nil_r.
  - destruct e as [s|s|s|s|s]; unfold token_show; cbn [token_chunks selement_chunks].
    + cbn [xrun] in H. destruct (xstep b (PPunct 58)) as [y|]; [|discriminate].
      destruct (wordp_text _ _ _ H) as (ts & A & B). exists ([0x3A] :: ts). split; [constructor; [constructor|exact A]|].
      cbn. rewrite B, app_nil_r. reflexivity.
    + destruct (Hcons _ _ _ H) as (ts & A & B). exists ([0x2E] :: ts). split; [constructor; [constructor|exact A]|].
      cbn. rewrite B, app_nil_r. reflexivity.
    + destruct (Hcons _ _ _ H) as (ts & A & B). exists ([0x23] :: ts). split; [constructor; [constructor|exact A]|].
      cbn. rewrite B, app_nil_r. reflexivity.
    + destruct (wordp_text _ _ _ H) as (ts & A & B). exists ts. split; [exact A|]. rewrite B.
      cbn. symmetry. apply app_nil_r.
    + rewrite app_comm_cons in H. apply xrun_snoc in H. destruct H as (z & H & _).
      cbn [xrun] in H. destruct (xstep b (PChar 64)) as [y|]; [|discriminate].
      destruct (wordp_text _ _ _ H) as (ts & A & B). exists ([0x40] :: ts ++ [[0x20]]). split.
      * constructor; [constructor|]. apply Forall2_app; [exact A|]. constructor; [|constructor]. constructor. reflexivity.
      * cbn. rewrite concat_app, B. cbn. rewrite ?app_nil_r. reflexivity.
  - exists [s]. split; [repeat constructor|]. reflexivity.
  - destruct o; unfold token_show; cbn;
      (eexists [[_]; [_]]; split; [constructor; [constructor|constructor; [constructor|constructor]]|reflexivity]).
  - exfalso. cbn in H. unfold xstep in H. cbn in H. destruct (fst b); discriminate.
Qed.

Lemma tokens_text : forall l b x, Forall (fun t => is_comment t = false) l -> xrun b (tps l) = Some x ->
  exists ts, Forall2 ptext (tps l) ts /\ concat ts = concat (map token_show l).
Proof.
  induction l as [|t l IH]; intros b x HF H.
  - exists []. split; constructor.
  - inversion HF; subst. rewrite tps_cons, xrun_app in H. destruct (xrun b (tp t)) as [y|] eqn:E; [|discriminate].
    destruct (token_text t b y H2 E) as (ts1 & A1 & B1). destruct (IH y x H3 H) as (ts2 & A2 & B2).
    exists (ts1 ++ ts2). split; [rewrite tps_cons; apply Forall2_app; assumption|].
    rewrite concat_app, B1, B2. reflexivity.
Qed.

Lemma cz_no_comment : forall l prev calc paren, Forall (fun t => is_comment t = false) (cz prev calc paren l).
Proof.
  induction l as [|t l IH]; intros prev calc paren; cbn [cz]; [constructor|].
  destruct (calc_step t calc paren) as [calc' paren'].
  destruct (blankish t) eqn:E.
  - destruct (match prev with Some p => _ | None => true end); [|apply IH].
    constructor; [|apply IH]. destruct (is_comment t) eqn:Ec; [reflexivity|exact Ec].
  - constructor; [|apply IH]. unfold blankish in E. apply orb_false_iff in E. tauto.
Qed.

Theorem css_output_lexes : forall alpha s o,
  css_minify alpha s = Ok o -> regular s ->
  exists out y, lex o = (tps out, None) /\ Forall (fun t => is_comment t = false) out /\
    xrun x0 (tps out) = Some y /\ ifinish (snd y) = items s.
Proof.
  intros alpha s o H Hreg. pose proof (css_minify_cases alpha s) as Hc.
  destruct (css_problem s); [congruence|]. destruct Hc as (v & Hv & Ho). rewrite Ho in H. injection H as <-.
  destruct (lex_accept s Hreg) as [h Hh].
  assert (Hx : exists x, xrun x0 (fst (lex s)) = Some x).
  { rewrite xrun_hrun. cbn [fst x0]. rewrite Hh. cbn. eauto. }
  destruct Hx as [x Hx]. pose proof (xrun_items _ _ Hx) as Hi.
  assert (HA : AI pinit x0).
  { exists x0. split; [reflexivity|]. split; [reflexivity|]. split; [split; intro E; vm_compute in E; discriminate E|].
    split; [right; exact I|]. intro E. cbn in E. congruence. }
  destruct (prun_AI alpha _ _ _ _ _ HA Hx Hv) as (y & Hy & Ey).
  destruct (cz_run v None false 0 x0 x0 y eq_refl (or_introl eq_refl) Hy) as (y' & Hy' & Ey').
  exists (cz None false 0 v), y'. pose proof (cz_no_comment v None false 0) as Hnc.
  destruct (tokens_text _ _ _ Hnc Hy') as (ts & HF & Ec).
  split.
  - unfold lex. rewrite <- Ec. apply (lex_back _ _ _ HN (fst y')); [apply le_n| |discriminate|exact HF].
    apply xrun_fst in Hy'. exact Hy'.
  - split; [exact Hnc|]. split; [exact Hy'|]. rewrite Ey', Ey. exact Hi.
Qed.
