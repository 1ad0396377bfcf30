(** No blank is added: the pieces of the output come from those of the source. *)
From Coq Require Import String Arith List NArith ZArith Bool Lia ZifyBool ZifyN.
From Verif Require Import Base CssModel CssSpec CssGapSpec CssProofs1 CssProofs2 CssProofs3 CssProofs4 CssProofs5 CssProofs6 CssProofs7 CssProofs8 CssProofs9 CssProofs10.
Import ListNotations.
Open Scope N_scope.

(** ** Dropping separators *)

Inductive shrinks : list piece -> list piece -> Prop :=
| sk_nil : shrinks [] []
| sk_keep : forall a b p, shrinks a b -> shrinks (p :: a) (p :: b)
| sk_drop : forall a b p, shrinks a b -> separator p -> shrinks a (p :: b)
| sk_blank : forall a b p, shrinks a b -> separator p -> shrinks (PBlank :: a) (p :: b).

Lemma shrinks_refl : forall a, shrinks a a.
Proof. induction a; constructor; assumption. Qed.

Lemma shrinks_app : forall a b, shrinks a b -> forall c d, shrinks c d -> shrinks (a ++ c) (b ++ d).
Proof. intros a b H. induction H; intros c d K; cbn [app]; [exact K|apply sk_keep|apply sk_drop|apply sk_blank]; auto. Qed.

Lemma shrinks_snoc : forall b p a, shrinks a (b ++ [p]) ->
  exists a', shrinks a' b /\ (a = a' ++ [p] \/ separator p /\ (a = a' \/ a = a' ++ [PBlank])).
Proof.
  induction b as [|x b IH]; intros p a H; cbn [app] in H.
  - inversion H as [|a0 b0 p0 K|a0 b0 p0 K S|a0 b0 p0 K S]; subst; inversion K; subst; exists []; (split; [constructor|]); auto.
  - inversion H as [|a0 b0 p0 K|a0 b0 p0 K S|a0 b0 p0 K S]; subst; destruct (IH p a0 K) as (a' & K' & E) || destruct (IH p a K) as (a' & K' & E).
    + exists (x :: a'). split; [constructor; exact K'|]. destruct E as [->|[Sp [->| ->]]]; auto.
    + exists a'. split; [apply sk_drop; assumption|exact E].
    + exists (PBlank :: a'). split; [apply sk_blank; assumption|]. destruct E as [->|[Sp [->| ->]]]; auto.
Qed.

Lemma blank_last_shrinks : forall a b, shrinks a b -> ~ blank_last b -> ~ blank_last a.
Proof.
  intros a b H N (q & g & -> & S). induction b as [|p b _] using rev_ind.
  - inversion H as [E| | |]. destruct q; discriminate.
  - destruct (shrinks_snoc b p _ H) as (a' & _ & [E|[Sp _]]).
    + apply app_inj_tail in E. destruct E as [_ <-]. apply N. exists b, g. auto.
    + apply N. exists b, p. auto.
Qed.

Lemma tame_shrinks : forall full s o, tame full s o -> forall o', shrinks o' o -> tame full s o'.
Proof.
  intros full s o H. induction H as [|s o p H IH|s o p H IH S|s o p H IH S|s o r H IH E R W B|s o b H IH]; intros o' K.
  - inversion K. constructor.
  - destruct (shrinks_snoc _ _ _ K) as (a & Ka & [->|[Sp [->| ->]]]).
    + apply tm_keep. auto.
    + apply tm_drop; auto.
    + apply tm_blank; auto.
  - apply tm_drop; auto.
  - destruct (shrinks_snoc _ _ _ K) as (a & Ka & [->|[Sp [->| ->]]]); [apply tm_blank|apply tm_drop|apply tm_blank]; auto.
  - pose proof (fun a (Ka : shrinks a o) => blank_last_shrinks a o Ka B) as B'.
    destruct (shrinks_snoc _ _ _ K) as (a & Ka & [->|[Sp [->| ->]]]).
    + eapply tm_rule; eauto.
    + auto.
    + eapply tm_rule; eauto.
  - change (o ++ [PLic b; PBlank]) with (o ++ [PLic b] ++ [PBlank]) in K. rewrite app_assoc in K.
    assert (L : forall a, shrinks a (o ++ [PLic b]) -> exists a', shrinks a' o /\ a = a' ++ [PLic b]).
    { intros a Ka. destruct (shrinks_snoc _ _ _ Ka) as (a' & Ka' & [->|[[Sp|[c Sp]] _]]); try discriminate. eauto. }
    destruct (shrinks_snoc _ _ _ K) as (a & Ka & [->|[Sp [->| ->]]]); destruct (L a Ka) as (a' & Ka' & ->).
    + rewrite <- app_assoc. apply tm_licence. auto.
    + apply tm_keep. auto.
    + rewrite <- app_assoc. apply tm_licence. auto.
Qed.

(** ** clean_tokens only drops separators *)

Lemma blankish_tp : forall t, blankish t = true -> exists p, tp t = [p] /\ separator p.
Proof.
  intros t H. destruct t as [b| |k| | | | |]; try discriminate.
  - exists (PCom b). split; [reflexivity|right; eauto].
  - exists PBlank. unfold blankish in H. cbn in H. rewrite orb_false_r in H. cbn. rewrite H. split; [reflexivity|left; reflexivity].
Qed.

Lemma cz_shrinks : forall l prev calc paren, shrinks (tps (cz prev calc paren l)) (tps l).
Proof.
  induction l as [|t l IH]; intros prev calc paren; cbn [cz]; [constructor|].
  destruct (calc_step t calc paren) as [calc' paren']. rewrite (tps_cons t l).
  destruct (blankish t) eqn:B.
  - destruct (blankish_tp t B) as (p & E & S). rewrite E. cbn [app].
    destruct (match prev with Some p0 => retain_blank p0 (hd_error l) calc' | None => true end).
    + rewrite tps_cons. destruct (is_comment t) eqn:C.
      * change (tp (TChar Space)) with [PBlank]. cbn [app]. apply sk_blank; [apply IH|exact S].
      * rewrite E. cbn [app]. apply sk_keep. apply IH.
    + apply sk_drop; [apply IH|exact S].
  - rewrite tps_cons. apply shrinks_app; [apply shrinks_refl|apply IH].
Qed.

Section Alpha.
Variable alpha : N -> bool.

(** ** The tokenizer *)

Lemma chars_keep : forall w st st', pmulti alpha st (map PChar w) = Ok st' ->
  mblock st' = mblock st /\ mmedia st' = mmedia st /\ mattr st' = mattr st.
Proof.
  induction w as [|c w IH]; intros st st' H; cbn [map pmulti] in H; [injection H as <-; auto|].
  destruct (pstep alpha st (PChar c)) as [st1| | |] eqn:E; try discriminate. cbn [obind] in H.
  destruct (IH _ _ H) as (A & B & C). rewrite A, B, C. cbn [pstep] in E.
  destruct (mesc st); injection E as <-; auto.
Qed.

(** The pieces of the tokens [v]: those of the source, up to blanks. *)
Definition tame_state (full done : list piece) (st : pst) : Prop :=
  tame full done (tps (rev (mv st)) ++ map PChar (mseg st)).

Lemma blank_last_char : forall q w, w <> [] -> ~ blank_last (q ++ map PChar w).
Proof.
  intros q w Hw (r & g & E & S). destruct (@exists_last _ w Hw) as (w' & c & ->).
  rewrite map_app, app_assoc in E. apply app_inj_tail in E. destruct E as [_ <-]. destruct S as [S|[b S]]; discriminate.
Qed.

Lemma fillp_tame : forall full done rest st x, full = done ++ rest -> Forall punct_ok done -> before alpha done st -> AI st x ->
  ~ word_next rest \/ (exists r, rest = PBs :: r /\ fst x <> HA1) -> tame_state full done st -> tame full done (tps (rev (fillp alpha st))).
Proof.
  intros full done rest st x Ef HF Hb (y & H1 & H2 & _ & _ & Hr) Hw T. unfold tame_state in T. unfold fillp.
  destruct (mseg st) as [|c0 seg0] eqn:Es; [cbn [map] in T; rewrite app_nil_r in T; exact T|].
  rewrite <- Es in *. assert (Hne : mseg st <> []) by (rewrite Es; discriminate). specialize (Hr Hne).
  assert (Hwc : Forall (fun c => wordc c = true) (mseg st)).
  { apply xrun_fst in H2. eapply hrun_word_run; eauto. }
  assert (Hp : wordp (mseg st) = map PChar (mseg st)) by (rewrite Es; reflexivity).
  assert (Ho : tame full done (tps (rev (TOther (mseg st) :: mv st)))).
  { rewrite tps_snoc. cbn [tp]. rewrite Hp. exact T. }
  destruct (run_split alpha done st HF Hb Hne) as (q & Eq & Hq).
  destruct (selector_context (mblock st) (mmedia st) (mattr st)) eqn:Esc; [|exact Ho].
  destruct (some_and (is_the_char Colon) (hd_error (mv st))) eqn:Ec.
  - destruct (mcol st); [|exact Ho].
    destruct (selement_of alpha (58 :: mseg st)) as [e|] eqn:Ee; [|exact Ho].
    cbn in Ee. rewrite Es in Ee. injection Ee as <-.
    destruct (mv st) as [|t v]; [discriminate|]. cbn [hd_error some_and] in Ec. cbn [tl].
    destruct t; try discriminate. cbn in Ec. apply rchar_eqb_eq in Ec. subst c.
    rewrite tps_snoc. rewrite tps_snoc in T. rewrite <- app_assoc in T.
    assert (X : tp (TSelectorElement (PseudoClass (c0 :: seg0))) = tp (TChar Colon) ++ map PChar (mseg st)) by (rewrite Es; reflexivity).
    rewrite X. exact T.
  - destruct (selement_of alpha (mseg st)) as [e|] eqn:Ee; [|exact Ho].
    pose proof (selement_tp _ _ _ Ee Hwc) as Ht.
    destruct e as [s|s|s|s|s]; try (rewrite tps_snoc, Ht; exact T).
    destruct Ht as [Ht Hs].
    assert (Hx : fst x = HA1).
    { apply xrun_fst in H2. rewrite Ht in H2. eapply hrun_at; eauto. }
    destruct Hw as [Hw|(r & _ & Hnx)]; [|congruence].
    rewrite tps_snoc. cbn [tp].
    assert (Hs' : wordp s = map PChar s) by (destruct s; [congruence|reflexivity]). rewrite Hs'.
    change (PChar 64 :: map PChar s ++ [PBlank]) with (map PChar (64 :: s) ++ [PBlank]). rewrite <- Ht, app_assoc.
    apply (tm_rule full done _ rest); [exact T|exact Ef| |exact Hw|apply blank_last_char; exact Hne].
    exists q, s. split; [rewrite Eq, Ht; reflexivity|]. split; [exact Hs|]. split; [exact Hq|].
    assert (Hsq : exists stq, before alpha q stq /\ pmulti alpha stq (map PChar (mseg st)) = Ok st).
    { unfold before in *. rewrite Eq, pmulti_app in Hb. destruct (pmulti alpha pinit q) as [stq| | |]; try discriminate. eauto. }
    destruct Hsq as (stq & Bq & Mq). destruct (chars_keep _ _ _ Mq) as (K1 & K2 & K3).
    assert (HFq : Forall punct_ok q) by (rewrite Eq in HF; apply Forall_app in HF; tauto).
    rewrite K1, K2, K3 in Esc. split.
    + intro Hd. rewrite (declaration_place alpha q stq HFq Bq Hd) in Esc. discriminate.
    + destruct (PI_before alpha q stq HFq Bq) as (_ & Hbr & _). unfold selector_context in Esc.
      destruct (mattr stq); [discriminate|]. congruence.
Qed.

Lemma pstep_tame : forall full done p rest st x x' st', full = done ++ p :: rest -> Forall punct_ok done -> punct_ok p ->
  before alpha done st -> AI st x -> xstep x p = Some x' -> pstep alpha st p = Ok st' ->
  tame_state full done st -> tame_state full (done ++ [p]) st'.
Proof.
  intros full done p rest st x x' st' Ef HF Hp Hb HA Hx Hs T.
  destruct (match p with PChar _ => true | _ => false end) eqn:Epc.
  { destruct p as [c| | | | | |]; try discriminate. cbn [pstep] in Hs. unfold tame_state in *.
    destruct HA as (y & H1 & H2 & H3 & H4 & H5).
    destruct (mesc st) eqn:Ee; injection Hs as <-; cbn [mv mseg mk map].
    - assert (Hbs : fst x = HBs) by (apply H3; reflexivity).
      assert (Hm : mseg st = []).
      { destruct (mseg st) eqn:Em; [reflexivity|]. exfalso. rewrite <- Em in *.
        assert (Hne : mseg st <> []) by (rewrite Em; discriminate).
        apply xrun_fst in H2. destruct (hrun_word_run _ _ _ H2 Hne (H5 Hne)) as [[E|[E|E]] _]; congruence. }
      rewrite Hm in T. cbn [map] in T. rewrite app_nil_r in T |- *. rewrite tps_snoc. apply tm_keep. exact T.
    - rewrite map_app, app_assoc. apply tm_keep. exact T. }
  assert (F : tame full done (tps (rev (fillp alpha st)))).
  { eapply fillp_tame; [exact Ef|exact HF|exact Hb|exact HA| |exact T].
    destruct p as [c| | |t|b|b|c]; try discriminate; try (left; intros [E|[d E]]; discriminate).
    right. exists rest. split; [reflexivity|]. intro E. unfold xstep in Hx. rewrite E in Hx. discriminate. }
  unfold tame_state.
  assert (G : forall t, tp t = [p] -> mv st' = t :: fillp alpha st -> mseg st' = [] -> tame full (done ++ [p]) (tps (rev (mv st')) ++ map PChar (mseg st'))).
  { intros t Et -> ->. cbn [map]. rewrite app_nil_r, tps_snoc, Et. apply tm_keep. exact F. }
  pose proof (pstep_cases alpha st p st' Hp Hs) as (HC & HM & _).
  destruct p as [c| | |t|b|b|c]; try discriminate.
  - destruct HC as [E _]. eapply G; eauto; reflexivity.
  - destruct HC as [E _]. destruct (push_blank (fillp alpha st)); [eapply G; eauto; reflexivity|].
    rewrite E, HM. cbn [map]. rewrite app_nil_r. apply tm_drop; [exact F|left; reflexivity].
  - destruct HC as [E _]. eapply G; eauto; reflexivity.
  - destruct HC as [E _]. eapply G; eauto; reflexivity.
  - destruct HC as [E _]. rewrite E, HM. cbn [map]. rewrite app_nil_r, tps_snoc. cbn [piece_token tp]. apply tm_licence. exact F.
  - destruct HC as (k & Hk & Hc & Hu & [[E _]|(o & -> & Eo & E & _)]).
    + eapply G; [|exact E|exact HM]. cbn [tp]. rewrite Hu.
      destruct (punct_char_rchar c Hp) as (k' & Hk' & _ & _ & X1 & X2 & X3). assert (k' = k) by congruence. subst k'.
      rewrite Hc. destruct k; first [congruence|reflexivity|exfalso; congruence].
    + rewrite E, HM. cbn [map]. rewrite app_nil_r. revert Eo F. destruct (fillp alpha st) as [|t v]; [discriminate|].
      cbn [tl equal_operator hd_error]. intros Eo F.
      assert (Ht : tp t ++ [PPunct c] = tp (TSelectorOperator o)).
      { destruct t as [| |k| | | | |]; try discriminate. rewrite Hc. destruct k; try discriminate; injection Eo as <-; reflexivity. }
      rewrite tps_snoc in *. rewrite <- Ht, app_assoc. apply tm_keep. exact F.
Qed.

Lemma prun_tame : forall rest full done st x x' v, full = done ++ rest -> Forall punct_ok full ->
  before alpha done st -> AI st x -> xrun x rest = Some x' -> prun alpha st rest None = Ok v ->
  tame_state full done st -> tame full full (tps v).
Proof.
  induction rest as [|p rest IH]; intros full done st x x' v Ef HF Hb HA Hx Hr T.
  - rewrite app_nil_r in Ef. subst full. rewrite prun_nil in Hr. injection Hr as <-.
    eapply fillp_tame; [symmetry; apply app_nil_r|exact HF|exact Hb|exact HA|left; intros []|exact T].
  - cbn [prun xrun] in Hx, Hr. destruct (xstep x p) as [x1|] eqn:E1; [|discriminate].
    destruct (pstep alpha st p) as [st1| | |] eqn:E2; cbn [obind] in Hr; try discriminate.
    assert (HFd : Forall punct_ok done /\ punct_ok p) by (rewrite Ef in HF; apply Forall_app in HF; destruct HF as [A B]; inversion B; auto).
    apply (IH full (done ++ [p]) st1 x1 x' v); auto.
    + rewrite <- app_assoc. exact Ef.
    + unfold before in *. rewrite pmulti_app, Hb. cbn [obind pmulti]. rewrite E2. reflexivity.
    + eapply pstep_AI; eauto.
    + eapply (pstep_tame full done p rest st x); eauto; tauto.
Qed.

Theorem css_tame : forall s o, css_minify alpha s = Ok o -> regular s ->
  tame (fst (lex s)) (fst (lex s)) (fst (lex o)).
Proof.
  intros s o H Hreg. pose proof (css_minify_cases alpha s) as Hc. destruct (css_problem s); [congruence|].
  destruct Hc as (v & Hv & Ho). rewrite Ho in H. injection H as <-.
  rewrite (output_pieces alpha s _ v Hreg Hv eq_refl).
  destruct (lex_accept s Hreg) as [h Hh].
  apply (tame_shrinks _ _ (tps v)); [|apply cz_shrinks].
  eapply (prun_tame (fst (lex s)) (fst (lex s)) [] pinit x0); [reflexivity|apply lex_punct_ok|reflexivity|exact AI_init| |exact Hv|].
  - rewrite xrun_hrun. cbn [fst x0]. rewrite Hh. reflexivity.
  - unfold tame_state. cbn. constructor.
Qed.

End Alpha.

(** ** Neighbours stay neighbours *)

Lemma solid_app : forall a b, solid (a ++ b) = solid a ++ solid b.
Proof. intros. apply filter_app. Qed.

Lemma solid_separator : forall p, separator p -> solid [p] = [].
Proof. intros p [->|[b ->]]; reflexivity. Qed.

Lemma tame_solid : forall full s o, tame full s o -> solid o = solid s.
Proof.
  intros full s o H. induction H as [|s o p H IH|s o p H IH S|s o p H IH S|s o r H IH E R W B|s o b H IH];
    rewrite ?solid_app, ?IH; try reflexivity.
  - rewrite (solid_separator p S), app_nil_r. reflexivity.
  - rewrite (solid_separator p S). reflexivity.
  - apply app_nil_r.
Qed.

Lemma tame_last : forall full s o, tame full s o -> forall q a, s = q ++ [a] -> ~ separator a -> (forall b, a <> PLic b) ->
  (~ rule_word s \/ exists r, full = s ++ r /\ word_next r) -> exists o', o = o' ++ [a] /\ tame full q o'.
Proof.
  intros full s o H. destruct H as [|s o p H|s o p H S|s o p H S|s o r H E R W B|s o b H]; intros q a Es Ha Hl Hr.
  - destruct q; discriminate.
  - apply app_inj_tail in Es. destruct Es as [-> ->]. eauto.
  - apply app_inj_tail in Es. destruct Es as [_ ->]. contradiction.
  - apply app_inj_tail in Es. destruct Es as [_ ->]. contradiction.
  - exfalso. destruct Hr as [Hr|(r' & E' & W')]; [contradiction|]. rewrite E in E'. apply app_inv_head in E'. subst r'. contradiction.
  - apply app_inj_tail in Es. destruct Es as [_ E]. exfalso. apply (Hl b). congruence.
Qed.

Lemma tame_adjacent : forall full s o, tame full s o -> forall q a b post, s = q ++ a :: b :: post -> (exists r, full = s ++ r) ->
  ~ separator a -> ~ separator b -> (forall l, a <> PLic l) ->
  ~ rule_word (q ++ [a]) \/ word_piece b ->
  exists p1 p2, o = p1 ++ a :: b :: p2 /\ solid p1 = solid q /\ solid p2 = solid post.
Proof.
  intros full s o H. induction H as [|s o p H IH|s o p H IH S|s o p H IH S|s o r H IH E R W B|s o c H IH];
    intros q a b post Es Hfull Ha Hb Hl Hr.
  - destruct q; discriminate.
  - destruct (exists_last (l := b :: post)) as (post' & z & Ez); [discriminate|]. rewrite Ez in Es.
    change (q ++ a :: post' ++ [z]) with (q ++ (a :: post') ++ [z]) in Es. rewrite app_assoc in Es.
    apply app_inj_tail in Es. destruct Es as [-> ->].
    destruct Hfull as [r Ef].
    destruct post' as [|b' post'].
    + injection Ez as -> ->. destruct (tame_last _ _ _ H q a eq_refl Ha Hl) as (o' & -> & H').
      { destruct Hr as [Hr|Hr]; [left; exact Hr|right]. exists (z :: r). split; [rewrite <- app_assoc in Ef; exact Ef|exact Hr]. }
      exists o', []. split; [rewrite <- app_assoc; reflexivity|]. split; [eapply tame_solid; eauto|reflexivity].
    + injection Ez as <- ->. destruct (IH q a b post' eq_refl) as (p1 & p2 & -> & S1 & S2); auto.
      { exists (z :: r). rewrite <- app_assoc in Ef. exact Ef. }
      exists p1, (p2 ++ [z]). split; [rewrite <- app_assoc; reflexivity|]. split; [exact S1|]. rewrite !solid_app, S2. reflexivity.
  - destruct (exists_last (l := b :: post)) as (post' & z & Ez); [discriminate|]. rewrite Ez in Es.
    change (q ++ a :: post' ++ [z]) with (q ++ (a :: post') ++ [z]) in Es. rewrite app_assoc in Es.
    apply app_inj_tail in Es. destruct Es as [-> ->]. destruct Hfull as [r Ef].
    destruct post' as [|b' post']; [injection Ez as -> ->; contradiction|]. injection Ez as <- ->.
    destruct (IH q a b post' eq_refl) as (p1 & p2 & -> & S1 & S2); auto.
    { exists (z :: r). rewrite <- app_assoc in Ef. exact Ef. }
    exists p1, p2. split; [reflexivity|]. split; [exact S1|]. rewrite solid_app, (solid_separator z S), app_nil_r. exact S2.
  - destruct (exists_last (l := b :: post)) as (post' & z & Ez); [discriminate|]. rewrite Ez in Es.
    change (q ++ a :: post' ++ [z]) with (q ++ (a :: post') ++ [z]) in Es. rewrite app_assoc in Es.
    apply app_inj_tail in Es. destruct Es as [-> ->]. destruct Hfull as [r Ef].
    destruct post' as [|b' post']; [injection Ez as -> ->; contradiction|]. injection Ez as <- ->.
    destruct (IH q a b post' eq_refl) as (p1 & p2 & -> & S1 & S2); auto.
    { exists (z :: r). rewrite <- app_assoc in Ef. exact Ef. }
    exists p1, (p2 ++ [PBlank]). split; [rewrite <- app_assoc; reflexivity|]. split; [exact S1|]. rewrite !solid_app, (solid_separator z S), S2. reflexivity.
  - subst s. destruct (IH q a b post eq_refl) as (p1 & p2 & -> & S1 & S2); auto.
    exists p1, (p2 ++ [PBlank]). split; [rewrite <- app_assoc; reflexivity|]. split; [exact S1|]. rewrite solid_app, S2. apply app_nil_r.
  - destruct (exists_last (l := b :: post)) as (post' & z & Ez); [discriminate|]. rewrite Ez in Es.
    change (q ++ a :: post' ++ [z]) with (q ++ (a :: post') ++ [z]) in Es. rewrite app_assoc in Es.
    apply app_inj_tail in Es. destruct Es as [-> Ec]. destruct Hfull as [r Ef].
    destruct post' as [|b' post'].
    + injection Ez as -> ->. destruct (tame_last _ _ _ H q a eq_refl Ha Hl) as (o' & -> & H').
      { destruct Hr as [Hr|Hr]; [left; exact Hr|right]. exists (PLic c :: r). split; [rewrite <- app_assoc in Ef; exact Ef|cbn [word_next]; rewrite Ec; exact Hr]. }
      exists o', [PBlank]. split; [rewrite <- app_assoc, Ec; reflexivity|]. split; [eapply tame_solid; eauto|reflexivity].
    + injection Ez as <- ->. destruct (IH q a b post' eq_refl) as (p1 & p2 & -> & S1 & S2); auto.
      { exists (PLic c :: r). rewrite <- app_assoc in Ef. exact Ef. }
      exists p1, (p2 ++ [PLic c; PBlank]). split; [rewrite <- app_assoc; reflexivity|]. split; [exact S1|].
      rewrite !solid_app, S2, <- Ec. reflexivity.
Qed.
