(** An automaton on pieces: accepts exactly the piece lists that a lexer can produce and that
    contain none of the three unsafe layouts, and computes the lexical items on the way. *)
From Coq Require Import String Arith List NArith ZArith Bool Lia.
From Verif Require Import Base CssModel CssSpec CssProofs1 CssProofs2 CssProofs3.
Import ListNotations.
Open Scope N_scope.

Inductive hst := HN | HBs | HE | HA0 | HA1 | HW | HWS | HSl | HSlS | HSS.

Definition wordc (c : N) : bool := match rchar_of c with None => true | _ => false end.

Definition strok (t : str) : bool :=
  match t with
  | [] => false
  | q :: b => ((q =? 0x27) || (q =? 0x22)) &&
              match str_body q b with Some (_, []) => true | _ => false end
  end.

Definition licok (b : str) : bool :=
  match com_body (b ++ [0x2A; 0x2F]) with Some (_, []) => true | _ => false end.

Definition hsep (h : hst) : option hst :=
  match h with
  | HBs => None
  | HE | HA0 | HA1 | HW | HWS => Some HWS
  | HSl | HSlS => Some HSlS
  | HN | HSS => Some HN
  end.

Definition hstep (h : hst) (p : piece) : option hst :=
  match p with
  | PChar c =>
      match h with
      | HBs => Some HE
      | HN | HE | HWS | HSl | HSlS | HSS =>
          if wordc c then Some (if c =? 0x40 then HA0 else HW) else None
      | HA0 | HA1 => if wordc c then Some HA1 else None
      | HW => if wordc c then Some HW else None
      end
  | PBs => match h with HBs | HA1 | HWS => None | _ => Some HBs end
  | PBlank | PCom _ => hsep h
  | PStr t => match h with HBs => None | _ => if strok t then Some HN else None end
  | PLic b => match h with HBs => None | _ => if licok b then Some HN else None end
  | PPunct c =>
      match h with
      | HBs => None
      | _ =>
          if punct_char c then
            if c =? 0x2F then Some HSl
            else if c =? 0x2A then match h with HSl => None | HSlS => Some HSS | _ => Some HN end
            else if c =? 0x3D then match h with HSS => None | _ => Some HN end
            else Some HN
          else None
      end
  end.

Definition istep (a : list item * str) (p : piece) : list item * str :=
  match p with
  | PChar c => (fst a, snd a ++ [c])
  | PBs => (fst a, snd a ++ [0x5C])
  | PBlank | PCom _ => (fst a ++ flush (snd a) [], [])
  | PStr t => (fst a ++ flush (snd a) [IStr t], [])
  | PLic b => (fst a ++ flush (snd a) [ILic b], [])
  | PPunct c => (fst a ++ flush (snd a) [IPunct c], [])
  end.

Definition ifinish (a : list item * str) : list item := fst a ++ flush (snd a) [].

Definition xst := (hst * (list item * str))%type.

Definition xstep (x : xst) (p : piece) : option xst :=
  option_map (fun h => (h, istep (snd x) p)) (hstep (fst x) p).

Fixpoint xrun (x : xst) (ps : list piece) : option xst :=
  match ps with
  | [] => Some x
  | p :: r => match xstep x p with Some y => xrun y r | None => None end
  end.

Fixpoint hrun (h : hst) (ps : list piece) : option hst :=
  match ps with
  | [] => Some h
  | p :: r => match hstep h p with Some y => hrun y r | None => None end
  end.

Definition x0 : xst := (HN, ([], [])).

Lemma xrun_hrun : forall ps x, xrun x ps = option_map (fun h => (h, fold_left istep ps (snd x))) (hrun (fst x) ps).
Proof.
  induction ps as [|p ps IH]; intros [h a]; cbn [xrun hrun fold_left option_map fst snd]; [reflexivity|].
  unfold xstep. cbn [fst snd]. destruct (hstep h p); cbn [option_map]; [|reflexivity].
  rewrite IH. reflexivity.
Qed.

Lemma xrun_app : forall a b x, xrun x (a ++ b) = match xrun x a with Some y => xrun y b | None => None end.
Proof.
  induction a as [|p a IH]; intros b x; cbn [app xrun]; [reflexivity|].
  destruct (xstep x p); [apply IH|reflexivity].
Qed.

Lemma hrun_app : forall a b x, hrun x (a ++ b) = match hrun x a with Some y => hrun y b | None => None end.
Proof.
  induction a as [|p a IH]; intros b x; cbn [app hrun]; [reflexivity|].
  destruct (hstep x p); [apply IH|reflexivity].
Qed.

Lemma flush_app : forall w l m, flush w (l ++ m) = flush w l ++ m.
Proof. intros [|c w] l m; reflexivity. Qed.

Lemma flush_nil_cons : forall w x l, flush w (x :: l) = flush w [x] ++ l.
Proof. intros [|c w] x l; reflexivity. Qed.

Lemma items_from_fold : forall ps a, ifinish (fold_left istep ps a) = fst a ++ items_from (snd a) ps.
Proof.
  induction ps as [|p ps IH]; intros [acc w]; cbn [fold_left fst snd]; [reflexivity|].
  rewrite IH. destruct p; cbn [istep fst snd items_from]; try reflexivity;
    rewrite <- app_assoc; f_equal; try (rewrite <- flush_app; reflexivity);
    destruct w; reflexivity.
Qed.

Lemma xrun_items : forall ps y, xrun x0 ps = Some y -> ifinish (snd y) = items_from [] ps.
Proof.
  intros ps y H. rewrite xrun_hrun in H. destruct (hrun _ ps); [|discriminate].
  injection H as <-. cbn [snd fst x0]. rewrite items_from_fold. reflexivity.
Qed.

(** ** The automaton detects exactly the unsafe layouts *)

Definition runst (h : hst) : Prop :=
  match h with HN | HE | HWS | HSl | HSlS | HSS => True | _ => False end.
Definition wordish (h : hst) : Prop :=
  match h with HE | HA0 | HA1 | HW => True | _ => False end.

Definition hinv (h : hst) (done : list piece) : Prop :=
  match h with
  | HN | HE => run_starts done
  | HBs => exists pre, done = pre ++ [PBs]
  | HA0 => exists pre, done = pre ++ [PChar 0x40] /\ run_starts pre
  | HA1 => exists pre name, done = pre ++ PChar 0x40 :: map PChar name /\ name <> [] /\ run_starts pre
  | HW => True
  | HWS => run_starts done /\ exists pre w gap, done = pre ++ w :: gap /\ word_piece w /\ gap <> [] /\ Forall separator gap
  | HSl => run_starts done /\ exists pre, done = pre ++ [PPunct 0x2F]
  | HSlS => run_starts done /\ exists pre gap, done = pre ++ PPunct 0x2F :: gap /\ Forall separator gap
  | HSS => run_starts done /\ exists pre gap, done = pre ++ PPunct 0x2F :: gap ++ [PPunct 0x2A] /\ Forall separator gap
  end.

Lemma run_starts_snoc : forall done p, match p with PBs | PChar _ => False | _ => True end -> run_starts (done ++ [p]).
Proof.
  intros done p H. split.
  - intros pre' E. apply app_inj_tail in E. destruct E as [_ ->]. exact H.
  - intros pre' c E. apply app_inj_tail in E. destruct E as [_ ->]. contradiction.
Qed.

Lemma run_starts_esc : forall done c, run_starts ((done ++ [PBs]) ++ [PChar c]).
Proof.
  intros done c. split.
  - intros pre' E. apply app_inj_tail in E. destruct E as [_ E]. discriminate.
  - intros pre' d E. apply app_inj_tail in E. destruct E as [<- _]. eauto.
Qed.

Lemma run_starts_nil : run_starts [].
Proof.
  split.
  - intros pre' E. symmetry in E. apply app_eq_nil in E. destruct E; discriminate.
  - intros pre' c E. symmetry in E. apply app_eq_nil in E. destruct E; discriminate.
Qed.

(** Wordish states come right after a word piece. *)
Lemma wordish_last : forall h p h', hstep h p = Some h' -> wordish h' -> word_piece p.
Proof.
  intros h p h' H Hw. unfold word_piece. destruct p; eauto; exfalso.
  - destruct h; cbn [hstep hsep] in H; try discriminate; injection H as <-; exact Hw.
  - cbn [hstep hsep] in H. destruct h; try discriminate; destruct (strok t); try discriminate; injection H as <-; exact Hw.
  - destruct h; cbn [hstep hsep] in H; try discriminate; injection H as <-; exact Hw.
  - cbn [hstep hsep] in H. destruct h; try discriminate; destruct (licok b); try discriminate; injection H as <-; exact Hw.
  - cbn [hstep hsep] in H. destruct h; try discriminate; (destruct (punct_char c); [|discriminate]);
      (destruct (c =? 47); [injection H as <-; exact Hw|]);
      (destruct (c =? 42); [try discriminate; injection H as <-; exact Hw|]);
      (destruct (c =? 61); try discriminate); injection H as <-; exact Hw.
Qed.

Lemma hrun_snoc_inv : forall done p h, hrun HN (done ++ [p]) = Some h ->
  exists h0, hrun HN done = Some h0 /\ hstep h0 p = Some h.
Proof.
  intros done p h H. rewrite hrun_app in H. destruct (hrun HN done) as [h0|]; [|discriminate].
  exists h0. split; [reflexivity|]. cbn in H. destruct (hstep h0 p); [congruence|discriminate].
Qed.

Lemma hrun_inv : forall done h, hrun HN done = Some h -> hinv h done.
Proof.
  induction done as [|p done IH] using rev_ind; intros h H.
  { cbn in H. injection H as <-. exact run_starts_nil. }
  apply hrun_snoc_inv in H. destruct H as (h0 & H0 & H1).
  specialize (IH h0 H0).
  assert (Hsep : separator p -> hsep h0 = Some h -> hinv h (done ++ [p])).
  { intros Hs H2. assert (Hr : run_starts (done ++ [p])).
    { apply run_starts_snoc. destruct Hs as [->|[b ->]]; exact I. }
    assert (Hw : wordish h0 -> exists pre w gap, done ++ [p] = pre ++ w :: gap /\ word_piece w /\ gap <> [] /\ Forall separator gap).
    { intro Hw. destruct done as [|d0 dr] using rev_ind.
      - cbn in H0. injection H0 as <-. contradiction.
      - apply hrun_snoc_inv in H0. destruct H0 as (h1 & _ & H0).
        exists dr, d0, [p]. split; [rewrite <- app_assoc; reflexivity|].
        split; [eapply wordish_last; eauto|]. split; [discriminate|]. constructor; auto. }
    destruct h0; cbn in H2; try discriminate; injection H2 as <-; cbn [hinv]; try exact Hr;
      try (split; [exact Hr|]; apply Hw; exact I).
    - destruct IH as [_ (pre & w & gap & -> & A & B & C)]. split; [exact Hr|].
      exists pre, w, (gap ++ [p]). split; [rewrite <- app_assoc; reflexivity|]. split; [exact A|].
      split; [destruct gap; discriminate|]. apply Forall_app. split; [exact C|]. constructor; auto.
    - destruct IH as [_ (pre & ->)]. split; [exact Hr|]. exists pre, [p].
      split; [rewrite <- app_assoc; reflexivity|]. constructor; auto.
    - destruct IH as [_ (pre & gap & -> & C)]. split; [exact Hr|]. exists pre, (gap ++ [p]).
      split; [rewrite <- app_assoc; reflexivity|]. apply Forall_app. split; [exact C|]. constructor; auto. }
  destruct p as [c| | |t|b|b|c]; cbn [hstep] in H1.
  - assert (Hst : run_starts done -> (if wordc c then Some (if c =? 64 then HA0 else HW) else None) = Some h ->
      hinv h (done ++ [PChar c])).
    { intros Hr H2. destruct (wordc c); [|discriminate]. destruct (N.eqb_spec c 0x40).
      - subst c. injection H2 as <-. exists done. auto.
      - injection H2 as <-. exact I. }
    destruct h0; try (apply Hst; [exact (proj1 IH) || exact IH|exact H1]).
    + injection H1 as <-. destruct IH as [pre ->]. apply run_starts_esc.
    + destruct (wordc c); [|discriminate]. injection H1 as <-. destruct IH as (pre & -> & Hr).
      exists pre, [c]. split; [rewrite <- app_assoc; reflexivity|]. split; [discriminate|exact Hr].
    + destruct (wordc c); [|discriminate]. injection H1 as <-. destruct IH as (pre & name & -> & Hn & Hr).
      exists pre, (name ++ [c]). split; [rewrite <- app_assoc, map_app; reflexivity|].
      split; [destruct name; discriminate|exact Hr].
    + destruct (wordc c); [|discriminate]. injection H1 as <-. exact I.
  - destruct h0; try discriminate; injection H1 as <-; cbn; eauto.
  - apply Hsep; [left; reflexivity|exact H1].
  - destruct h0; try discriminate; (destruct (strok t); [|discriminate]); injection H1 as <-;
      apply run_starts_snoc; exact I.
  - apply Hsep; [right; eauto|exact H1].
  - destruct h0; try discriminate; (destruct (licok b); [|discriminate]); injection H1 as <-;
      apply run_starts_snoc; exact I.
  - assert (Hr : run_starts (done ++ [PPunct c])) by (apply run_starts_snoc; exact I).
    assert (Hg : h0 <> HBs) by (intros ->; discriminate).
    assert (H2 : (if punct_char c then
            if c =? 0x2F then Some HSl
            else if c =? 0x2A then match h0 with HSl => None | HSlS => Some HSS | _ => Some HN end
            else if c =? 0x3D then match h0 with HSS => None | _ => Some HN end
            else Some HN
          else None) = Some h) by (destruct h0; try congruence; exact H1).
    clear H1. destruct (punct_char c); [|discriminate].
    destruct (N.eqb_spec c 0x2F).
    { injection H2 as <-. subst c. split; [exact Hr|]. eauto. }
    destruct (N.eqb_spec c 0x2A).
    { subst c. destruct h0; try discriminate; injection H2 as <-; try exact Hr.
      destruct IH as [_ (pre & gap & -> & C)]. split; [exact Hr|]. exists pre, gap.
      split; [rewrite <- app_assoc; reflexivity|exact C]. }
    destruct (c =? 0x3D).
    { destruct h0; try discriminate; injection H2 as <-; exact Hr. }
    injection H2 as <-. exact Hr.
Qed.

Lemma hrun_regular : forall ps h, hrun HN ps = Some h ->
  ~ slash_star_equal ps /\ ~ blank_before_escape ps /\ ~ escape_in_at_keyword ps.
Proof.
  intros ps h H. split; [|split].
  - intros (pre & gap & post & -> & Hg). rewrite hrun_app in H.
    destruct (hrun HN pre) as [h1|]; [|discriminate]. cbn [hrun] in H.
    destruct (hstep h1 (PPunct 47)) as [h2|] eqn:E; [|discriminate].
    assert (h2 = HSl) by (destruct h1; cbn in E; congruence). subst h2. clear E.
    rewrite hrun_app in H.
    assert (G : forall g h3, Forall separator g -> (h3 = HSl \/ h3 = HSlS) ->
              exists h4, hrun h3 g = Some h4 /\ (h4 = HSl \/ h4 = HSlS)).
    { induction g as [|x g IH]; intros h3 F Hh; [exists h3; auto|].
      inversion F; subst. cbn [hrun].
      assert (hstep h3 x = Some HSlS) as -> by (destruct H2 as [->|[b ->]]; destruct Hh; subst; reflexivity).
      apply IH; auto. }
    destruct (G gap HSl Hg (or_introl eq_refl)) as (h4 & E4 & Hh). rewrite E4 in H.
    destruct Hh; subst h4; cbn in H; discriminate.
  - intros (pre & w & gap & post & -> & Hw & Hne & Hg). rewrite hrun_app in H.
    destruct (hrun HN pre) as [h1|]; [|discriminate]. cbn [hrun] in H.
    destruct (hstep h1 w) as [h2|] eqn:E; [|discriminate].
    assert (Hh : wordish h2 \/ h2 = HBs).
    { destruct Hw as [->|[c ->]]; destruct h1; cbn in E; try discriminate;
        try (destruct (wordc c); [|discriminate]); try (destruct (c =? 64)); injection E as <-; cbn; auto. }
    clear E. destruct gap as [|g gap]; [congruence|]. cbn [app hrun] in H.
    inversion Hg; subst.
    assert (E : hstep h2 g = None \/ hstep h2 g = Some HWS).
    { destruct H2 as [->|[b ->]]; destruct h2; cbn in *; try tauto; destruct Hh; try tauto; discriminate. }
    destruct E as [E|E]; rewrite E in H; [discriminate|].
    rewrite hrun_app in H.
    assert (G : hrun HWS gap = Some HWS).
    { clear -H3. induction gap as [|x g IH]; [reflexivity|]. inversion H3; subst. cbn [hrun].
      assert (hstep HWS x = Some HWS) as -> by (destruct H1 as [->|[b ->]]; reflexivity). auto. }
    rewrite G in H. cbn in H. discriminate.
  - intros (pre & name & post & -> & Hne & Hr). rewrite hrun_app in H.
    destruct (hrun HN pre) as [h1|] eqn:E1; [|discriminate]. cbn [hrun] in H.
    assert (R : runst h1).
    { pose proof (hrun_inv _ _ E1) as Hi.
      assert (Hl : forall h0 p pre0, pre = pre0 ++ [p] -> hrun HN pre0 = Some h0 -> hstep h0 p = Some h1 -> runst h1).
      { intros h0 p pre0 -> E0 Ep. destruct h1; try exact I.
        - destruct Hi as [x Hi]. destruct Hr as [Hr _]. exact (Hr _ Hi).
        - destruct Hi as (pre1 & E & _). apply app_inj_tail in E. destruct E as [<- ->].
          destruct Hr as [_ Hr]. destruct (Hr _ _ eq_refl) as [p'' ->].
          apply hrun_snoc_inv in E0. destruct E0 as (hh & _ & E0). destruct hh; cbn in E0; try discriminate; injection E0 as <-; discriminate.
        - destruct Hi as (pre1 & nm & E & Hn & _).
          assert (exists nm' c, nm = nm' ++ [c]) as (nm' & c & ->).
          { destruct (exists_last Hn) as (a & b & ->). eauto. }
          rewrite map_app in E. cbn [map] in E. rewrite app_comm_cons, app_assoc in E.
          apply app_inj_tail in E. destruct E as [_ ->].
          destruct Hr as [_ Hr]. destruct (Hr _ _ eq_refl) as [p'' E].
          rewrite E in E0.
          apply hrun_snoc_inv in E0. destruct E0 as (hh & _ & E0). destruct hh; cbn in E0; try discriminate; injection E0 as <-; discriminate.
        - assert (word_piece p) by (eapply wordish_last; [exact Ep|exact I]).
          destruct H0 as [->|[c ->]].
          + destruct Hr as [Hr _]. exact (Hr _ eq_refl).
          + destruct Hr as [_ Hr]. destruct (Hr _ _ eq_refl) as [p'' ->].
            apply hrun_snoc_inv in E0. destruct E0 as (hh & _ & E0). destruct hh; cbn in E0; try discriminate; injection E0 as <-; discriminate. }
      destruct pre as [|p0 pr] using rev_ind.
      - cbn in E1. injection E1 as <-. exact I.
      - apply hrun_snoc_inv in E1. destruct E1 as (h0 & A & B). eapply Hl; eauto. }
    assert (E2 : hstep h1 (PChar 64) = Some HA0) by (destruct h1; cbn in R; try contradiction; reflexivity).
    rewrite E2 in H. rewrite hrun_app in H.
    assert (G : forall nm h3, h3 = HA0 \/ h3 = HA1 -> nm <> [] -> hrun h3 (map PChar nm) = None \/ hrun h3 (map PChar nm) = Some HA1).
    { induction nm as [|c nm IH]; intros h3 Hh Hn; [congruence|]. cbn [map hrun].
      assert (E : hstep h3 (PChar c) = if wordc c then Some HA1 else None) by (destruct Hh; subst; reflexivity).
      rewrite E. destruct (wordc c); [|auto]. destruct nm as [|d nm]; [right; reflexivity|].
      apply IH; [auto|discriminate]. }
    destruct (G name HA0 (or_introl eq_refl) Hne) as [E|E]; rewrite E in H; [discriminate|].
    cbn in H. discriminate.
Qed.

(** ** Literals and comments are stable under a change of what follows *)

Lemma com_body_stable : forall s b r, com_body s = Some (b, r) ->
  forall r', com_body (b ++ [0x2A; 0x2F] ++ r') = Some (b, r').
Proof.
  induction s as [|c s IH]; intros b r H r'; cbn [com_body] in H; [discriminate|].
  destruct ((c =? 0x2A) && match s with d :: _ => d =? 0x2F | [] => false end) eqn:E.
  - injection H as <- <-. reflexivity.
  - destruct (com_body s) as [[b' r0]|] eqn:Es; cbn [option_map fst snd] in H; [|discriminate].
    injection H as <- <-. cbn [app com_body].
    assert (Hh : match b' ++ 42 :: 47 :: r' with d :: _ => d =? 47 | [] => false end =
                 match s with d :: _ => d =? 47 | [] => false end).
    { apply com_body_app in Es. subst s. destruct b'; reflexivity. }
    rewrite Hh, E. pose proof (IH b' r0 eq_refl r') as Hi. cbn [app] in Hi. rewrite Hi. reflexivity.
Qed.

Lemma str_body_stable : forall n s q b r, (length s <= n)%nat -> str_body q s = Some (b, r) ->
  forall r', str_body q (b ++ r') = Some (b, r').
Proof.
  induction n as [|n IH]; intros s q b r Hl H r'.
  - destruct s; [discriminate|cbn in Hl; lia].
  - destruct s as [|c s]; [discriminate|]. cbn [str_body] in H.
    destruct (c =? 0x5C) eqn:E1.
    + destruct s as [|d s]; [discriminate|].
      destruct (str_body q s) as [[b' r0]|] eqn:E; cbn [option_map fst snd] in H; [|discriminate].
      injection H as <- <-. cbn [app str_body]. rewrite E1.
      rewrite (IH s q b' r0); [reflexivity|cbn in Hl; lia|exact E].
    + destruct (c =? q) eqn:E2.
      * injection H as <- <-. cbn [app str_body]. rewrite E1, E2. reflexivity.
      * destruct (str_body q s) as [[b' r0]|] eqn:E; cbn [option_map fst snd] in H; [|discriminate].
        injection H as <- <-. cbn [app str_body]. rewrite E1, E2.
        rewrite (IH s q b' r0); [reflexivity|cbn in Hl; lia|exact E].
Qed.

Lemma licok_body : forall b r, licok b = true -> com_body (b ++ [0x2A; 0x2F] ++ r) = Some (b, r).
Proof.
  intros b r H. unfold licok in H.
  destruct (com_body (b ++ [42; 47])) as [[b' [|]]|] eqn:E; try discriminate.
  pose proof (com_body_app _ _ _ E) as E2. cbn in E2. apply app_inv_tail in E2. subst b'.
  eapply com_body_stable. exact E.
Qed.

Lemma licok_of : forall s b r, com_body s = Some (b, r) -> licok b = true.
Proof.
  intros s b r H. unfold licok. pose proof (com_body_stable _ _ _ H []) as E. cbn [app] in E.
  rewrite E. reflexivity.
Qed.

Lemma strok_inv : forall t, strok t = true -> exists q b, t = q :: b /\ (q = 0x27 \/ q = 0x22) /\
  forall r, str_body q (b ++ r) = Some (b, r).
Proof.
  intros [|q b] H; [discriminate|]. cbn [strok] in H. apply andb_true_iff in H. destruct H as [H1 H2].
  exists q, b. split; [reflexivity|]. split.
  - apply orb_true_iff in H1. destruct H1 as [H1|H1]; apply N.eqb_eq in H1; auto.
  - destruct (str_body q b) as [[b' [|]]|] eqn:E; try discriminate.
    pose proof (str_body_app (length b) _ _ _ _ (le_n _) E) as E2. rewrite app_nil_r in E2. subst b'.
    intro r. eapply str_body_stable; [|exact E]. apply le_n.
Qed.

Lemma strok_of : forall q s b r, q = 0x27 \/ q = 0x22 -> str_body q s = Some (b, r) -> strok (q :: b) = true.
Proof.
  intros q s b r Hq H. cbn [strok].
  pose proof (str_body_stable (length s) s q b r (le_n _) H []) as E. rewrite app_nil_r in E. rewrite E.
  destruct Hq as [-> | ->]; reflexivity.
Qed.

(** ** The lexer's output is accepted when regular *)

Lemma comment_at_licok : forall s b r, comment_at s = Some (PLic b, r) -> licok b = true.
Proof.
  intros s b r H. unfold comment_at in H. destruct s as [|c s]; [discriminate|].
  destruct ((c =? 33) || _).
  - destruct (com_body s) as [[b' r']|] eqn:E; [|discriminate]. injection H as -> ->. eapply licok_of; eauto.
  - destruct (com_body (c :: s)) as [[b' r']|]; discriminate.
Qed.

Definition regular_pieces (ps : list piece) : Prop :=
  ~ slash_star_equal ps /\ ~ blank_before_escape ps /\ ~ escape_in_at_keyword ps.

Lemma lexf_accept : forall n s done h, hrun HN done = Some h -> h <> HBs ->
  (h = HSl -> match s with c :: _ => c <> 0x2A | [] => True end) ->
  regular_pieces (done ++ fst (lexf n s)) ->
  exists h', hrun HN (done ++ fst (lexf n s)) = Some h'.
Proof.
  induction n as [|n IH]; intros s done h Hd Hb Hs Hreg.
  { cbn [lexf fst] in *. rewrite app_nil_r. eauto. }
  destruct s as [|c r]; [cbn [lexf fst] in *; rewrite app_nil_r; eauto|].
  assert (Hgo : forall p x, lexf (S n) (c :: r) = pcons p (lexf n x) ->
     forall h', hstep h p = Some h' -> h' <> HBs ->
     (h' = HSl -> match x with c :: _ => c <> 0x2A | [] => True end) ->
     exists h2, hrun HN (done ++ fst (lexf (S n) (c :: r))) = Some h2).
  { intros p x E h' Hp Hb' Hs'. rewrite E in *. cbn [pcons fst] in *.
    replace (done ++ p :: fst (lexf n x)) with ((done ++ [p]) ++ fst (lexf n x)) in *
      by (rewrite <- app_assoc; reflexivity).
    apply (IH x (done ++ [p]) h'); auto.
    rewrite hrun_app, Hd. cbn. rewrite Hp. reflexivity. }
  pose proof (hrun_inv _ _ Hd) as Hi.
  assert (Hbs : c = 0x5C -> hstep h PBs = Some HBs).
  { intros ->. destruct Hreg as (_ & H2 & H3).
    assert (Epost : exists post, fst (lexf (S n) (0x5C :: r)) = PBs :: post).
    { cbn [lexf]. change (92 =? 92) with true. cbn iota. destruct r; cbn [pcons fst]; eauto. }
    destruct Epost as [post Epost]. rewrite Epost in *.
    destruct h; try reflexivity; exfalso.
    - congruence.
    - destruct Hi as (pre & name & -> & Hn & Hr). apply H3. exists pre, name, post.
      rewrite <- app_assoc. auto.
    - destruct Hi as (_ & pre & w & gap & -> & A & B & C). apply H2. exists pre, w, gap, post.
      rewrite <- app_assoc. auto. }
  destruct (N.eqb_spec c 0x5C) as [->|N1].
  { specialize (Hbs eq_refl). cbn [lexf] in *. change (92 =? 92) with true in *. cbn iota in *.
    destruct r as [|d r].
    - cbn [fst]. rewrite hrun_app, Hd. cbn [hrun]. rewrite Hbs. eauto.
    - cbn [pcons fst] in *.
      replace (done ++ PBs :: PChar d :: fst (lexf n r)) with ((done ++ [PBs; PChar d]) ++ fst (lexf n r)) in *
        by (rewrite <- app_assoc; reflexivity).
      apply (IH r (done ++ [PBs; PChar d]) HE); auto; try discriminate.
      rewrite hrun_app, Hd. cbn [hrun]. rewrite Hbs. reflexivity. }
  destruct ((c =? 0x27) || (c =? 0x22)) eqn:N2.
  { assert (Hq : c = 0x27 \/ c = 0x22).
    { apply orb_true_iff in N2. destruct N2 as [H|H]; apply N.eqb_eq in H; auto. }
    pose proof (lexf_string n c r Hq) as E.
    destruct (str_body c r) as [[t r']|] eqn:Eb.
    - apply (Hgo _ _ E HN); try discriminate.
      cbn [hstep]. rewrite (strok_of c r t r' Hq Eb). destruct h; congruence.
    - rewrite E. cbn [fst]. rewrite app_nil_r. eauto. }
  destruct ((c =? 0x2F) && match r with d :: _ => d =? 0x2A | [] => false end) eqn:N3.
  { apply andb_true_iff in N3. destruct N3 as [N3 N4]. apply N.eqb_eq in N3. subst c.
    destruct r as [|d r]; [discriminate|]. apply N.eqb_eq in N4. subst d.
    pose proof (lexf_comment n r) as E.
    destruct (comment_at r) as [[p r']|] eqn:Ec.
    - destruct (comment_at_piece _ _ _ Ec) as (b & [-> | ->]).
      + assert (exists h', hsep h = Some h') as [h' Eh] by (destruct h; cbn; eauto; congruence).
        apply (Hgo _ _ E h' Eh); destruct h; cbn in Eh; congruence.
      + apply (Hgo _ _ E HN); try discriminate.
        cbn [hstep]. rewrite (comment_at_licok _ _ _ Ec). destruct h; congruence.
    - rewrite E. cbn [fst]. rewrite app_nil_r. eauto. }
  destruct (blank_char c) eqn:N5.
  { pose proof (lexf_blank n c r N5) as E.
    assert (exists h', hsep h = Some h') as [h' Eh] by (destruct h; cbn; eauto; congruence).
    apply (Hgo _ _ E h' Eh); destruct h; cbn in Eh; congruence. }
  destruct (punct_char c) eqn:N6.
  { assert (E : lexf (S n) (c :: r) = pcons (PPunct c) (lexf n r)).
    { cbn [lexf]. apply N.eqb_neq in N1. rewrite N1, N2, N3, N5, N6. reflexivity. }
    destruct (N.eqb_spec c 0x2F) as [->|Nsl].
    { apply (Hgo _ _ E HSl); [cbn; destruct h; congruence|discriminate|].
      intros _. destruct r as [|d r]; [exact I|]. cbn in N3. apply N.eqb_neq. exact N3. }
    destruct (N.eqb_spec c 0x2A) as [->|Nst].
    { assert (h <> HSl) by (intros ->; exact (Hs eq_refl eq_refl)).
      assert (exists h', hstep h (PPunct 42) = Some h' /\ h' <> HBs /\ h' <> HSl) as (h' & A & B & C).
      { cbn. destruct h; try congruence; eexists; split; try reflexivity; split; discriminate. }
      apply (Hgo _ _ E h' A B). congruence. }
    destruct (N.eqb_spec c 0x3D) as [->|Neq].
    { assert (h <> HSS).
      { intros ->. destruct Hi as (_ & pre & gap & -> & C). destruct Hreg as [H1 _]. apply H1.
        rewrite E. cbn [pcons fst]. exists pre, gap, (fst (lexf n r)).
        split; [|exact C]. rewrite <- app_assoc. cbn [app]. rewrite <- app_assoc. reflexivity. }
      apply (Hgo _ _ E HN); try discriminate. cbn. destruct h; congruence. }
    apply (Hgo _ _ E HN); try discriminate.
    cbn [hstep]. rewrite N6. apply N.eqb_neq in Nsl, Nst, Neq. rewrite Nsl, Nst, Neq.
    destruct h; congruence. }
  assert (E : lexf (S n) (c :: r) = pcons (PChar c) (lexf n r)).
  { cbn [lexf]. apply N.eqb_neq in N1. rewrite N1, N2, N3, N5, N6. reflexivity. }
  assert (Hwc : wordc c = true).
  { unfold wordc. destruct (rchar_of c) as [k|] eqn:Ek; [|reflexivity]. exfalso.
    apply rchar_of_inv in Ek. destruct Ek as [->|[_ ->]]; [|discriminate].
    destruct k; try discriminate; cbn in *; congruence. }
  assert (exists h', hstep h (PChar c) = Some h' /\ h' <> HBs /\ h' <> HSl) as (h' & A & B & C).
  { cbn [hstep]. rewrite Hwc. destruct h; try congruence; eexists; (split; [reflexivity|]);
      try (destruct (c =? 64)); split; discriminate. }
  apply (Hgo _ _ E h' A B). congruence.
Qed.

Lemma lex_accept : forall s, regular s -> exists h, hrun HN (fst (lex s)) = Some h.
Proof.
  intros s H. apply (lexf_accept (length s) s [] HN); try reflexivity; try discriminate. exact H.
Qed.
