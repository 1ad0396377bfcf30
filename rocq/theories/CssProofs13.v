(** The third run of the CSS minifier changes nothing. *)
From Coq Require Import String Arith List NArith ZArith Bool Lia.
From Verif Require Import Base CssModel CssSpec CssProofs1 CssProofs2 CssProofs3 CssProofs4 CssProofs5 CssProofs6 CssProofs7 CssProofs10 CssProofs12.
Import ListNotations.
Open Scope N_scope.

(** No comment stands in a gap just after a colon. *)
Definition gap_clear (ps : list piece) : Prop :=
  forall g b post, ps = g ++ PCom b :: post -> ~ Forall (eq PBlank) g.

Definition colons_clear (ps : list piece) : Prop :=
  forall pre post, ps = pre ++ PPunct 0x3A :: post -> gap_clear post.

Lemma colons_clear_tail : forall p ps, colons_clear (p :: ps) -> colons_clear ps /\ (p = PPunct 0x3A -> gap_clear ps).
Proof.
  intros p ps H. split.
  - intros pre post E. apply (H (p :: pre) post). cbn. now rewrite E.
  - intros ->. exact (H [] ps eq_refl).
Qed.

Lemma gap_clear_tail : forall ps, gap_clear (PBlank :: ps) -> gap_clear ps.
Proof. intros ps H g b post E F. apply (H (PBlank :: g) b post); [cbn; now rewrite E|]. constructor; [reflexivity | exact F]. Qed.

Fixpoint spaced (l : list token) : Prop :=
  match l with [] => True | t :: r => (needs t = true -> hd_error r = Some (TChar Space)) /\ spaced r end.

Definition quiet (v : list token) : Prop := some_and needs (hd_error v) = false.

Lemma spaced_app : forall a b, spaced a -> quiet (rev a) -> spaced b -> spaced (a ++ b).
Proof.
  induction a as [|t a IH]; intros b H Q Hb; [exact Hb|]. cbn [spaced app] in *. destruct H as [H1 H2].
  destruct a as [|u a].
  - cbn [rev app] in Q. unfold quiet in Q. cbn [hd_error some_and] in Q. split; [congruence | exact Hb].
  - split; [exact H1|]. apply IH; [exact H2| |exact Hb]. unfold quiet in *. cbn [rev] in Q.
    destruct (rev (u :: a)) as [|x v] eqn:E; [cbn in E; destruct (rev a); discriminate|].
    change (rev (u :: a)) with (rev a ++ [u]) in E. rewrite E in Q. exact Q.
Qed.

Lemma spaced_init : forall a x, spaced (a ++ [x]) -> x <> TChar Space -> spaced a /\ quiet (rev a).
Proof.
  induction a as [|t a IH]; intros x H Hx; [split; [exact I | reflexivity]|]. cbn [app spaced] in H. destruct H as [H1 H2].
  destruct (IH x H2 Hx) as [A B]. cbn [spaced]. split.
  - split; [|exact A]. intro Hn. specialize (H1 Hn). destruct a; [cbn in H1; congruence | exact H1].
  - unfold quiet in *. cbn [rev]. destruct (rev a) as [|y v] eqn:E; [|exact B]. cbn [app hd_error some_and].
    destruct a; [|cbn in E; destruct (rev a); discriminate]. destruct (needs t); [|reflexivity]. specialize (H1 eq_refl). cbn in H1. congruence.
Qed.

Section Alpha.
Variable alpha : N -> bool.

(** ** The tokens of a source *)

Record src_inv (st : pst) (x : xst) (ps : list piece) : Prop := {
  si_ai : AI st x;
  si_ok : okl (cond0 alpha) q0 (rev (mv st));
  si_b : mblock st = qb (qrun q0 (rev (mv st)));
  si_m : mmedia st = qm (qrun q0 (rev (mv st)));
  si_a : mattr st = qa (qrun q0 (rev (mv st)));
  si_w : qw (qrun q0 (rev (mv st))) = false;
  si_e : mesc st = some_and is_bs (hd_error (mv st));
  si_h : some_and is_a_media (hd_error (mv st)) = false;
  si_s : mseg st <> [] -> mesc st = false;
  si_c : mcol st = true -> some_and is_colon (hd_error (mv st)) = true;
  si_g : some_and is_colon (hd_error (mv st)) = true -> mseg st = [] -> gap_clear ps
}.

Lemma qstep_ctx_plain : forall q t, match t with
  | TChar (OpenCurlyBrace | CloseCurlyBrace | SemiColon | OpenBracket | CloseBracket) | TSelectorElement (Media _) => True
  | _ => same_ctx q (qstep q t) end.
Proof. intros q t. destruct t as [| |[]| |[]| | |]; try exact I; repeat split. Qed.

Lemma seg_words : forall st x, AI st x -> mseg st <> [] -> words (mseg st).
Proof.
  intros st x (y & H1 & H2 & _ & _ & Hr) Hn. split; [exact Hn|]. apply xrun_fst in H2.
  destruct (hrun_word_run _ _ _ H2 Hn (Hr Hn)) as [_ H]. exact H.
Qed.

Lemma colon_hd : forall v, some_and is_colon (hd_error v) = true -> exists L, v = TChar Colon :: L.
Proof.
  intros [|t L] H; [discriminate|]. cbn in H. destruct t as [| |k| | | | |]; try discriminate. unfold is_colon in H. cbn in H.
  apply rchar_eqb_eq in H. subst. eauto.
Qed.

(** Once the pending word is pushed. *)
Lemma fill_ok : forall st x ps, src_inv st x ps ->
  let f := fillp alpha st in let q := qrun q0 (rev f) in
  okl (cond0 alpha) q0 (rev f) /\ mblock st = qb q /\ mmedia st || some_and is_a_media (hd_error f) = qm q /\ mattr st = qa q /\
  some_and is_bs (hd_error f) = mesc st /\ (some_and is_colon (hd_error f) = true -> mseg st = []) /\
  (qw q = true -> push_blank f = true).
Proof.
  intros st x ps [A O B M R W E H S C G]. cbv zeta. unfold fillp.
  destruct (mseg st) as [|c0 w0] eqn:Es.
  { rewrite H, orb_false_r. split; [exact O|]. split; [exact B|]. split; [exact M|]. split; [exact R|]. split; [now rewrite E|].
    split; [reflexivity|]. intro K. congruence. }
  rewrite <- Es in *. assert (Hne : mseg st <> []) by (rewrite Es; discriminate). specialize (S Hne). rewrite S in E. symmetry in E.
  pose proof (seg_words st x A Hne) as Hw. clear c0 w0 Es.
  assert (Hs : selector_context (mblock st) (mmedia st) (mattr st) = qsel (qrun q0 (rev (mv st)))) by (unfold qsel; now rewrite B, M, R).
  rewrite Hs.
  assert (Push : forall t, is_a_media t = false -> is_bs t = false -> is_colon t = false -> push_blank [t] = true ->
    same_ctx (qrun q0 (rev (mv st))) (qstep (qrun q0 (rev (mv st))) t) -> cond0 alpha (qrun q0 (rev (mv st))) t ->
    okl (cond0 alpha) q0 (rev (t :: mv st)) /\ mblock st = qb (qrun q0 (rev (t :: mv st))) /\
    mmedia st || some_and is_a_media (hd_error (t :: mv st)) = qm (qrun q0 (rev (t :: mv st))) /\ mattr st = qa (qrun q0 (rev (t :: mv st))) /\
    some_and is_bs (hd_error (t :: mv st)) = mesc st /\ (some_and is_colon (hd_error (t :: mv st)) = true -> mseg st = []) /\
    (qw (qrun q0 (rev (t :: mv st))) = true -> push_blank (t :: mv st) = true)).
  { intros t T1 T2 T3 T4 (X1 & X2 & X3) T6. rewrite okl_snoc, qrun_snoc. rewrite B, M, R, <- X1, <- X2, <- X3. cbn [hd_error some_and].
    rewrite T1, T2, T3, orb_false_r, S. repeat split; auto. discriminate. }
  assert (Other : (qsel (qrun q0 (rev (mv st))) = true -> some_and is_colon (hd_error (mv st)) = true \/ selement_of alpha (mseg st) = None) ->
    cond0 alpha (qrun q0 (rev (mv st))) (TOther (mseg st))).
  { intro K. cbn [cond0]. rewrite qp_rev, E. auto. }
  destruct (qsel (qrun q0 (rev (mv st)))) eqn:Eq.
  2: { apply Push; try reflexivity; [apply (qstep_ctx_plain _ (TOther _))|]. apply Other. discriminate. }
  change (is_the_char Colon) with is_colon. destruct (some_and is_colon (hd_error (mv st))) eqn:Ec.
  - destruct (mcol st) eqn:Em.
    2: { apply Push; try reflexivity; [apply (qstep_ctx_plain _ (TOther _))|]. apply Other. auto. }
    destruct (colon_hd _ Ec) as [L EL]. destruct (mseg st) as [|c0 w0] eqn:Es; [congruence|]. cbn [selement_of N.eqb Pos.eqb].
    rewrite EL in *. cbn [tl]. rewrite okl_snoc in O. destruct O as [O1 O2]. rewrite qrun_snoc in B, M, R, Eq.
    rewrite okl_snoc, qrun_snoc. cbn [hd_error some_and is_a_media]. rewrite orb_false_r.
    split. { split; [exact O1|]. cbn [cond0]. cbn [cond0] in O2. split; [tauto|]. split; [exact Hw | exact Eq]. }
    split; [exact B|]. split; [exact M|]. split; [exact R|]. split; [rewrite S; reflexivity|]. split; [discriminate|]. intros _. reflexivity.
  - destruct (selement_of alpha (mseg st)) as [e|] eqn:Ee.
    2: { apply Push; try reflexivity; [apply (qstep_ctx_plain _ (TOther _))|]. apply Other. auto. }
    assert (Hok : elem_ok alpha e) by (exists (mseg st); split; [apply Hw | exact Ee]).
    assert (Hc : cond0 alpha (qrun q0 (rev (mv st))) (TSelectorElement e)).
    { assert (K : some_and is_bs (qp (qrun q0 (rev (mv st)))) = false /\ qw (qrun q0 (rev (mv st))) = false /\ qsel (qrun q0 (rev (mv st))) = true /\
        some_and is_colon (qp (qrun q0 (rev (mv st)))) = false /\ elem_ok alpha e) by (rewrite qp_rev; auto).
      destruct e; try exact K. cbn [cond0]. exfalso. destruct Hok as (seg & K1 & K2). pose proof (selement_tp alpha seg _ K2 K1) as K3.
      cbn [tp] in K3. destruct seg; discriminate. }
    destruct e; try (apply Push; try reflexivity; [repeat split | exact Hc]; fail).
    rewrite okl_snoc, qrun_snoc. split; [split; [exact O | exact Hc]|]. split; [exact B|]. split; [cbn; apply orb_true_r|]. split; [exact R|].
    split; [rewrite S; reflexivity|]. split; [discriminate|]. intros _. reflexivity.
Qed.

Definition clean_tok (t : token) : Prop := wordy t = false /\ is_a_media t = false.

(** Pushing a token that is no word after it. *)
Lemma push_ok : forall st x p ps x' st' t, src_inv st x (p :: ps) -> colons_clear (p :: ps) -> AI st' x' ->
  mv st' = t :: fillp alpha st -> mseg st' = [] -> mesc st' = is_bs t -> clean_tok t -> (mcol st' = true -> is_colon t = true) ->
  (is_colon t = true -> p = PPunct 0x3A) ->
  cond0 alpha (qrun q0 (rev (fillp alpha st))) t ->
  mblock st' = qb (qstep (qrun q0 (rev (fillp alpha st))) t) -> mmedia st' = qm (qstep (qrun q0 (rev (fillp alpha st))) t) ->
  mattr st' = qa (qstep (qrun q0 (rev (fillp alpha st))) t) -> src_inv st' x' ps.
Proof.
  intros st x p ps x' st' t HI HC HA Hv Hs He [Hw Hm] Hcol Hp Hc Hb Hmd Hat.
  destruct (fill_ok st x (p :: ps) HI) as (F1 & _).
  constructor; rewrite ?Hv, ?okl_snoc, ?qrun_snoc; auto.
  - cbn [qstep qw]. now rewrite Hw.
  - rewrite Hs. congruence.
  - cbn [hd_error some_and]. intros K _. destruct (colons_clear_tail _ _ HC) as [_ G]. auto.
Qed.

Lemma src_step : forall st x p ps x' st', src_inv st x (p :: ps) -> colons_clear (p :: ps) -> punct_ok p ->
  xstep x p = Some x' -> pstep alpha st p = Ok st' -> src_inv st' x' ps.
Proof.
  intros st x p ps x' st' HI HC Hp Hx Hs. pose proof (pstep_AI alpha _ _ _ _ _ (si_ai _ _ _ HI) Hx Hs) as HA.
  destruct (fill_ok st x (p :: ps) HI) as (F1 & F2 & F3 & F4 & F5 & F6 & F7).
  assert (Hesc : match p with PChar _ => True | _ => mesc st = false end).
  { destruct (si_ai _ _ _ HI) as (y & _ & _ & K & _). destruct (mesc st) eqn:Em; [|now destruct p].
    destruct K as [K _]. specialize (K eq_refl). unfold xstep in Hx. rewrite K in Hx. destruct p; try discriminate; exact I. }
  set (f := fillp alpha st) in *. set (q := qrun q0 (rev f)) in *.
  assert (Hq : qp q = hd_error f) by apply qp_rev.
  destruct p as [c| | |s|b|b|c]; cbn [pstep] in Hs; fold f in Hs; rewrite ?F3 in Hs.
  - (* a character *) destruct (mesc st) eqn:Em; injection Hs as <-.
    + destruct HI as [A O B M R W E H S C G]. assert (Eb : some_and is_bs (hd_error (mv st)) = true) by congruence.
      constructor; cbn [mv mk mseg mcol mblock mmedia mattr mesc]; rewrite ?okl_snoc, ?qrun_snoc; auto; try discriminate.
      * split; [exact O|]. cbn [cond0]. rewrite qp_rev, Eb. eauto.
      * cbn [qstep qw wordy]. rewrite qp_rev, Eb. reflexivity.
    + destruct HI as [A O B M R W E H S C G]. constructor; cbn [mv mk mseg mcol mblock mmedia mattr mesc]; auto; try congruence.
      intros _ K. destruct (mseg st); discriminate.
  - (* backslash *) injection Hs as <-. eapply (push_ok st x PBs ps x' _ (TChar Backslash)); eauto; cbn [mv mk mseg mcol mblock mmedia mattr mesc]; try reflexivity; try discriminate; try (split; reflexivity).
    cbn [cond0]. fold f q. rewrite Hq, F5. split; [exact Hesc|]. split; [exact I | discriminate].
  - (* blank *) injection Hs as <-. destruct (push_blank f) eqn:Epb.
    + eapply (push_ok st x PBlank ps x' _ (TChar Space)); eauto; cbn [mv mk mseg mcol mblock mmedia mattr mesc]; try reflexivity; try discriminate; try (split; reflexivity).
      cbn [cond0]. fold f q. rewrite Hq, F5. split; [exact Hesc|]. split; [exact I|]. intros _. split; [reflexivity|].
      destruct (some_and is_colon (hd_error f)) eqn:Ec; [|reflexivity]. destruct (colon_hd _ Ec) as [L EL]. rewrite EL in Epb. discriminate.
    + assert (Ew : qw q = false) by (destruct (qw q) eqn:Z0; [pose proof (F7 eq_refl); congruence | reflexivity]).
      constructor; cbn [mv mk mseg mcol mblock mmedia mattr mesc]; auto; try discriminate.
      * rewrite F5. symmetry. exact Hesc.
      * destruct (some_and is_a_media (hd_error f)) eqn:Ec; [|reflexivity]. destruct f as [|t L]; [discriminate|]. destruct t as [| | | |[]| | |]; try discriminate Ec. discriminate Epb.
      * intros K _. specialize (F6 K). apply gap_clear_tail. apply (si_g _ _ _ HI); [|exact F6]. unfold f, fillp in K. rewrite F6 in K. exact K.
  - (* string *) injection Hs as <-. eapply (push_ok st x (PStr s) ps x' _ (TString s)); eauto; cbn [mv mk mseg mcol mblock mmedia mattr mesc]; try reflexivity; try discriminate; try (split; reflexivity).
    cbn [cond0]. fold f q. rewrite Hq, F5. exact Hesc.
  - (* comment *) injection Hs as <-. eapply (push_ok st x (PCom b) ps x' _ (TComment b)); eauto; cbn [mv mk mseg mcol mblock mmedia mattr mesc]; try reflexivity; try discriminate; try (split; reflexivity).
    cbn [cond0]. fold f q. rewrite Hq, F5. split; [exact Hesc|]. destruct (some_and is_colon (hd_error f)) eqn:Ec; [|reflexivity]. exfalso.
    specialize (F6 eq_refl). assert (K : some_and is_colon (hd_error (mv st)) = true) by (unfold f, fillp in Ec; now rewrite F6 in Ec).
    apply (si_g _ _ _ HI K F6 [] b ps eq_refl). constructor.
  - (* licence *) injection Hs as <-. eapply (push_ok st x (PLic b) ps x' _ (TLicense b)); eauto; cbn [mv mk mseg mcol mblock mmedia mattr mesc]; try reflexivity; try discriminate; try (split; reflexivity).
    cbn [cond0]. fold f q. rewrite Hq, F5. exact Hesc.
  - (* punctuation *) destruct (punct_char_rchar c Hp) as (k & E1 & E2 & E3 & E4 & E5 & E6). rewrite E1 in Hs.
    assert (Main : (k = CloseCurlyBrace -> (0 < mblock st)%Z) -> (k = OpenBracket -> mattr st = false) -> (k = CloseBracket -> mattr st = true) ->
      mv st' = TChar k :: f -> mseg st' = [] -> mesc st' = false -> mcol st' = (c =? 0x3A) ->
      mblock st' = qb (qstep q (TChar k)) -> mmedia st' = qm (qstep q (TChar k)) -> mattr st' = qa (qstep q (TChar k)) -> src_inv st' x' ps).
    { intros M1 M2 M3 M4 M5 M6 M7 M8 M9 M10. eapply (push_ok st x (PPunct c) ps x' _ (TChar k)); eauto.
      - rewrite M6. destruct k; try reflexivity. congruence.
      - split; destruct k; reflexivity.
      - rewrite M7. intro K. apply N.eqb_eq in K. rewrite K in E1. cbn in E1. injection E1 as <-. reflexivity.
      - intro K. unfold is_colon in K. cbn in K. apply rchar_eqb_eq in K. subst k. now rewrite E2.
      - cbn [cond0]. fold f q. rewrite Hq, F5. split; [exact Hesc|]. split; [|congruence]. unfold char_ok. rewrite <- F2, <- F4. destruct k; try exact I; try congruence; auto. }
    assert (Fin : forall b m a e0, Ok (mk (TChar k :: f) (c =? 58) b m a false) = @Ok pst st' -> e0 = mcol st' ->
      (k = CloseCurlyBrace -> (0 < mblock st)%Z) -> (k = OpenBracket -> mattr st = false) -> (k = CloseBracket -> mattr st = true) ->
      b = qb (qstep q (TChar k)) -> m = qm (qstep q (TChar k)) -> a = qa (qstep q (TChar k)) -> src_inv st' x' ps).
    { intros b m a e0 K _ K1 K2 K3 K4 K5 K6. injection K as <-. exact (Main K1 K2 K3 eq_refl eq_refl eq_refl eq_refl K4 K5 K6). }
    clear Main.
    destruct k; try (destruct (E4 eq_refl)); try (destruct (E5 eq_refl)); try (destruct (E6 eq_refl)); try discriminate E3;
      try (apply (Fin _ _ _ _ Hs eq_refl); [discriminate | discriminate | discriminate | exact F2 | reflexivity | exact F4]; fail).
    + apply (Fin _ _ _ _ Hs eq_refl); [discriminate | discriminate | discriminate | cbn [qstep qb]; now rewrite F2 | reflexivity | exact F4].
    + destruct (Z.ltb_spec (mblock st - 1) 0); [discriminate|]. apply (Fin _ _ _ _ Hs eq_refl); [intros _; lia | discriminate | discriminate | cbn [qstep qb]; now rewrite F2 | cbn [qstep qm]; now rewrite F2 | exact F4].
    + destruct (mattr st) eqn:Ea; [discriminate|]. apply (Fin _ _ _ _ Hs eq_refl); [discriminate | reflexivity | discriminate | exact F2 | reflexivity | reflexivity].
    + destruct (mattr st) eqn:Ea; [|discriminate]. apply (Fin _ _ _ _ Hs eq_refl); [discriminate | discriminate | reflexivity | exact F2 | reflexivity | reflexivity].
    + apply (Fin _ _ _ _ Hs eq_refl); [discriminate | discriminate | discriminate | exact F2 | cbn [qstep qm]; now rewrite F2 | exact F4].
    + destruct (equal_operator f) as [o|] eqn:Eo;
        [|apply (Fin _ _ _ _ Hs eq_refl); [discriminate | discriminate | discriminate | exact F2 | reflexivity | exact F4]].
      injection Hs as <-.
      assert (Ef : exists k' L, f = TChar k' :: L /\ is_bs (TChar k') = false /\ match k' with Tilde | Pipe | Dollar | Circumflex | Star => True | _ => False end).
      { unfold equal_operator in Eo. destruct f as [|t L]; [discriminate|]. cbn in Eo. destruct t as [| |k'| | | | |]; try discriminate.
        exists k', L. split; [reflexivity|]. destruct k'; try discriminate; auto. }
      destruct Ef as (k' & L & EL & Eb & Ek). unfold q in *. rewrite EL in *. rewrite okl_snoc in F1. destruct F1 as [O1 O2].
      rewrite qrun_snoc in F2, F3, F4. cbn [tl] in HA |- *.
      constructor; cbn [mv mk mseg mcol mblock mmedia mattr mesc tl]; rewrite ?okl_snoc, ?qrun_snoc; auto; try discriminate.
      * split; [exact O1|]. cbn [cond0] in O2 |- *. tauto.
      * rewrite F2. destruct k'; try contradiction; reflexivity.
      * destruct k'; try contradiction; reflexivity.
      * rewrite F4. destruct k'; try contradiction; reflexivity.
Qed.

Lemma src_run : forall ps st x x' v, src_inv st x ps -> colons_clear ps -> Forall punct_ok ps ->
  xrun x ps = Some x' -> prun alpha st ps None = Ok v -> okl (cond0 alpha) q0 v.
Proof.
  induction ps as [|p ps IH]; intros st x x' v HI HC HP Hx Hr; cbn [xrun prun] in *.
  - injection Hr as <-. destruct (fill_ok st x [] HI) as (F1 & _). exact F1.
  - destruct (xstep x p) as [x1|] eqn:Ex; [|discriminate]. destruct (pstep alpha st p) as [st1| | |] eqn:Es; try discriminate. cbn [obind] in Hr.
    inversion HP; subst. eapply (IH st1 x1); eauto; [eapply src_step; eauto | apply (colons_clear_tail _ _ HC)].
Qed.

Lemma src_tokens : forall s v, regular s -> colons_clear (fst (lex s)) -> prun alpha pinit (fst (lex s)) None = Ok v -> okl (cond0 alpha) q0 v.
Proof.
  intros s v Hr Hc Hv. destruct (lex_accept s Hr) as [h Hh].
  eapply (src_run (fst (lex s)) pinit x0 (h, fold_left istep (fst (lex s)) (snd x0))); eauto.
  - constructor; cbn; auto; try discriminate. exact AI_init.
  - apply lex_punct_ok.
  - rewrite xrun_hrun. cbn [fst x0]. rewrite Hh. reflexivity.
Qed.
End Alpha.
