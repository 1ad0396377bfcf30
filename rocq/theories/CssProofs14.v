(** Minifying three times is minifying twice. *)
From Coq Require Import String Arith List NArith ZArith Bool Lia.
From Verif Require Import Base CssModel CssSpec CssProofs1 CssProofs2 CssProofs3 CssProofs4 CssProofs5 CssProofs6 CssProofs7 CssProofs10 CssProofs12 CssProofs13.
Import ListNotations.
Open Scope N_scope.

Section Alpha.
Variable alpha : N -> bool.

(** ** Reading an output *)

Lemma word_next : forall q t rest, cond0 alpha q t -> qw q = true -> some_and is_bs (qp q) = false -> not_char (tp t ++ rest).
Proof.
  intros q t rest C W B. destruct t as [b|b|k|s|e|s|o|o]; cbn [cond0] in C; try exact I.
  - cbn [tp]. destruct (rchar_useless k); [exact I|]. destruct k; exact I.
  - rewrite B in C. destruct C as (_ & C & _). congruence.
  - destruct e; try exact I; destruct C as (_ & C & _); congruence.
Qed.

Lemma word_then : forall q t r, okl (cond0 alpha) (qstep q t) r -> wordy t = true -> some_and is_bs (qp q) = false -> not_char (tps r).
Proof.
  intros q t r H Hw Hb. destruct r as [|u r]; [exact I|]. destruct H as [H _]. rewrite tps_cons. apply (word_next _ _ _ H).
  - cbn [qstep qw]. rewrite Hw, Hb. reflexivity.
  - cbn [qstep qp some_and]. destruct t as [| | |s|e| | |]; try discriminate; reflexivity.
Qed.

Record out_inv (q : qst) (st : pst) : Prop := {
  oi_b : mblock st = qb q; oi_m : mmedia st = qm q; oi_a : mattr st = qa q; oi_s : mseg st = [];
  oi_ctx : same_ctx q (qrun q0 (rev (mv st)));
  oi_ok : okl (cond1 alpha) q0 (rev (mv st));
  oi_e : mesc st = some_and is_bs (qp q);
  oi_eh : some_and is_bs (hd_error (mv st)) = some_and is_bs (qp q);
  oi_c : mcol st = some_and is_colon (qp q);
  oi_ch : some_and is_colon (hd_error (mv st)) = some_and is_colon (qp q);
  oi_w : qw (qrun q0 (rev (mv st))) = true -> qw q = true;
  oi_n : quiet (mv st);
  oi_sp : spaced (rev (mv st))
}.

Lemma out_fits : forall q st, out_inv q st -> fits (qrun q0 (rev (mv st))) st.
Proof.
  intros q st [B M A S (X1 & X2 & X3) O E EH C CH W N SP]. unfold fits. rewrite qp_rev. repeat split; try congruence.
  intro K. unfold quiet in N. destruct (mv st) as [|t v]; [discriminate|]. cbn in *. unfold needs in N. rewrite K in N. discriminate.
Qed.

Lemma out_step : forall q st t v, out_inv q st -> read_as alpha (qrun q0 (rev (mv st))) st t v ->
  okl (cond1 alpha) q0 (rev v) -> same_ctx (qstep q t) (qrun q0 (rev v)) ->
  some_and is_bs (hd_error v) = is_bs t -> some_and is_colon (hd_error v) = is_colon t ->
  (qw (qrun q0 (rev v)) = true -> qw (qstep q t) = true) -> quiet v -> spaced (rev v) ->
  exists st1, pmulti alpha st (tp t) = Ok st1 /\ out_inv (qstep q t) (settle alpha st1) /\ mv (settle alpha st1) = v /\
    (mseg st1 = [] \/ wordy t = true /\ some_and is_bs (qp q) = false).
Proof.
  intros q st t v HI (st1 & R1 & R2 & R3 & R4 & R5 & R6 & R7 & R8) O X B C W N SP.
  pose proof (same_ctx_step q _ t (oi_ctx _ _ HI)) as (Y1 & Y2 & Y3).
  exists st1. split; [exact R1|]. split; [|split; [exact R2|]].
  - constructor; rewrite ?R2; auto; try congruence; apply settle_seg.
  - rewrite qp_rev, (oi_eh _ _ HI) in R8. exact R8.
Qed.

Lemma spaced_push : forall v t, spaced (rev v) -> quiet v -> needs t = false -> spaced (rev (t :: v)).
Proof.
  intros v t S Q Hn. cbn [rev]. apply spaced_app; [exact S | now rewrite rev_involutive|]. cbn. split; [congruence | exact I].
Qed.

Lemma out_push : forall q st t, out_inv q st -> cond1 alpha (qrun q0 (rev (mv st))) t ->
  exists st1, pmulti alpha st (tp t) = Ok st1 /\ out_inv (qstep q t) (settle alpha st1) /\
    (mseg st1 = [] \/ wordy t = true /\ some_and is_bs (qp q) = false).
Proof.
  intros q st t HI C. pose proof (token_read alpha _ st t (out_fits q st HI) C) as R.
  enough (exists st1, pmulti alpha st (tp t) = Ok st1 /\ out_inv (qstep q t) (settle alpha st1) /\
    mv (settle alpha st1) = (if needs t then [TChar Space] else []) ++ t :: mv st /\ (mseg st1 = [] \/ wordy t = true /\ some_and is_bs (qp q) = false)) as (st1 & K1 & K2 & _ & K3) by eauto.
  apply (out_step q st t _ HI R).
  - destruct (needs t) eqn:En; cbn [app]; rewrite !okl_snoc; [|split; [apply HI | exact C]]. split; [split; [apply HI | exact C]|].
    rewrite qrun_snoc. assert (P : push_blank [t] = true /\ is_bs t = false /\ is_colon t = false) by (destruct t as [| | | |[]| | |]; try discriminate; auto).
    destruct P as (P1 & P2 & P3). cbn [cond1 cond0 qstep qp some_and rchar_useless char_ok]. rewrite P2, P3. repeat split; try discriminate. intros _. eauto.
  - pose proof (same_ctx_step q _ t (oi_ctx _ _ HI)) as X. destruct (needs t); cbn [app]; rewrite ?qrun_snoc; exact X.
  - destruct (needs t) eqn:En; [|reflexivity]. destruct t as [| | | |[]| | |]; try discriminate; reflexivity.
  - destruct (needs t) eqn:En; [|reflexivity]. destruct t as [| | | |[]| | |]; try discriminate; reflexivity.
  - destruct (needs t) eqn:En; cbn [app]; rewrite ?qrun_snoc; cbn [qstep qw wordy andb]; [discriminate|]. rewrite qp_rev, (oi_eh _ _ HI). auto.
  - unfold quiet. destruct (needs t) eqn:En; [reflexivity | exact En].
  - destruct (needs t) eqn:En; cbn [app]; [|now apply spaced_push; apply HI || exact En].
    cbn [rev]. rewrite <- app_assoc. apply spaced_app; [apply HI | rewrite rev_involutive; apply HI|]. cbn. repeat split; discriminate.
Qed.

Lemma equal_hd : forall v o, equal_operator v = Some o -> exists k L, v = TChar k :: L /\ match k with Tilde | Pipe | Dollar | Circumflex | Star => True | _ => False end.
Proof.
  intros [|t L] o H; [discriminate|]. unfold equal_operator in H. cbn in H. destruct t as [| |k| | | | |]; try discriminate.
  exists k, L. split; [reflexivity|]. destruct k; try discriminate; exact I.
Qed.

Lemma out_token : forall q st t, out_inv q st -> cond0 alpha q t -> is_comment t = false ->
  exists st1, pmulti alpha st (tp t) = Ok st1 /\ out_inv (qstep q t) (settle alpha st1) /\
    (mseg st1 = [] \/ wordy t = true /\ some_and is_bs (qp q) = false).
Proof.
  intros q st t HI C Hc. set (u := qrun q0 (rev (mv st))) in *.
  assert (Eu : qp u = hd_error (mv st)) by apply qp_rev. pose proof (oi_eh _ _ HI) as EB. pose proof (oi_ch _ _ HI) as EC.
  assert (Es : qsel u = qsel q) by (destruct (oi_ctx _ _ HI) as (X1 & X2 & X3); unfold qsel; fold u in X1, X2, X3; now rewrite X1, X2, X3).
  assert (Ew : qw q = false -> qw u = false) by (intro K; pose proof (oi_w _ _ HI) as Z; fold u in Z; destruct (qw u); [rewrite Z in K by reflexivity; discriminate | reflexivity]).
  destruct t as [b|b|k|s|e|s|o|o].
  - discriminate.
  - apply out_push; [exact HI|]. cbn [cond1 cond0] in *. fold u. now rewrite Eu, EB.
  - destruct (rchar_useless k) eqn:Eus.
    + cbn [cond0] in C. destruct C as (C1 & _ & C3). destruct (C3 Eus) as [-> C4].
      destruct (push_blank (mv st)) eqn:Ep.
      * apply out_push; [exact HI|]. cbn [cond1 cond0]. fold u. rewrite Eu, EB, EC. cbn [char_ok]. repeat split; auto; try discriminate.
        intros _. destruct (mv st) as [|p v]; [discriminate|]. exists p. auto.
      * pose proof (blank_read alpha _ st (out_fits q st HI)) as R. rewrite Ep in R.
        destruct (out_step q st _ _ HI R) as (st1 & K1 & K2 & _ & K3); [apply HI| | | | |apply HI|apply HI|eauto].
        -- destruct (oi_ctx _ _ HI) as (X1 & X2 & X3). repeat split; assumption.
        -- rewrite EB, C1. reflexivity.
        -- rewrite EC, C4. reflexivity.
        -- fold u. intro K. exfalso. unfold u in K. destruct (mv st) as [|p v] eqn:Ev; [discriminate|]. rewrite qrun_snoc in K. cbn [qstep qw] in K.
           apply andb_true_iff in K. destruct K as [K _]. destruct p as [| | | |[]| | |]; discriminate.
    + cbn [cond0] in C. destruct C as (C1 & C2 & C3).
      assert (Co : char_ok u k) by (apply (char_ok_ctx _ _ _ (oi_ctx _ _ HI) C2)).
      destruct (match k with EqualSign => equal_operator (mv st) | _ => None end) as [o|] eqn:Eo.
      * destruct k; try discriminate Eo. pose proof (equal_read alpha _ st o (out_fits q st HI) Eo) as R.
        destruct (equal_hd _ _ Eo) as (k' & L & EL & Hk). rewrite EL in R. cbn [tl] in R. rewrite <- EL in R.
        pose proof (oi_ok _ _ HI) as O. rewrite EL, okl_snoc in O. destruct O as [O1 O2].
        assert (S2 : spaced (rev L) /\ quiet L).
        { pose proof (oi_sp _ _ HI) as S. rewrite EL in S. cbn [rev] in S. destruct (spaced_init _ _ S) as [S1 S2]; [destruct k'; try contradiction; discriminate|]. rewrite rev_involutive in S2. auto. }
        destruct (out_step q st _ _ HI R) as (st1 & K1 & K2 & _ & K3); [..|eauto].
        -- rewrite okl_snoc. split; [exact O1|]. cbn [cond1 cond0] in O2 |- *. tauto.
        -- pose proof (oi_ctx _ _ HI) as X. rewrite EL, qrun_snoc in X. rewrite qrun_snoc. destruct X as (X1 & X2 & X3). destruct k'; try contradiction; repeat split; assumption.
        -- reflexivity.
        -- reflexivity.
        -- rewrite qrun_snoc. discriminate.
        -- reflexivity.
        -- apply spaced_push; [apply S2 | apply S2 | reflexivity].
      * apply out_push; [exact HI|]. fold u. cbn [cond1 cond0]. rewrite Eu, EB, EC. split; [auto|]. split; [congruence|].
        intros -> p Hp. cbn in Eo. unfold equal_operator in Eo. rewrite Hp in Eo. exact Eo.
  - cbn [cond0] in C. destruct (Bool.bool_dec (some_and is_bs (qp q)) true) as [Eb|Eb].
    + rewrite Eb in C. apply out_push; [exact HI|]. fold u. cbn [cond1]. rewrite Eu, EB, Eb. exact C.
    + apply not_true_is_false in Eb. rewrite Eb in C. destruct C as (C1 & C2 & C3).
      destruct (qsel q && some_and is_colon (hd_error (mv st))) eqn:Ek.
      * apply andb_true_iff in Ek. destruct Ek as [Ek1 Ek2]. destruct (colon_hd _ Ek2) as [L EL].
        assert (R : read_as alpha u st (TOther s) (TSelectorElement (PseudoClass s) :: L)).
        { apply colon_read; [apply (out_fits q st HI) | exact C1 | congruence | exact EL |]. rewrite (oi_c _ _ HI). congruence. }
        pose proof (oi_ok _ _ HI) as O. rewrite EL, okl_snoc in O. destruct O as [O1 O2].
        assert (S2 : spaced (rev L) /\ quiet L).
        { pose proof (oi_sp _ _ HI) as S. rewrite EL in S. cbn [rev] in S. destruct (spaced_init _ _ S) as [S1 S2]; [discriminate|]. rewrite rev_involutive in S2. auto. }
        pose proof (oi_ctx _ _ HI) as X. rewrite EL, qrun_snoc in X.
        destruct (out_step q st _ _ HI R) as (st1 & K1 & K2 & _ & K3); [..|eauto].
        -- rewrite okl_snoc. split; [exact O1|]. cbn [cond1 cond0] in O2 |- *. split; [tauto|]. split; [exact C1|].
           rewrite <- Ek1. destruct X as (X1 & X2 & X3). cbn [qstep qb qm qa] in X1, X2, X3. unfold qsel. now rewrite X1, X2, X3.
        -- rewrite qrun_snoc. destruct X as (X1 & X2 & X3). repeat split; assumption.
        -- reflexivity.
        -- reflexivity.
        -- intros _. cbn [qstep qw wordy andb]. rewrite Eb. reflexivity.
        -- reflexivity.
        -- apply spaced_push; [apply S2 | apply S2 | reflexivity].
      * apply out_push; [exact HI|]. fold u. cbn [cond1]. rewrite Eu, EB, Eb, EC, Es. split; [exact C1|]. split; [auto|].
        intro K. rewrite K in Ek. cbn in Ek. rewrite EC in Ek. split; [exact Ek|]. destruct (C3 K); [congruence | assumption].
  - apply out_push; [exact HI|]. fold u. cbn [cond1 cond0] in *. rewrite Eu, EB, EC, Es. destruct e; try exact C; (destruct C as (C1 & C2 & C3); auto).
  - apply out_push; [exact HI|]. fold u. cbn [cond1 cond0] in *. now rewrite Eu, EB.
  - apply out_push; [exact HI|]. fold u. cbn [cond1 cond0] in *. now rewrite Eu, EB.
  - contradiction C.
Qed.

Lemma out_read : forall w q st, okl (cond0 alpha) q w -> Forall (fun t => is_comment t = false) w -> out_inv q st ->
  exists v, prun alpha st (tps w) None = Ok v /\ okl (cond1 alpha) q0 v /\ spaced v.
Proof.
  induction w as [|t w IH]; intros q st H Hc HI.
  - exists (rev (mv st)). cbn. unfold fillp. rewrite (oi_s _ _ HI). split; [reflexivity|]. split; apply HI.
  - cbn [okl] in H. destruct H as [H1 H2]. inversion Hc; subst. destruct (out_token q st t HI H1 H3) as (st1 & K1 & K2 & K3).
    destruct (IH _ _ H2 H4 K2) as (v & V1 & V2 & V3). exists v. split; [|auto]. rewrite tps_cons, (prun_app alpha), K1. cbn [obind].
    rewrite <- V1. symmetry. apply prun_settle. destruct K3 as [K3 | [K3 K4]]; [auto | right]. eapply word_then; eauto.
Qed.

Lemma out_init : out_inv q0 pinit.
Proof. constructor; cbn; auto; try discriminate; try reflexivity. repeat split. Qed.

(** ** Reading it once more *)

Fixpoint tz (prev : option token) (c : bool) (k : Z) (l : list token) : list token :=
  match l with
  | [] => []
  | t :: r =>
      let (c', k') := calc_step t c k in
      if blankish t then
        if match prev with Some p => retain_blank p (hd_error r) c' | None => true end
        then (if some_and needs prev then [] else [t]) ++ tz (Some t) c' k' r
        else tz prev c' k' r
      else (if needs t then [t; TChar Space] else [t]) ++ tz (Some t) c' k' r
  end.

Lemma cond1_0 : forall q t, cond1 alpha q t -> cond0 alpha q t.
Proof.
  intros q t H. destruct t as [b|b|k|s|e|s|o|o]; cbn [cond1] in H; try exact H; [contradiction | tauto|].
  cbn [cond0]. destruct (some_and is_bs (qp q)); [exact H|]. destruct H as (A & B & C). split; [exact A|]. split; [exact B|]. intro K. right. apply C. exact K.
Qed.

Lemma okl1_0 : forall l q, okl (cond1 alpha) q l -> okl (cond0 alpha) q l.
Proof. induction l as [|t l IH]; intros q H; [exact I|]. destruct H as [A B]. split; [now apply cond1_0 | now apply IH]. Qed.

Lemma blank1 : forall q t, cond1 alpha q t -> blankish t = true -> t = TChar Space /\ exists p, qp q = Some p /\ push_blank [p] = true.
Proof.
  intros q t H Hb. destruct (blankish_cases t Hb) as [(b & ->) | (k & -> & U)]; [contradiction|]. cbn [cond1 cond0] in H.
  destruct H as ((_ & _ & H3) & H4 & _). destruct (H3 U) as [-> _]. auto.
Qed.

Lemma equal_kept : forall p o c, equal_operator [p] = Some o -> push_blank [p] = true -> retain_blank p (Some (TChar EqualSign)) c = true.
Proof.
  intros p o c H Hp. destruct p as [| |k| | | | |]; try discriminate H. destruct k; try discriminate H; try discriminate Hp. destruct c; reflexivity.
Qed.

Record again_inv (q : qst) (st : pst) (prev : option token) (l : list token) : Prop := {
  gi_b : mblock st = qb q; gi_m : mmedia st = qm q; gi_a : mattr st = qa q; gi_s : mseg st = [];
  gi_e : mesc st = some_and is_bs (qp q);
  gi_q : some_and is_a_media (hd_error (mv st)) = false;
  gi_h : hd_error (mv st) = if some_and needs prev then Some (TChar Space) else prev;
  gi_p : qp q = prev \/ (qp q = Some (TChar Space) /\ exists p c, prev = Some p /\ push_blank [p] = true /\ retain_blank p (hd_error l) c = false);
  gi_w : qw q = true -> exists p, qp q = Some p /\ wordy p = true
}.

Lemma push_blank_not : forall p, push_blank [p] = true -> is_bs p = false /\ is_colon p = false /\ is_useless p = false.
Proof. intros p H. destruct p as [| |k| | | | |]; auto. destruct k; auto; discriminate. Qed.

Lemma needs_push : forall t, needs t = true -> push_blank [t] = true /\ is_useless t = false /\ is_bs t = false /\ is_colon t = false.
Proof. intros t H. destruct t as [| | | |[]| | |]; try discriminate; auto. Qed.

Definition with_p (q : qst) (h : option token) : qst := {| qb := qb q; qm := qm q; qa := qa q; qp := h; qw := qw q |}.

Lemma again_fits : forall q st prev l, again_inv q st prev l -> fits (with_p q (hd_error (mv st))) st.
Proof.
  intros q st prev l [B M A S E Q H P W]. unfold fits. cbn [with_p qb qm qa qp]. repeat split; auto; [|congruence].
  rewrite E, H. destruct P as [-> | (-> & p & c & -> & Hp & _)]; cbn [some_and].
  - destruct prev as [p|]; [|reflexivity]. cbn [some_and]. destruct (needs p) eqn:En; [|reflexivity]. destruct (needs_push p En) as (_ & _ & -> & _). reflexivity.
  - destruct (needs p); [reflexivity|]. destruct (push_blank_not p Hp) as (K & _). cbn. now rewrite K.
Qed.

Lemma again_cond : forall q st prev t r, again_inv q st prev (t :: r) -> cond1 alpha q t -> blankish t = false ->
  cond1 alpha (with_p q (hd_error (mv st))) t.
Proof.
  intros q st prev t r [B M A S E Q H P W] C Hb.
  assert (EB : some_and is_bs (hd_error (mv st)) = some_and is_bs (qp q)).
  { rewrite H. destruct P as [-> | (-> & p & c & -> & Hp & _)]; cbn [some_and].
    - destruct prev as [p|]; [|reflexivity]. cbn [some_and]. destruct (needs p) eqn:En; [|reflexivity]. destruct (needs_push p En) as (_ & _ & -> & _). reflexivity.
    - destruct (needs p); [reflexivity|]. destruct (push_blank_not p Hp) as (K & _). cbn. now rewrite K. }
  assert (EC : some_and is_colon (hd_error (mv st)) = some_and is_colon (qp q)).
  { rewrite H. destruct P as [-> | (-> & p & c & -> & Hp & _)]; cbn [some_and].
    - destruct prev as [p|]; [|reflexivity]. cbn [some_and]. destruct (needs p) eqn:En; [|reflexivity]. destruct (needs_push p En) as (_ & _ & _ & ->). reflexivity.
    - destruct (needs p); [reflexivity|]. destruct (push_blank_not p Hp) as (_ & K & _). cbn. now rewrite K. }
  assert (Es : qsel (with_p q (hd_error (mv st))) = qsel q) by reflexivity.
  destruct t as [b|b|k|s|e|s|o|o]; cbn [cond1 cond0] in *; rewrite ?Es; cbn [with_p qp qw]; rewrite ?EB, ?EC; try exact C.
  destruct C as ((C1 & C2 & C3) & C4 & C5). unfold blankish in Hb. cbn [is_useless is_comment] in Hb. rewrite orb_false_r in Hb. split; [|split; [congruence|]].
  - split; [exact C1|]. split; [exact C2 | exact C3].
  - intros Hk p Hp. subst k. destruct (equal_operator [p]) as [o|] eqn:Eo; [|reflexivity]. exfalso. rewrite H in Hp.
    destruct P as [P | (_ & p1 & c & -> & Hpb & Hr)].
    + destruct prev as [p1|]; [|discriminate]. cbn [some_and] in Hp. destruct (needs p1); [injection Hp as <-; discriminate Eo|]. injection Hp as <-.
      rewrite (C5 eq_refl p1 P) in Eo. discriminate.
    + cbn [some_and] in Hp. destruct (needs p1); [injection Hp as <-; discriminate Eo|]. injection Hp as <-. cbn [hd_error] in Hr.
      rewrite (equal_kept p1 o c Eo Hpb) in Hr. discriminate.
Qed.

Lemma again_read : forall l q st prev c k, okl (cond1 alpha) q l -> again_inv q st prev l ->
  prun alpha st (tps (cz prev c k l)) None = Ok (rev (mv st) ++ tz prev c k l).
Proof.
  induction l as [|t r IH]; intros q st prev c k H HI.
  - cbn. unfold fillp. rewrite (gi_s _ _ _ _ HI), app_nil_r. reflexivity.
  - pose proof H as [H1 H2]. cbn [cz tz]. destruct (calc_step t c k) as [c' k'] eqn:Ecs. destruct (blankish t) eqn:Eb.
    + destruct (blank1 q t H1 Eb) as (-> & p & Ep & Hp). cbn [is_comment].
      assert (Epv : prev = Some p).
      { destruct (gi_p _ _ _ _ HI) as [P | (P & _)]; [congruence|]. rewrite Ep in P. injection P as ->. discriminate Hp. }
      subst prev. destruct (push_blank_not p Hp) as (Hp1 & Hp2 & Hp3). cbn [some_and].
      destruct (retain_blank p (hd_error r) c') eqn:Er.
      * destruct (blank_read alpha _ st (again_fits _ _ _ _ HI)) as (st1 & R1 & R2 & R3 & R4 & R5 & R6 & R7 & R8).
        rewrite tps_cons, (prun_app alpha), R1. cbn [obind].
        assert (Ev : mv (settle alpha st1) = if needs p then mv st else TChar Space :: mv st).
        { rewrite R2. pose proof (gi_h _ _ _ _ HI) as Hh. cbn [some_and] in Hh. destruct (needs p) eqn:En.
          - rewrite (push_blank_hd _ _ Hh). reflexivity.
          - rewrite (push_blank_hd _ _ Hh), Hp. reflexivity. }
        rewrite <- (prun_settle alpha st1).
        2: { destruct R8 as [R8 | [R8 _]]; [auto | discriminate R8]. }
        rewrite (IH (qstep q (TChar Space)) (settle alpha st1) (Some (TChar Space)) c' k' H2).
        -- rewrite Ev. destruct (needs p); cbn [rev app]; rewrite <- ?app_assoc; reflexivity.
        -- pose proof (gi_h _ _ _ _ HI) as Hh. cbn [some_and] in Hh.
           constructor; auto; try (apply settle_seg); cbn [qstep qp some_and]; try discriminate.
           ++ rewrite Ev. destruct (needs p); [rewrite Hh|]; reflexivity.
           ++ rewrite Ev. destruct (needs p); [rewrite Hh|]; reflexivity.
      * apply (IH (qstep q (TChar Space)) st (Some p) c' k' H2). destruct HI as [B M A S E Q Hh P W].
        constructor; auto; cbn [qstep qp some_and qw wordy andb]; try discriminate.
        -- rewrite E, Ep. exact Hp1.
        -- right. split; [reflexivity|]. exists p, c'. auto.
    + destruct (token_read alpha _ st t (again_fits _ _ _ _ HI) (again_cond _ _ _ _ _ HI H1 Eb)) as (st1 & R1 & R2 & R3 & R4 & R5 & R6 & R7 & R8).
      rewrite tps_cons, (prun_app alpha), R1. cbn [obind].
      rewrite <- (prun_settle alpha st1).
      2: { destruct R8 as [R8 | [R8 R9]]; [auto | right].
        assert (Hb : some_and is_bs (qp q) = false).
        { cbn [with_p qp] in R9. destruct (again_fits _ _ _ _ HI) as (_ & _ & _ & _ & _ & K & _). cbn [with_p qp] in K. rewrite <- (gi_e _ _ _ _ HI), K. exact R9. }
        apply (word_then q t); [|exact R8|exact Hb]. apply (cz_ok0 alpha r (qstep q t) (qstep q t)).
        - now apply okl1_0.
        - unfold near. cbn [qstep qp qw]. repeat split; auto. intro K. apply andb_true_iff in K. destruct K. eauto. }
      rewrite (IH (qstep q t) (settle alpha st1) (Some t) c' k' H2).
      * rewrite R2. destruct (needs t); cbn [rev app]; rewrite <- ?app_assoc; reflexivity.
      * constructor; auto; try (apply settle_seg); cbn [qstep qp some_and].
        -- rewrite R2. destruct (needs t) eqn:En; [reflexivity|]. cbn [app hd_error some_and]. unfold needs in En. apply orb_false_elim in En. tauto.
        -- rewrite R2. destruct (needs t) eqn:En; reflexivity.
        -- cbn [qw qstep]. intro K. apply andb_true_iff in K. destruct K. eauto.
Qed.

(** ** Cleaning what was read *)

Lemma tz_head : forall q prev c k t r, cond1 alpha q t -> (blankish t = false) -> hd_error (tz prev c k (t :: r)) = Some t.
Proof. intros q prev c k t r _ H. cbn [tz]. destruct (calc_step t c k). rewrite H. destruct (needs t); reflexivity. Qed.

Lemma tz_after_space : forall q prev c k r, okl (cond1 alpha) (qstep q (TChar Space)) r -> hd_error (tz prev c k r) = hd_error r /\ some_and blankish (hd_error r) = false.
Proof.
  intros q prev c k [|t r] H; [split; reflexivity|]. destruct H as [H _]. destruct (blankish t) eqn:Eb.
  - destruct (blank1 _ _ H Eb) as (_ & p & Ep & Hp). cbn in Ep. injection Ep as <-. discriminate.
  - split; [now apply (tz_head _ _ _ _ _ _ H) | exact Eb].
Qed.

(** A blank put after an at-keyword or a licence does not stay. *)
Fixpoint calmed (c : bool) (k : Z) (l : list token) : Prop :=
  match l with
  | [] => True
  | t :: r => let (c', k') := calc_step t c k in
      (needs t = true -> hd_error r = Some (TChar Space) \/ retain_blank t (hd_error r) c' = false) /\ calmed c' k' r
  end.

Lemma spaced_calmed : forall l c k, spaced l -> calmed c k l.
Proof. induction l as [|t r IH]; intros c k H; [exact I|]. destruct H as [H1 H2]. cbn [calmed]. destruct (calc_step t c k). split; [auto | now apply IH]. Qed.

Lemma tz_clean : forall n l q prev c k, (length l <= n)%nat -> okl (cond1 alpha) q l -> calmed c k l ->
  (some_and needs prev = true -> some_and blankish (hd_error l) = false) ->
  cz prev c k (tz prev c k l) = cz prev c k l.
Proof.
  induction n as [|n IH]; intros l q prev c k Hn H SP HP; [destruct l; [reflexivity | cbn in Hn; lia]|].
  destruct l as [|t r]; [reflexivity|]. cbn [length] in Hn. pose proof H as [H1 H2]. cbn [calmed] in SP.
  destruct (blankish t) eqn:Eb.
  - destruct (blank1 q t H1 Eb) as (-> & _). assert (Ep : some_and needs prev = false) by (destruct (some_and needs prev); [specialize (HP eq_refl); discriminate | reflexivity]).
    rewrite calc_step_blank in SP by reflexivity. destruct SP as [_ S2].
    destruct (tz_after_space q (Some (TChar Space)) c k r H2) as [T1 T2].
    cbn [cz tz]. rewrite calc_step_blank by reflexivity. cbn [blankish is_useless is_comment rchar_useless orb]. rewrite Ep.
    destruct (match prev with Some p => retain_blank p (hd_error r) c | None => true end) eqn:Er.
    + cbn [app cz]. rewrite calc_step_blank by reflexivity. cbn [blankish is_useless is_comment rchar_useless orb]. rewrite T1, Er.
      f_equal. apply (IH r (qstep q (TChar Space))); auto; try lia.
    + apply (IH r (qstep q (TChar Space))); auto; try lia.
  - cbn [cz tz]. destruct (calc_step t c k) as [c' k'] eqn:Ecs. rewrite Eb. destruct SP as [S1 S2]. destruct (needs t) eqn:En.
    + cbn [app cz]. rewrite Ecs, Eb. f_equal. destruct (some_and blankish (hd_error r)) eqn:Ebr.
      * destruct r as [|u r]; [discriminate|]. cbn [hd_error some_and] in Ebr. destruct H2 as [H2 H3].
        destruct (blank1 _ u H2 Ebr) as (-> & _). cbn [calmed] in S2. rewrite calc_step_blank in S2 by reflexivity. destruct S2 as [_ S2]. cbn [length] in Hn.
        destruct (tz_after_space (qstep q t) (Some (TChar Space)) c' k' r H3) as [T1 T2]. destruct (tz_after_space (qstep q t) (Some t) c' k' r H3) as [T3 _].
        cbn [cz tz]. rewrite !calc_step_blank by reflexivity. cbn [blankish is_useless is_comment rchar_useless orb some_and]. rewrite En. cbn [app].
        destruct (retain_blank t (hd_error r) c') eqn:Er.
        -- rewrite T1, Er. f_equal. apply (IH r (qstep (qstep q t) (TChar Space))); auto; try lia.
        -- rewrite T3, Er. apply (IH r (qstep (qstep q t) (TChar Space))); auto. lia.
      * destruct (S1 eq_refl) as [S3|S3]; [rewrite S3 in Ebr; discriminate|].
        rewrite calc_step_blank by reflexivity. cbn [blankish is_useless is_comment rchar_useless orb].
        assert (T : hd_error (tz (Some t) c' k' r) = hd_error r).
        { destruct r as [|u r]; [reflexivity|]. apply (tz_head (qstep q t)); [apply H2 | exact Ebr]. }
        rewrite T, S3. apply (IH r (qstep q t)); auto. lia.
    + cbn [app cz]. rewrite Ecs, Eb. f_equal. apply (IH r (qstep q t)); auto; try lia. cbn [some_and]. congruence.
Qed.

(** ** Three runs *)

Lemma css_thrice : forall s o o', regular s -> colons_clear (fst (lex s)) ->
  css_minify alpha s = Ok o -> css_minify alpha o = Ok o' -> css_minify alpha o' = Ok o'.
Proof.
  intros s o o' Hr Hc H1 H2.
  pose proof (css_main alpha s o H1 Hr) as (_ & _ & _ & _ & Hro & Hpo). pose proof (css_main alpha o o' H2 Hro) as (_ & _ & _ & _ & Hro' & Hpo').
  pose proof (css_minify_cases alpha s) as K1. destruct (css_problem s); [congruence|]. destruct K1 as (v0 & V0 & M0).
  pose proof (css_minify_cases alpha o) as K2. rewrite Hpo in K2. destruct K2 as (v1 & V1 & M1).
  pose proof (css_minify_cases alpha o') as K3. rewrite Hpo' in K3. destruct K3 as (v2 & V2 & M2).
  assert (Eo : o = concat (map token_show (cz None false 0 v0))) by congruence.
  assert (Eo' : o' = concat (map token_show (cz None false 0 v1))) by congruence.
  pose proof (output_pieces alpha s o v0 Hr V0 Eo) as L1. pose proof (output_pieces alpha o o' v1 Hro V1 Eo') as L2.
  pose proof (src_tokens alpha s v0 Hr Hc V0) as O0.
  assert (N0 : near q0 q0 None v0) by (unfold near; repeat split; auto; discriminate).
  destruct (out_read _ q0 pinit (cz_ok0 alpha v0 q0 q0 None false 0%Z O0 N0) (CssProofs12.cz_no_comment v0 None false 0%Z) out_init) as (v & R1 & R2 & R3).
  rewrite L1, R1 in V1. injection V1 as <-.
  assert (G0 : again_inv q0 pinit None v) by (constructor; cbn; auto; discriminate).
  pose proof (again_read v q0 pinit None false 0%Z R2 G0) as R4. cbn [mv pinit rev app] in R4. rewrite L2, R4 in V2. injection V2 as <-.
  rewrite M2. rewrite (tz_clean (length v) v q0 None false 0%Z (le_n _) R2 (spaced_calmed v false 0%Z R3)); [congruence | discriminate].
Qed.
End Alpha.
