(** Reading printed tokens again: the tokens of the output. *)
From Coq Require Import String Arith List NArith ZArith Bool Lia.
From Verif Require Import Base CssModel CssSpec CssProofs1 CssProofs2 CssProofs3 CssProofs4 CssProofs5 CssProofs6 CssProofs7 CssProofs10.
Import ListNotations.
Open Scope N_scope.

(** ** Contexts of a list of tokens *)

Definition is_bs : token -> bool := is_the_char Backslash.
Definition is_colon : token -> bool := is_the_char Colon.
Definition needs (t : token) : bool := is_a_media t || is_a_license t.
Definition wordy (t : token) : bool :=
  match t with TOther _ => true | TSelectorElement (Media _) => false | TSelectorElement _ => true | _ => false end.

(** Block depth, at-rule, brackets, the last token, whether a word may go on. *)
Record qst := { qb : Z; qm : bool; qa : bool; qp : option token; qw : bool }.

Definition q0 : qst := {| qb := 0; qm := false; qa := false; qp := None; qw := false |}.

Definition qstep (q : qst) (t : token) : qst :=
  {| qb := match t with TChar OpenCurlyBrace => (qb q + 1)%Z | TChar CloseCurlyBrace => (qb q - 1)%Z | _ => qb q end;
     qm := match t with
           | TSelectorElement (Media _) => true
           | TChar CloseCurlyBrace => if Z.eqb (qb q - 1) 0 then false else qm q
           | TChar SemiColon => if Z.eqb (qb q) 0 then false else qm q
           | _ => qm q
           end;
     qa := match t with TChar OpenBracket => true | TChar CloseBracket => false | _ => qa q end;
     qp := Some t;
     qw := wordy t && negb (some_and is_bs (qp q)) |}.

Definition qrun (q : qst) (l : list token) : qst := fold_left qstep l q.

Lemma qrun_app : forall a b q, qrun q (a ++ b) = qrun (qrun q a) b.
Proof. intros. apply fold_left_app. Qed.

Definition same_ctx (q q' : qst) : Prop := qb q = qb q' /\ qm q = qm q' /\ qa q = qa q'.

Lemma same_ctx_step : forall q q' t, same_ctx q q' -> same_ctx (qstep q t) (qstep q' t).
Proof. intros q q' t (A & B & C). unfold same_ctx, qstep. cbn [qb qm qa]. rewrite A, B, C. auto. Qed.

Definition words (s : str) : Prop := s <> [] /\ Forall (fun c => wordc c = true) s.

Lemma blankish_cases : forall t, blankish t = true -> (exists b, t = TComment b) \/ (exists k, t = TChar k /\ rchar_useless k = true).
Proof.
  intros t H. destruct t as [b|b|k|s|e|s|o|o]; try discriminate; [eauto|]. right. exists k. split; [reflexivity|].
  unfold blankish in H. cbn [is_useless is_comment] in H. now rewrite orb_false_r in H.
Qed.

Section Alpha.
Variable alpha : N -> bool.

Definition qsel (q : qst) : bool := selector_context (qb q) (qm q) (qa q).

Definition elem_ok (e : selement) : Prop :=
  exists seg, Forall (fun c => wordc c = true) seg /\ selement_of alpha seg = Some e.

Definition char_ok (q : qst) (k : rchar) : Prop :=
  match k with
  | Quote | DoubleQuote => False
  | OpenBracket => qa q = false
  | CloseBracket => qa q = true
  | CloseCurlyBrace => (0 < qb q)%Z
  | _ => True
  end.

(** Conditions on a token of any source. *)
Definition cond0 (q : qst) (t : token) : Prop :=
  match t with
  | TOther s =>
      if some_and is_bs (qp q) then exists c, s = [c]
      else words s /\ qw q = false /\ (qsel q = true -> some_and is_colon (qp q) = true \/ selement_of alpha s = None)
  | TSelectorElement (PseudoClass s) => some_and is_bs (qp q) = false /\ words s /\ qsel q = true
  | TSelectorElement e =>
      some_and is_bs (qp q) = false /\ qw q = false /\ qsel q = true /\ some_and is_colon (qp q) = false /\ elem_ok e
  | TChar k =>
      some_and is_bs (qp q) = false /\ char_ok q k /\ (rchar_useless k = true -> k = Space /\ some_and is_colon (qp q) = false)
  | TComment _ => some_and is_bs (qp q) = false /\ some_and is_colon (qp q) = false
  | TOperator _ => False
  | _ => some_and is_bs (qp q) = false
  end.

(** Conditions on a token of a source that is an output. *)
Definition cond1 (q : qst) (t : token) : Prop :=
  match t with
  | TOther s =>
      if some_and is_bs (qp q) then exists c, s = [c]
      else words s /\ qw q = false /\ (qsel q = true -> some_and is_colon (qp q) = false /\ selement_of alpha s = None)
  | TChar k => cond0 q t /\
      (rchar_useless k = true -> exists p, qp q = Some p /\ push_blank [p] = true) /\
      (k = EqualSign -> forall p, qp q = Some p -> equal_operator [p] = None)
  | TComment _ => False
  | _ => cond0 q t
  end.

Fixpoint okl (cond : qst -> token -> Prop) (q : qst) (l : list token) : Prop :=
  match l with [] => True | t :: r => cond q t /\ okl cond (qstep q t) r end.

Lemma okl_app : forall cond a b q, okl cond q (a ++ b) <-> okl cond q a /\ okl cond (qrun q a) b.
Proof.
  intros cond a. induction a as [|t a IH]; intros b q; cbn [app okl qrun fold_left]; [tauto|].
  fold (qrun (qstep q t) a). rewrite IH. tauto.
Qed.

Lemma okl_snoc : forall cond v t q, okl cond q (rev (t :: v)) <-> okl cond q (rev v) /\ cond (qrun q (rev v)) t.
Proof. intros. cbn [rev]. rewrite okl_app. cbn [okl]. tauto. Qed.

Lemma qrun_snoc : forall v t q, qrun q (rev (t :: v)) = qstep (qrun q (rev v)) t.
Proof. intros. cbn [rev]. rewrite qrun_app. reflexivity. Qed.

Lemma qp_rev : forall v, qp (qrun q0 (rev v)) = hd_error v.
Proof. intros [|t v]; [reflexivity|]. rewrite qrun_snoc. reflexivity. Qed.

(** ** Cleaning keeps the conditions *)

Definition near (q q' : qst) (prev : option token) (l : list token) : Prop :=
  same_ctx q q' /\ prev = qp q' /\ some_and is_bs (qp q') = some_and is_bs (qp q) /\
  some_and is_colon (qp q') = some_and is_colon (qp q) /\
  (qw q' = true -> exists p, qp q' = Some p /\ wordy p = true) /\
  (qw q' = qw q \/ exists p c, prev = Some p /\ retain_blank p (hd_error l) c = false).

Lemma words_apart : forall p t c, wordy p = true -> wordy t = true -> retain_blank p (Some t) c = true.
Proof.
  intros p t c Hp Ht. destruct p as [| | |s|[]| | |]; try discriminate; destruct t as [| | |s'|[]| | |]; try discriminate; destruct c; reflexivity.
Qed.

Lemma char_ok_ctx : forall q q' k, same_ctx q q' -> char_ok q k -> char_ok q' k.
Proof. intros q q' k (A & B & C) H. unfold char_ok in *. rewrite <- A, <- C. exact H. Qed.

Lemma cond0_near : forall q q' prev t r, near q q' prev (t :: r) -> cond0 q t -> blankish t = false -> cond0 q' t.
Proof.
  intros q q' prev t r (X & -> & A & B & W & N) C Hb.
  assert (Es : qsel q' = qsel q) by (destruct X as (X1 & X2 & X3); unfold qsel; now rewrite X1, X2, X3).
  assert (Q : wordy t = true -> qw q = false -> qw q' = false).
  { intros Ht Hq. destruct N as [N|(p & c & E & R)]; [congruence|]. destruct (qw q') eqn:Ew; [|reflexivity].
    destruct (W eq_refl) as (p' & E' & Hp). rewrite E' in E. injection E as ->. cbn [hd_error] in R. rewrite words_apart in R by assumption. discriminate. }
  unfold cond0 in *. rewrite A, B, Es. destruct t as [b|b|k|s|e|s|o|o]; try exact C.
  - destruct C as (C1 & C2 & C3). split; [exact C1|]. split; [exact (char_ok_ctx _ _ _ X C2) | exact C3].
  - destruct (some_and is_bs (qp q)); [exact C|]. destruct C as (C1 & C2 & C3). auto.
  - destruct e; try exact C; destruct C as (C1 & C2 & C3); (split; [exact C1|]; split; [|exact C3]).
    1-3: apply Q; [reflexivity | exact C2].
    destruct N as [N|(p & c & E & R)]; [congruence|]. destruct (qw q') eqn:Ew; [|reflexivity].
    destruct (W eq_refl) as (p' & E' & Hp). rewrite E' in E. injection E as ->. cbn [hd_error] in R.
    exfalso. revert R. clear - Hp. destruct p as [| | |s1|[]| | |]; try discriminate; destruct c; discriminate.
Qed.

Lemma near_step : forall q q' prev l t r, near q q' prev l -> near (qstep q t) (qstep q' t) (Some t) r.
Proof.
  intros q q' prev l t r (X & _ & A & _). unfold near. split; [now apply same_ctx_step|]. cbn [qp qstep qw some_and].
  split; [reflexivity|]. split; [reflexivity|]. split; [reflexivity|]. rewrite A. split; [|left; reflexivity].
  intro H. exists t. split; [reflexivity|]. apply andb_true_iff in H. tauto.
Qed.

Lemma cz_ok0 : forall l q q' prev c k, okl cond0 q l -> near q q' prev l -> okl cond0 q' (cz prev c k l).
Proof.
  induction l as [|t r IH]; intros q q' prev c k H N; [exact I|]. cbn [okl] in H. destruct H as [H1 H2].
  cbn [cz]. destruct (calc_step t c k) as [c' k']. destruct (blankish t) eqn:Eb.
  - assert (Ht : some_and is_bs (qp q) = false /\ some_and is_colon (qp q) = false /\ exists u, t = u /\ (if is_comment t then TChar Space else t) = TChar Space).
    { destruct (blankish_cases t Eb) as [(b & ->) | (x & -> & U)]; cbn [cond0] in H1.
      - destruct H1. split; [assumption|]. split; [assumption|]. eauto.
      - destruct H1 as (K1 & _ & K3). destruct (K3 U) as [-> K4]. split; [assumption|]. split; [assumption|]. eexists. split; reflexivity. }
    destruct Ht as (B1 & B2 & _ & _ & Et). cbv zeta. rewrite Et.
    destruct N as (X & -> & A & B & W & N).
    destruct (match qp q' with Some p => retain_blank p (hd_error r) c' | None => true end) eqn:Er.
    + cbn [okl]. split.
      * cbn [cond0]. rewrite A, B. split; [exact B1|]. split; [exact I|]. intros _. split; [reflexivity | exact B2].
      * apply (IH (qstep q t)); [exact H2|]. unfold near. cbn [qp qstep qw].
        assert (same_ctx (qstep q t) (qstep q' (TChar Space))) as Z.
        { destruct (blankish_cases t Eb) as [(b & ->) | (x & -> & U)]; [exact X|]. destruct x; try discriminate; exact X. }
        split; [exact Z|]. split; [reflexivity|].
        destruct (blankish_cases t Eb) as [(b & ->) | (x & -> & U)]; [|destruct x; try discriminate];
          (split; [reflexivity|]; split; [reflexivity|]; split; [intro K; cbn in K; discriminate | left; reflexivity]).
    + destruct (qp q') as [p|] eqn:Ep; [|discriminate].
      apply (IH (qstep q t)); [exact H2|]. unfold near. cbn [qp qstep qw]. rewrite Ep.
      assert (same_ctx (qstep q t) q') as Z.
      { destruct (blankish_cases t Eb) as [(b & ->) | (x & -> & U)]; [exact X|]. destruct x; try discriminate; exact X. }
      split; [exact Z|]. split; [reflexivity|]. split; [|split; [|split]].
      * rewrite A, B1. destruct (blankish_cases t Eb) as [(b & ->) | (x & -> & U)]; [reflexivity|]. destruct x; try discriminate; reflexivity.
      * rewrite B, B2. destruct (blankish_cases t Eb) as [(b & ->) | (x & -> & U)]; [reflexivity|]. destruct x; try discriminate; reflexivity.
      * exact W.
      * right. exists p, c'. split; [reflexivity | exact Er].
  - cbn [okl]. split; [exact (cond0_near q q' prev t r N H1 Eb)|]. apply (IH (qstep q t)); [exact H2|]. exact (near_step _ _ _ _ _ _ N).
Qed.

Lemma cz_no_comment : forall l prev c k, Forall (fun t => is_comment t = false) (cz prev c k l).
Proof.
  induction l as [|t r IH]; intros prev c k; [constructor|]. cbn [cz]. destruct (calc_step t c k) as [c' k'].
  destruct (blankish t) eqn:Eb.
  - destruct (match prev with Some p => retain_blank p (hd_error r) c' | None => true end); [|apply IH].
    constructor; [|apply IH]. destruct (is_comment t) eqn:E; [reflexivity | exact E].
  - constructor; [|apply IH]. unfold blankish in Eb. apply orb_false_elim in Eb. tauto.
Qed.

(** ** Reading one printed token *)

Definition settle (st : pst) : pst :=
  match mseg st with
  | [] => st
  | _ => mk (fillp alpha st) false (mblock st) (mmedia st || some_and is_a_media (hd_error (fillp alpha st))) (mattr st) false
  end.

Lemma settle_seg : forall st, mseg (settle st) = [].
Proof. intro st. unfold settle. destruct (mseg st) eqn:E; [exact E | reflexivity]. Qed.

Lemma fillp_settled : forall st, fillp alpha (settle st) = fillp alpha st.
Proof. intro st. unfold settle. destruct (mseg st) eqn:E; [reflexivity|]. reflexivity. Qed.

Definition not_char (ps : list piece) : Prop := match ps with PChar _ :: _ => False | _ => True end.

Lemma prun_settle : forall st ps, mseg st = [] \/ not_char ps -> prun alpha (settle st) ps None = prun alpha st ps None.
Proof.
  intros st ps [H|H]; [unfold settle; now rewrite H|]. destruct ps as [|p ps]; cbn [prun]; [now rewrite fillp_settled|].
  replace (pstep alpha (settle st) p) with (pstep alpha st p); [reflexivity|].
  unfold settle. destruct (mseg st) as [|c0 w0] eqn:E; [reflexivity|].
  assert (F : forall b m a, fillp alpha (mk (fillp alpha st) false b m a false) = fillp alpha st) by reflexivity.
  destruct p as [c| | |t|b|b|c]; [contradiction|..]; cbn [pstep]; rewrite F; cbn [mmedia mblock mattr mk];
    rewrite <- orb_assoc, orb_diag; reflexivity.
Qed.

Lemma chars_read : forall s st, mesc st = false -> pmulti alpha st (map PChar s) =
  Ok {| mv := mv st; mseg := mseg st ++ s; mcol := mcol st; mblock := mblock st; mmedia := mmedia st; mattr := mattr st; mesc := false |}.
Proof.
  induction s as [|c s IH]; intros st H; cbn [map pmulti].
  - rewrite app_nil_r. destruct st. cbn in *. subst. reflexivity.
  - cbn [pstep]. rewrite H. cbn [obind]. rewrite IH by reflexivity. cbn [mv mseg mcol mblock mmedia mattr]. rewrite <- app_assoc. reflexivity.
Qed.

(** The state [st] has read a whole number of tokens, in context [q]. *)
Definition fits (q : qst) (st : pst) : Prop :=
  mblock st = qb q /\ mmedia st = qm q /\ mattr st = qa q /\ mseg st = [] /\ hd_error (mv st) = qp q /\ mesc st = some_and is_bs (qp q) /\
  (some_and is_a_media (qp q) = true -> qm q = true).

Definition read_as (q : qst) (st : pst) (t : token) (v : list token) : Prop :=
  exists st1, pmulti alpha st (tp t) = Ok st1 /\ mv (settle st1) = v /\
    mblock (settle st1) = qb (qstep q t) /\ mmedia (settle st1) = qm (qstep q t) /\ mattr (settle st1) = qa (qstep q t) /\
    mesc (settle st1) = is_bs t /\ mcol (settle st1) = is_colon t /\
    (mseg st1 = [] \/ wordy t = true /\ some_and is_bs (qp q) = false).

Lemma words_wordp : forall s, words s -> wordp s = map PChar s.
Proof. intros [|c s] [H _]; [congruence | reflexivity]. Qed.

Lemma selement_words : forall seg e, selement_of alpha seg = Some e -> seg <> [].
Proof. intros [|c s] e H; [discriminate H | discriminate]. Qed.

Lemma hd_colon_eq : forall v, some_and (is_the_char Colon) (hd_error v) = some_and is_colon (hd_error v).
Proof. reflexivity. Qed.

(** The state after a run of characters is settled. *)
Lemma run_read : forall st s, mesc st = false -> mseg st = [] -> words s ->
  exists st1, pmulti alpha st (map PChar s) = Ok st1 /\ mseg st1 = s /\
    settle st1 = mk (fillp alpha st1) false (mblock st) (mmedia st || some_and is_a_media (hd_error (fillp alpha st1))) (mattr st) false /\
    mv st1 = mv st /\ mcol st1 = mcol st /\ mblock st1 = mblock st /\ mmedia st1 = mmedia st /\ mattr st1 = mattr st.
Proof.
  intros st s He Hs Hw. rewrite (chars_read s st He), Hs. cbn [app]. eexists. split; [reflexivity|]. cbn [mseg mv mcol mblock mmedia mattr].
  repeat split. unfold settle. cbn [mseg]. destruct s; [destruct Hw; congruence|]. reflexivity.
Qed.

Lemma media_settled : forall q st, fits q st -> mmedia st || some_and is_a_media (hd_error (fillp alpha st)) = qm q.
Proof.
  intros q st (Fb & Fm & Fa & Fs & Fh & Fe & Fi). unfold fillp. rewrite Fs, Fh, Fm.
  destruct (some_and is_a_media (qp q)); [rewrite Fi by reflexivity; reflexivity | apply orb_false_r].
Qed.

Lemma sel_of : forall q st, fits q st -> selector_context (mblock st) (mmedia st) (mattr st) = qsel q.
Proof. intros q st (Fb & Fm & Fa & _). unfold qsel. rewrite Fb, Fm, Fa. reflexivity. Qed.

Lemma other_read : forall q st s, fits q st -> some_and is_bs (qp q) = false -> words s ->
  (qsel q = true -> some_and is_colon (qp q) = false /\ selement_of alpha s = None) ->
  read_as q st (TOther s) (TOther s :: mv st).
Proof.
  intros q st s F Hb Hw Hs. pose proof F as (Fb & Fm & Fa & Fs & Fh & Fe & Fi). rewrite Hb in Fe.
  destruct (run_read st s Fe Fs Hw) as (st1 & E1 & E2 & E3 & E4 & E5 & E6 & E7 & E8).
  assert (Ef : fillp alpha st1 = TOther s :: mv st).
  { unfold fillp. rewrite E2, E4, E6, E7, E8, (sel_of q st F), Fh. destruct s as [|c s]; [destruct Hw; congruence|].
    destruct (qsel q); [|reflexivity]. destruct (Hs eq_refl) as [K1 K2]. unfold is_colon in K1. rewrite K1, K2. reflexivity. }
  exists st1. cbn [tp]. rewrite (words_wordp s Hw). split; [exact E1|]. rewrite E3. cbn [mv mblock mmedia mattr mesc mcol mk].
  rewrite Ef. cbn [hd_error some_and is_a_media qb qm qa qstep]. rewrite orb_false_r. repeat split; auto.
Qed.

Lemma elem_read : forall q st e, fits q st -> some_and is_bs (qp q) = false -> elem_ok e -> is_a_media (TSelectorElement e) = false ->
  qsel q = true -> some_and is_colon (qp q) = false ->
  read_as q st (TSelectorElement e) (TSelectorElement e :: mv st).
Proof.
  intros q st e F Hb (seg & Hf & He) Hm Hs Hc. pose proof F as (Fb & Fm & Fa & Fs & Fh & Fe & Fi). rewrite Hb in Fe.
  assert (Hw : words seg) by (split; [exact (selement_words _ _ He) | exact Hf]).
  destruct (run_read st seg Fe Fs Hw) as (st1 & E1 & E2 & E3 & E4 & E5 & E6 & E7 & E8).
  assert (Ef : fillp alpha st1 = TSelectorElement e :: mv st).
  { unfold fillp. rewrite E2, E4, E6, E7, E8, (sel_of q st F), Fh, Hs. destruct seg as [|c s]; [destruct Hw; congruence|].
    unfold is_colon in Hc. rewrite Hc, He. reflexivity. }
  pose proof (selement_tp alpha seg e He Hf) as Ht.
  exists st1. assert (Et : tp (TSelectorElement e) = map PChar seg) by (destruct e; [exact Ht..|discriminate Hm]).
  rewrite Et. split; [exact E1|]. rewrite E3. cbn [mv mblock mmedia mattr mesc mcol mk]. rewrite Ef. cbn [hd_error some_and]. rewrite Hm, orb_false_r.
  destruct e; try discriminate Hm; cbn [qb qm qa qstep]; repeat split; auto.
Qed.

Lemma pmulti_one : forall st p, pmulti alpha st [p] = pstep alpha st p.
Proof. intros. cbn [pmulti]. destruct (pstep alpha st p); reflexivity. Qed.

Lemma media_read : forall q st s, fits q st -> some_and is_bs (qp q) = false -> elem_ok (Media s) ->
  qsel q = true -> some_and is_colon (qp q) = false ->
  read_as q st (TSelectorElement (Media s)) (TChar Space :: TSelectorElement (Media s) :: mv st).
Proof.
  intros q st s F Hb (seg & Hf & He) Hs Hc. pose proof F as (Fb & Fm & Fa & Fs & Fh & Fe & Fi). rewrite Hb in Fe.
  assert (Hw : words seg) by (split; [exact (selement_words _ _ He) | exact Hf]).
  destruct (run_read st seg Fe Fs Hw) as (st1 & E1 & E2 & E3 & E4 & E5 & E6 & E7 & E8).
  assert (Ef : fillp alpha st1 = TSelectorElement (Media s) :: mv st).
  { unfold fillp. rewrite E2, E4, E6, E7, E8, (sel_of q st F), Fh, Hs. destruct seg as [|c s0]; [destruct Hw; congruence|].
    unfold is_colon in Hc. rewrite Hc, He. reflexivity. }
  destruct (selement_tp alpha seg _ He Hf) as [-> Hne].
  unfold read_as. replace (tp (TSelectorElement (Media s))) with (map PChar (64 :: s) ++ [PBlank]) by (cbn [tp]; destruct s; [congruence | reflexivity]).
  rewrite pmulti_app, E1. cbn [obind]. rewrite pmulti_one. cbn [pstep]. rewrite Ef. cbn [push_blank hd_error is_useless is_char negb orb andb some_and is_a_media].
  eexists. split; [reflexivity|]. rewrite E6, E7, E8, orb_true_r. cbn [settle mk mseg mv mblock mmedia mattr mesc mcol qb qm qa qstep]. repeat split; auto.
Qed.

Lemma pseudo_read : forall q st s, fits q st -> some_and is_bs (qp q) = false -> words s -> qsel q = true ->
  read_as q st (TSelectorElement (PseudoClass s)) (TSelectorElement (PseudoClass s) :: mv st).
Proof.
  intros q st s F Hb Hw Hs. pose proof (media_settled q st F) as Hm. pose proof F as (Fb & Fm & Fa & Fs & Fh & Fe & Fi).
  unfold read_as. cbn [tp]. rewrite (words_wordp s Hw).
  cbn [pmulti pstep rchar_of N.eqb Pos.eqb]. rewrite Hm. unfold fillp. rewrite Fs. cbn [obind].
  set (st0 := mk (TChar Colon :: mv st) true (mblock st) (qm q) (mattr st) false).
  destruct (run_read st0 s eq_refl eq_refl Hw) as (st1 & E1 & E2 & E3 & E4 & E5 & E6 & E7 & E8).
  assert (Ef : fillp alpha st1 = TSelectorElement (PseudoClass s) :: mv st).
  { unfold fillp. rewrite E2, E4, E5, E6, E7, E8. unfold st0. cbn [mblock mmedia mattr mk mv mcol]. rewrite Fb, Fa. fold (qsel q). rewrite Hs.
    destruct s as [|c s]; [destruct Hw; congruence|]. reflexivity. }
  exists st1. split; [exact E1|]. rewrite E3, Ef. unfold st0. cbn [mv mblock mmedia mattr mesc mcol mk hd_error some_and is_a_media qb qm qa qstep].
  rewrite orb_false_r. repeat split; auto.
Qed.

Lemma char_read : forall q st k, fits q st -> some_and is_bs (qp q) = false -> char_ok q k -> rchar_useless k = false ->
  (k = EqualSign -> forall p, qp q = Some p -> equal_operator [p] = None) ->
  read_as q st (TChar k) (TChar k :: mv st).
Proof.
  intros q st k F Hb Hk Hu He. pose proof (media_settled q st F) as Hm. pose proof F as (Fb & Fm & Fa & Fs & Fh & Fe & Fi).
  assert (Hq : equal_operator (mv st) = match qp q with Some p => equal_operator [p] | None => None end).
  { unfold equal_operator at 1. rewrite Fh. destruct (qp q); reflexivity. }
  unfold read_as. destruct k; try discriminate Hu; try (destruct Hk; fail); cbn [char_ok] in Hk; cbn [tp rchar_useless rchar_show]; rewrite pmulti_one;
    cbn [pstep rchar_of N.eqb Pos.eqb]; rewrite ?Hm; unfold fillp; rewrite ?Fs, ?Fa, ?Hk;
    try (eexists; split; [reflexivity|]; cbn [settle mk mseg mv mblock mmedia mattr mesc mcol qb qm qa qstep]; rewrite ?Fb, ?Fa, ?Hk; repeat split; auto; fail).
  - (* brace *) destruct (Z.ltb_spec (mblock st - 1) 0); [lia|].
    eexists; split; [reflexivity|]; cbn [settle mk mseg mv mblock mmedia mattr mesc mcol qb qm qa qstep]; rewrite ?Fb, ?Fa; repeat split; auto.
  - (* equal *) rewrite Hq.
    replace (match qp q with Some p => equal_operator [p] | None => None end) with (@None soperator) by (destruct (qp q); [symmetry; apply He; reflexivity | reflexivity]).
    eexists; split; [reflexivity|]; cbn [settle mk mseg mv mblock mmedia mattr mesc mcol qb qm qa qstep]; rewrite ?Fb, ?Fa; repeat split; auto.
Qed.

Lemma blank_read : forall q st, fits q st ->
  read_as q st (TChar Space) (if push_blank (mv st) then TChar Space :: mv st else mv st).
Proof.
  intros q st F. pose proof (media_settled q st F) as Hm. pose proof F as (Fb & Fm & Fa & Fs & Fh & Fe & Fi).
  unfold read_as. cbn [tp rchar_useless]. rewrite pmulti_one. cbn [pstep]. rewrite Hm. unfold fillp. rewrite Fs.
  eexists; split; [reflexivity|]; cbn [settle mk mseg mv mblock mmedia mattr mesc mcol qb qm qa qstep]; rewrite ?Fb, ?Fa; repeat split; auto.
Qed.

Lemma operator_read : forall q st o, fits q st -> read_as q st (TSelectorOperator o) (TSelectorOperator o :: mv st).
Proof.
  intros q st o F. pose proof (media_settled q st F) as Hm. pose proof F as (Fb & Fm & Fa & Fs & Fh & Fe & Fi).
  assert (Ev : fillp alpha st = mv st) by (unfold fillp; now rewrite Fs).
  unfold read_as. cbn [tp pmulti]. destruct o; cbn [pstep rchar_of N.eqb Pos.eqb]; rewrite Hm, ?Ev;
    cbn [obind fillp mk mseg mv equal_operator hd_error tl some_and is_a_media mblock mmedia mattr];
    (eexists; split; [reflexivity|]; cbn [settle mk mseg mv mblock mmedia mattr mesc mcol qb qm qa qstep fillp tl]; rewrite ?orb_false_r, ?Fb, ?Fa; repeat split; auto).
Qed.

Lemma equal_read : forall q st o, fits q st -> equal_operator (mv st) = Some o ->
  read_as q st (TChar EqualSign) (TSelectorOperator o :: tl (mv st)).
Proof.
  intros q st o F Ho. pose proof (media_settled q st F) as Hm. pose proof F as (Fb & Fm & Fa & Fs & Fh & Fe & Fi).
  unfold read_as. cbn [tp rchar_useless rchar_show]. rewrite pmulti_one. cbn [pstep rchar_of N.eqb Pos.eqb]. rewrite Hm. unfold fillp. rewrite Fs, Ho.
  eexists; split; [reflexivity|]; cbn [settle mk mseg mv mblock mmedia mattr mesc mcol qb qm qa qstep]; rewrite ?orb_false_r, ?Fb, ?Fa; repeat split; auto.
Qed.

(** A word that follows a colon at once is read as a pseudo-class. *)
Lemma colon_read : forall q st s L, fits q st -> words s -> qsel q = true -> mv st = TChar Colon :: L -> mcol st = true ->
  read_as q st (TOther s) (TSelectorElement (PseudoClass s) :: L).
Proof.
  intros q st s L F Hw Hs Hv Hc. pose proof F as (Fb & Fm & Fa & Fs & Fh & Fe & Fi). rewrite Hv in Fh. cbn [hd_error] in Fh. rewrite <- Fh in Fe. cbn in Fe.
  destruct (run_read st s Fe Fs Hw) as (st1 & E1 & E2 & E3 & E4 & E5 & E6 & E7 & E8).
  assert (Ef : fillp alpha st1 = TSelectorElement (PseudoClass s) :: L).
  { unfold fillp. rewrite E2, E4, E5, E6, E7, E8, (sel_of q st F), Hv, Hs, Hc. destruct s as [|c s]; [destruct Hw; congruence|]. reflexivity. }
  exists st1. cbn [tp]. rewrite (words_wordp s Hw). split; [exact E1|]. rewrite E3. cbn [mv mblock mmedia mattr mesc mcol mk].
  rewrite Ef. cbn [hd_error some_and is_a_media qb qm qa qstep]. rewrite orb_false_r, <- Fh. repeat split; auto.
Qed.

Lemma escaped_read : forall q st c, fits q st -> some_and is_bs (qp q) = true ->
  read_as q st (TOther [c]) (TOther [c] :: mv st).
Proof.
  intros q st c F Hb. pose proof F as (Fb & Fm & Fa & Fs & Fh & Fe & Fi). rewrite Hb in Fe.
  unfold read_as. cbn [tp wordp map]. rewrite pmulti_one. cbn [pstep]. rewrite Fe.
  eexists; split; [reflexivity|]; cbn [settle mk mseg mv mblock mmedia mattr mesc mcol qb qm qa qstep]; rewrite ?orb_false_r, ?Fb, ?Fa; repeat split; auto.
Qed.

Lemma string_read : forall q st s, fits q st -> read_as q st (TString s) (TString s :: mv st).
Proof.
  intros q st s F. pose proof (media_settled q st F) as Hm. pose proof F as (Fb & Fm & Fa & Fs & Fh & Fe & Fi).
  unfold read_as. cbn [tp]. rewrite pmulti_one. cbn [pstep]. rewrite Hm. unfold fillp. rewrite Fs.
  eexists; split; [reflexivity|]; cbn [settle mk mseg mv mblock mmedia mattr mesc mcol qb qm qa qstep]; rewrite ?Fb, ?Fa; repeat split; auto.
Qed.

Lemma license_read : forall q st b, fits q st -> read_as q st (TLicense b) (TChar Space :: TLicense b :: mv st).
Proof.
  intros q st b F. pose proof (media_settled q st F) as Hm. pose proof F as (Fb & Fm & Fa & Fs & Fh & Fe & Fi).
  unfold read_as. cbn [tp pmulti pstep]. rewrite Hm. unfold fillp at 1. rewrite Fs.
  cbn [obind fillp mk mseg mv push_blank is_useless is_char negb andb orb hd_error some_and is_a_media mblock mmedia mattr].
  eexists; split; [reflexivity|]; cbn [settle mk mseg mv mblock mmedia mattr mesc mcol qb qm qa qstep]; rewrite ?orb_false_r, ?Fb, ?Fa; repeat split; auto.
Qed.

Lemma push_blank_hd : forall v p, hd_error v = Some p -> push_blank v = push_blank [p].
Proof. intros v p H. unfold push_blank. rewrite H. reflexivity. Qed.

(** Each printed token is read back. *)
Lemma token_read : forall q st t, fits q st -> cond1 q t ->
  read_as q st t ((if needs t then [TChar Space] else []) ++ t :: mv st).
Proof.
  intros q st t F C. destruct t as [b|b|k|s|e|s|o|o]; cbn [needs is_a_media is_a_license orb app].
  - contradiction C.
  - now apply license_read.
  - cbn [cond1 cond0] in C. destruct C as ((C1 & C2 & C3) & C4 & C5). destruct (rchar_useless k) eqn:Eu.
    + destruct (C3 eq_refl) as [-> _]. destruct (C4 eq_refl) as (p & Ep & Hp). pose proof (blank_read q st F) as R.
      destruct F as (_ & _ & _ & _ & Fh & _). rewrite Ep in Fh. rewrite (push_blank_hd _ _ Fh), Hp in R. exact R.
    + now apply char_read.
  - cbn [cond1] in C. destruct (some_and is_bs (qp q)) eqn:Eb; [destruct C as [c ->]; now apply escaped_read|].
    destruct C as (C1 & C2 & C3). now apply other_read.
  - cbn [cond1 cond0] in C. destruct e.
    + destruct C as (C1 & C2 & C3). now apply pseudo_read.
    + destruct C as (C1 & C2 & C3 & C4 & C5). now apply elem_read.
    + destruct C as (C1 & C2 & C3 & C4 & C5). now apply elem_read.
    + destruct C as (C1 & C2 & C3 & C4 & C5). now apply elem_read.
    + destruct C as (C1 & C2 & C3 & C4 & C5). now apply media_read.
  - now apply string_read.
  - now apply operator_read.
  - contradiction C.
Qed.
End Alpha.
