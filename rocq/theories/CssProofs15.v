(** Style sheets for which the second run changes nothing. *)
From Coq Require Import String Arith List NArith ZArith Bool Lia.
From Verif Require Import Base CssModel CssSpec CssGapSpec CssProofs1 CssProofs2 CssProofs3 CssProofs4 CssProofs5 CssProofs6 CssProofs7 CssProofs8 CssProofs9 CssProofs10 CssProofs12 CssProofs13 CssProofs14.
Import ListNotations.
Open Scope N_scope.

Definition outside (l : list token) : Prop :=
  forall a t r, l = a ++ t :: r -> needs t = true ->
    fst (calcs (false, 0%Z) a) = false /\ (is_a_media t = true -> hd_error r <> Some (TChar Star)).

Lemma outside_push : forall v t, outside (rev v) -> (needs t = true -> fst (cs v) = false) ->
  (t = TChar Star -> some_and is_a_media (hd_error v) = false) -> outside (rev (t :: v)).
Proof.
  intros v t H H1 H2 a u r E Hu. cbn [rev] in E. destruct r as [|x r _] using rev_ind.
  - apply app_inj_tail in E. destruct E as [<- <-]. split; [exact (H1 Hu) | discriminate].
  - rewrite app_comm_cons, app_assoc in E. apply app_inj_tail in E. destruct E as [E <-].
    destruct (H a u r E Hu) as [K1 K2]. split; [exact K1|]. intro Hm. specialize (K2 Hm). destruct r as [|y r]; [|exact K2].
    cbn. intro K. injection K as ->. specialize (H2 eq_refl).
    assert (Ev : v = u :: rev a) by (rewrite <- (rev_involutive v), E, rev_app_distr; reflexivity).
    rewrite Ev in H2. cbn in H2. congruence.
Qed.

Lemma outside_init : forall v t, outside (rev (t :: v)) -> outside (rev v).
Proof.
  intros v t H a u r E Hu. destruct (H a u (r ++ [t])) as [K1 K2]; [cbn [rev]; rewrite E, <- app_assoc; reflexivity | exact Hu|].
  split; [exact K1|]. intro Hm. specialize (K2 Hm). destruct r; [discriminate | exact K2].
Qed.

Lemma needs_plain : forall t c k, needs t = true -> calc_step t c k = (c, k).
Proof. intros t c k H. destruct t as [| | | |[]| | |]; try discriminate; destruct c; reflexivity. Qed.

(** ** Words after a colon and a gap, read as pseudo classes *)

Section Merge.
Variable alpha : N -> bool.

(** As [cond1], but a word after a colon is allowed. *)
Definition cond1c (q : qst) (t : token) : Prop :=
  match t with TOther _ => cond0 alpha q t | _ => cond1 alpha q t end.

Definition read_as (j : bool) (t : token) : token :=
  if j then match t with TOther s => TSelectorElement (PseudoClass s) | _ => t end else t.

(** [mrg j q c k l w]: the list [w] that is read from the output made of [l].  [j] says whether the
    token before was joined. *)
Inductive mrg : bool -> qst -> bool -> Z -> list token -> list token -> Prop :=
| mg_nil : forall j q c k, mrg j q c k [] []
| mg_keep : forall j q c k t r w,
    (qsel q = true -> is_colon t = true -> forall s r', r <> TOther s :: r') ->
    (t = TChar Space -> forall p, qp q = Some p -> retain_blank p (hd_error r) c = retain_blank (read_as j p) (hd_error w) c) ->
    mrg false (qstep q t) (fst (calc_step t c k)) (snd (calc_step t c k)) r w -> mrg j q c k (t :: r) (t :: w)
| mg_join : forall j q c k s r w, qsel q = true -> is_calc (TOther s) = false ->
    mrg true (qstep (qstep q (TChar Colon)) (TOther s)) c k r w ->
    mrg j q c k (TChar Colon :: TOther s :: r) (TSelectorElement (PseudoClass s) :: w)
| mg_drop : forall j q k p r w, qp q = Some p -> retain_blank p (hd_error r) false = false ->
    (hd_error r = Some (TChar Star) /\ hd_error w = Some (TChar Star) \/ exists s, hd_error w = Some (TSelectorElement (PseudoClass s))) ->
    mrg false (qstep q (TChar Space)) false k r w -> mrg j q false k (TChar Space :: r) w.

Definition joins (l : list token) : Prop :=
  forall a s r, l = a ++ TChar Colon :: TOther s :: r -> qsel (qrun q0 a) = true ->
    is_calc (TOther s) = false /\ (forall r', r <> TChar Space :: TChar OpenParenthese :: r').

Lemma joins_init : forall v t, joins (rev (t :: v)) -> joins (rev v).
Proof.
  intros v t H a s r E Hq. destruct (H a s (r ++ [t])) as (B & D); [cbn [rev]; rewrite E, <- app_assoc; reflexivity | exact Hq|].
  split; [exact B|]. intros r' Er. apply (D (r' ++ [t])). rewrite Er. reflexivity.
Qed.

Lemma joins_push : forall v t, joins (rev v) ->
  (forall s L, t = TOther s -> v = TChar Colon :: L -> qsel (qrun q0 (rev L)) = true -> is_calc t = false) ->
  (forall s L, t = TChar OpenParenthese -> v = TChar Space :: TOther s :: TChar Colon :: L -> qsel (qrun q0 (rev L)) = true -> False) ->
  joins (rev (t :: v)).
Proof.
  intros v t H H1 H2 a s r E Hq. cbn [rev] in E. destruct r as [|x r _] using rev_ind.
  - change (a ++ [TChar Colon; TOther s]) with (a ++ [TChar Colon] ++ [TOther s]) in E. rewrite app_assoc in E. apply app_inj_tail in E. destruct E as [E ->].
    assert (Ev : v = TChar Colon :: rev a) by (rewrite <- (rev_involutive v), E, rev_app_distr; reflexivity).
    split; [|discriminate]. apply (H1 s (rev a) eq_refl Ev). now rewrite rev_involutive.
  - rewrite 2 app_comm_cons, app_assoc in E. apply app_inj_tail in E. destruct E as [E <-].
    destruct (H a s r E Hq) as (B & D). split; [exact B|]. intros r' Er.
    destruct r as [|y [|z r]]; [discriminate Er| |].
    + injection Er as -> -> <-. apply (H2 s (rev a)); [reflexivity| |now rewrite rev_involutive].
      rewrite <- (rev_involutive v), E, rev_app_distr. reflexivity.
    + injection Er as -> -> Er. apply (D r). reflexivity.
Qed.

Lemma cond1c_blank : forall q t, cond1c q t -> blankish t = true -> t = TChar Space /\ exists p, qp q = Some p /\ push_blank [p] = true.
Proof. intros q t H Hb. apply (blank1 alpha q t); [|exact Hb]. destruct t; try exact H. discriminate Hb. Qed.

Lemma retain_other : forall s n c, n <> Some (TChar OpenParenthese) -> c = true \/ n <> Some (TChar Star) ->
  retain_blank (TOther s) n c = retain_blank (TSelectorElement (PseudoClass s)) n c.
Proof.
  intros s n c H1 H2. unfold retain_blank. cbn [is_the_char is_other is_a_selector_element is_useless is_char is_a_media is_a_license andb orb].
  assert (E1 : some_and (is_the_char OpenParenthese) n = false) by (destruct n as [[| |k| | | | |]|]; try reflexivity; destruct k; try reflexivity; congruence).
  assert (E2 : c = true \/ some_and (is_the_char Star) n = false) by (destruct H2 as [H2|H2]; [left; exact H2|]; right; destruct n as [[| |k| | | | |]|]; try reflexivity; destruct k; try reflexivity; congruence).
  destruct n as [t|]; [|destruct c; reflexivity]. cbn [some_and] in *. rewrite E1, orb_false_r.
  destruct E2 as [->| ->]; [destruct (is_other t), (is_the_char Star t); reflexivity|].
  destruct t as [| |k| | | | |]; destruct c; try reflexivity.
Qed.

Lemma retain_joined : forall p s, push_blank [p] = true ->
  retain_blank p (Some (TChar Colon)) true = retain_blank p (Some (TSelectorElement (PseudoClass s))) true /\
  (p = TChar CloseBracket \/ retain_blank p (Some (TChar Colon)) false = false).
Proof.
  intros p s H. destruct p as [b|b|k|x|e|x|o|o]; try (split; [reflexivity | right; reflexivity]).
  - destruct k; try discriminate H; (split; [reflexivity|]); first [right; reflexivity | left; reflexivity].
  - destruct e; (split; [reflexivity | right; reflexivity]).
Qed.

Lemma mrg_exists : forall l, joins l -> okl cond1c q0 l -> forall n r a j, (length r <= n)%nat -> l = a ++ r ->
  (j = true -> exists a' s, a = a' ++ [TChar Colon; TOther s] /\ qsel (qrun q0 a') = true) ->
  exists w, mrg j (qrun q0 a) (fst (calcs (false, 0%Z) a)) (snd (calcs (false, 0%Z) a)) r w.
Proof.
  intros l HJ HO. induction n as [|n IH]; intros r a j Hn E Hj; (destruct r as [|t r]; [exists []; constructor|]); cbn [length] in Hn; [lia|].
  assert (HOt : cond1c (qrun q0 a) t) by (rewrite E, okl_app in HO; destruct HO as [_ HO]; exact (proj1 HO)).
  assert (HOr : okl cond1c (qstep (qrun q0 a) t) r) by (rewrite E, okl_app in HO; destruct HO as [_ HO]; exact (proj2 HO)).
  assert (Keep : (qsel (qrun q0 a) = true -> is_colon t = true -> forall s r', r <> TOther s :: r') -> 
    exists w, mrg j (qrun q0 a) (fst (calcs (false, 0%Z) a)) (snd (calcs (false, 0%Z) a)) (t :: r) w).
  { intro K. destruct (IH r (a ++ [t]) false) as (w & Hw); [lia | now rewrite <- app_assoc | discriminate|].
    rewrite qrun_app, calcs_app in Hw. cbn [qrun calcs fold_left] in Hw. fold (calcs (false, 0%Z) a) in Hw. fold (qrun q0 a) in Hw.
    set (c := fst (calcs (false, 0%Z) a)) in *. set (k := snd (calcs (false, 0%Z) a)) in *.
    destruct (is_the_char Space t) eqn:Et.
    2: { exists (t :: w). constructor; [exact K | intros ->; discriminate Et | exact Hw]. }
    assert (t = TChar Space) by (destruct t as [| |k0| | | | |]; try discriminate; destruct k0; try discriminate; reflexivity). subst t. clear Et.
    destruct (cond1c_blank _ _ HOt eq_refl) as (_ & p & Ep & Hpb).
    rewrite calc_step_blank in Hw by reflexivity. cbn [fst snd] in Hw.
    assert (KeepS : retain_blank p (hd_error r) c = retain_blank (read_as j p) (hd_error w) c -> exists w, mrg j (qrun q0 a) c k (TChar Space :: r) w).
    { intro R. exists (TChar Space :: w). constructor; [exact K| |rewrite calc_step_blank by reflexivity; exact Hw]. intros _ p' Ep'. rewrite Ep in Ep'. injection Ep' as <-. exact R. }
    assert (Hd : hd_error w = hd_error r \/ hd_error r = Some (TChar Colon) /\ exists s, hd_error w = Some (TSelectorElement (PseudoClass s))).
    { inversion Hw; subst; cbn [hd_error]; eauto. exfalso. destruct HOr as [HOr _]. destruct (cond1c_blank _ _ HOr eq_refl) as (_ & x & Ex & Hx). cbn in Ex. injection Ex as <-. discriminate. }
    destruct Hd as [Hd | (Hd & s & Hw')].
    - rewrite Hd in KeepS. destruct j; [|apply KeepS; reflexivity]. destruct (Hj eq_refl) as (a' & s & -> & Hq).
      rewrite qrun_app in Ep. cbn [qrun fold_left] in Ep. cbn [qstep qp] in Ep. injection Ep as <-. cbn [read_as] in KeepS.
      assert (Np : hd_error r <> Some (TChar OpenParenthese)).
      { intro Z. destruct r as [|u r]; [discriminate|]. injection Z as ->. destruct (HJ a' s (TChar Space :: TChar OpenParenthese :: r)) as (_ & D); [rewrite E, <- app_assoc; reflexivity | exact Hq|]. now apply (D r). }
      destruct c eqn:Ec; [apply KeepS, retain_other; auto|].
      assert (Dec : hd_error r = Some (TChar Star) \/ hd_error r <> Some (TChar Star)) by (destruct (hd_error r) as [[| |k0| | | | |]|]; try (right; discriminate); destruct k0; try (right; discriminate); left; reflexivity).
      destruct Dec as [Hst|Hst]; [|apply KeepS, retain_other; auto].
      exists w. eapply mg_drop with (p := TOther s); [rewrite qrun_app; reflexivity | rewrite Hst; reflexivity | left; split; congruence | exact Hw].
    - destruct (retain_joined p s Hpb) as [R1 R2]. destruct c eqn:Ec.
      + apply KeepS. rewrite Hd, Hw'. destruct j; [|exact R1]. destruct p as [b|b|k0|x|e|x|o|o]; exact R1.
      + destruct R2 as [-> |R2]; [apply KeepS; rewrite Hd, Hw'; destruct j; reflexivity|].
        exists w. eapply mg_drop with (p := p); [exact Ep | rewrite Hd; exact R2 | right; eauto | exact Hw]. }
  destruct (qsel (qrun q0 a)) eqn:Eq; [|apply Keep; discriminate]. destruct (is_colon t) eqn:Et; [|apply Keep; discriminate].
  destruct r as [|[b|b|k'|s|e|s|o|o] r]; try (apply Keep; intros _ _ s' r'; discriminate).
  assert (t = TChar Colon) by (destruct t as [| |k| | | | |]; try discriminate; destruct k; try discriminate; reflexivity). subst t.
  destruct (HJ a s r E Eq) as (B & D). cbn [length] in Hn. destruct (IH r (a ++ [TChar Colon; TOther s]) true) as (w & Hw); [lia | now rewrite <- app_assoc | eauto|].
  exists (TSelectorElement (PseudoClass s) :: w). rewrite qrun_app, calcs_app in Hw. cbn [qrun calcs fold_left] in Hw. fold (calcs (false, 0%Z) a) in Hw. fold (qrun q0 a) in Hw.
  destruct (calcs (false, 0%Z) a) as [c k]. cbn [fst snd] in *.
  assert (E2 : calc_step (TOther s) (fst (calc_step (TChar Colon) c k)) (snd (calc_step (TChar Colon) c k)) = (c, k)) by (unfold calc_step; rewrite B; destruct c; reflexivity).
  rewrite E2 in Hw. constructor; assumption.
Qed.

(** The text after cleaning is the same. *)
Lemma mrg_clean : forall j q c k l w, mrg j q c k l w -> forall p p', okl cond1c q l ->
  (forall x, qp q = Some x -> push_blank [x] = true -> p = Some x /\ p' = Some (read_as j x)) ->
  tps (cz p c k l) = tps (cz p' c k w) /\ concat (map token_show (cz p c k l)) = concat (map token_show (cz p' c k w)).
Proof.
  intros j q c k l w H. induction H as [j q c k|j q c k t r w Hk Hs H IH|j q c k s r w Hq Hc H IH|j q k x r w Hx Hrt Hh H IH]; intros p p' HO HL.
  - split; reflexivity.
  - destruct HO as [O1 O2]. cbn [cz]. destruct (calc_step t c k) as [c' k'] eqn:Ecs. cbn [fst snd] in *. destruct (blankish t) eqn:Eb.
    + destruct (cond1c_blank q t O1 Eb) as (-> & x & Ex & Hpb). rewrite calc_step_blank in Ecs by reflexivity. injection Ecs as <- <-.
      destruct (HL x Ex Hpb) as [-> ->]. rewrite <- (Hs eq_refl x Ex). cbn [is_comment].
      assert (V : forall y, qp (qstep q (TChar Space)) = Some y -> push_blank [y] = true -> forall P : Prop, P) by (intros y Ey Hy; cbn in Ey; injection Ey as <-; discriminate).
      destruct (retain_blank x (hd_error r) c).
      * destruct (IH (Some (TChar Space)) (Some (TChar Space)) O2) as [A B]; [intros y Ey Hy; exact (V y Ey Hy _)|]. rewrite !tps_cons, A. cbn [map concat]. rewrite B. auto.
      * apply IH; [exact O2|]. intros y Ey Hy. exact (V y Ey Hy _).
    + destruct (IH (Some t) (Some t) O2) as [A B]; [intros y Ey _; injection Ey as <-; split; reflexivity|]. rewrite !tps_cons, A. cbn [map concat]. rewrite B. auto.
  - destruct HO as (O1 & O2 & O3). cbn [cz]. assert (E1 : calc_step (TChar Colon) c k = (c, k)) by (destruct c; reflexivity).
    assert (E2 : calc_step (TOther s) c k = (c, k)) by (unfold calc_step; rewrite Hc; destruct c; reflexivity).
    assert (E3 : calc_step (TSelectorElement (PseudoClass s)) c k = (c, k)) by (destruct c; reflexivity).
    rewrite E1, E3. cbn [blankish is_useless is_comment rchar_useless orb]. rewrite E2.
    destruct (IH (Some (TOther s)) (Some (TSelectorElement (PseudoClass s))) O3) as [A B].
    { intros x Ex _. injection Ex as <-. split; reflexivity. }
    rewrite !tps_cons, A. cbn [map concat]. rewrite B. split; [reflexivity|]. cbn. reflexivity.
  - destruct HO as [O1 O2]. destruct (cond1c_blank _ _ O1 eq_refl) as (_ & y & Ey & Hpb). rewrite Hx in Ey. injection Ey as <-. destruct (HL x Hx Hpb) as [-> ->].
    cbn [cz]. rewrite calc_step_blank by reflexivity. cbn [blankish is_useless is_comment rchar_useless orb]. rewrite Hrt.
    apply IH; [exact O2|]. intros y Ey Hy. cbn in Ey. injection Ey as <-. discriminate Hy.
Qed.

(** The conditions hold for the list read from the output. *)
Definition like_q (q q' : qst) : Prop :=
  same_ctx q q' /\ qw q = qw q' /\ (qp q = qp q' \/ exists s, qp q = Some (TOther s) /\ qp q' = Some (TSelectorElement (PseudoClass s))).

Lemma like_step : forall q q' t, like_q q q' -> like_q (qstep q t) (qstep q' t).
Proof.
  intros q q' t (X & W & P). split; [now apply same_ctx_step|]. split; [|left; reflexivity]. cbn [qstep qw].
  destruct P as [->|(s & -> & ->)]; reflexivity.
Qed.

Lemma ok_unspace : forall q w, some_and is_bs (qp q) = false ->
  hd_error w = Some (TChar Star) \/ (exists s, hd_error w = Some (TSelectorElement (PseudoClass s))) ->
  okl (cond1 alpha) (qstep q (TChar Space)) w -> okl (cond1 alpha) q w.
Proof.
  intros q w Hb Hh H. destruct w as [|t w]; [exact I|]. destruct H as [H1 H2].
  assert (Es : qstep (qstep q (TChar Space)) t = qstep q t).
  { unfold qstep at 1 3. cbn [qstep qb qm qa qp some_and]. rewrite Hb. f_equal; try reflexivity. }
  rewrite Es in H2. split; [|exact H2]. destruct Hh as [Hh|(s & Hh)]; injection Hh as ->.
  - destruct H1 as ((_ & A2 & _) & _). split; [split; [exact Hb|split; [exact I|discriminate]]|]. split; discriminate.
  - destruct H1 as (_ & A2 & A3). split; [exact Hb|]. split; [exact A2 | exact A3].
Qed.

Lemma mrg_ok : forall j q c k l w, mrg j q c k l w -> forall q', okl cond1c q l -> like_q q q' ->
  (forall s r, l = TOther s :: r -> qsel q = true -> some_and is_colon (qp q) = false) -> okl (cond1 alpha) q' w.
Proof.
  intros j q c k l w H. induction H as [j q c k|j q c k t r w Hk Hs H IH|j q c k s r w Hq Hc H IH|j q k x r w Hx Hrt Hh H IH]; intros q' HO HL HN.
  - exact I.
  - destruct HO as [O1 O2]. split.
    2: { apply IH; [exact O2 | now apply like_step|]. intros s r' Er Hq. cbn [qstep qp some_and]. destruct (is_colon t) eqn:Et; [|reflexivity]. exfalso.
      apply (Hk) with (s := s) (r' := r'); [|reflexivity | exact Er].
      destruct t as [| |k0| | | | |]; try discriminate Et. destruct k0; try discriminate Et. exact Hq. }
    pose proof HL as ((X1 & X2 & X3) & W & P).
    assert (Es : qsel q' = qsel q) by (unfold qsel; now rewrite X1, X2, X3).
    assert (Eb : some_and is_bs (qp q') = some_and is_bs (qp q)) by (destruct P as [->|(s & -> & ->)]; reflexivity).
    assert (Ec : some_and is_colon (qp q') = some_and is_colon (qp q)) by (destruct P as [->|(s & -> & ->)]; reflexivity).
    destruct t as [b|b|k0|s|e|s|o|o]; cbn [cond1c cond1 cond0] in *; rewrite ?Eb, ?Ec, ?Es, <- ?W; try exact O1.
    + destruct O1 as ((A1 & A2 & A3) & A4 & A5). split; [split; [exact A1|split; [|exact A3]]|split].
      * apply (char_ok_ctx q q'); [repeat split; assumption | exact A2].
      * intro U. destruct (A4 U) as (p & Ep & Hp). destruct P as [P|(s & P & ->)]; [exists p; split; [congruence | exact Hp]|]. exists (TSelectorElement (PseudoClass s)). split; reflexivity.
      * intros U p Hp. destruct P as [P|(s & P & P')]; [apply A5; [exact U | congruence]|]. rewrite P' in Hp. injection Hp as <-. reflexivity.
    + destruct (some_and is_bs (qp q)) eqn:E; [exact O1|]. destruct O1 as (A1 & A2 & A3). split; [exact A1|]. split; [exact A2|]. intro Hq.
      specialize (HN s r eq_refl Hq). split; [exact HN|]. destruct (A3 Hq); [congruence | assumption].
  - destruct HO as (O1 & O2 & O3). pose proof HL as ((X1 & X2 & X3) & W & P). cbn [cond1c cond1 cond0 qstep qp some_and] in O1, O2. destruct O1 as ((A1 & _) & _).
    change (is_bs (TChar Colon)) with false in O2. cbv iota in O2. destruct O2 as (B1 & _).
    assert (Eb : some_and is_bs (qp q') = false) by (destruct P as [P|(s' & _ & ->)]; [rewrite <- P; exact A1 | reflexivity]).
    split.
    + split; [exact Eb|]. split; [exact B1|]. unfold qsel. rewrite <- X1, <- X2, <- X3. exact Hq.
    + apply IH; [exact O3| |].
      * split; [repeat split; assumption|]. split; [cbn [qstep qw wordy andb qp some_and]; rewrite Eb; reflexivity|]. right. exists s. split; reflexivity.
      * intros; reflexivity.
  - destruct HO as [O1 O2]. apply ok_unspace.
    + destruct O1 as ((A1 & _) & _). pose proof HL as (_ & _ & P). destruct P as [P|(s' & _ & ->)]; [rewrite <- P; exact A1 | reflexivity].
    + destruct Hh as [[_ Hh]|Hh]; auto.
    + apply IH; [exact O2 | now apply like_step | intros; reflexivity].
Qed.

Fixpoint outr (c : bool) (k : Z) (l : list token) : Prop :=
  match l with
  | [] => True
  | t :: r => (needs t = true -> c = false /\ (is_a_media t = true -> hd_error r <> Some (TChar Star))) /\
      outr (fst (calc_step t c k)) (snd (calc_step t c k)) r
  end.

Lemma outside_outr : forall l, outside l -> outr false 0%Z l.
Proof.
  intros l H. enough (G : forall r a, l = a ++ r -> outr (fst (calcs (false, 0%Z) a)) (snd (calcs (false, 0%Z) a)) r) by exact (G l [] eq_refl).
  induction r as [|t r IH]; intros a E; [exact I|]. cbn [outr]. split; [intro Hn; exact (H a t r E Hn)|].
  specialize (IH (a ++ [t])). rewrite calcs_app in IH. cbn [calcs fold_left] in IH. fold (calcs (false, 0%Z) a) in IH.
  destruct (calcs (false, 0%Z) a) as [c k]. apply IH. rewrite <- app_assoc. exact E.
Qed.

Lemma outr_calmed : forall l c k, outr c k l -> calmed c k l.
Proof.
  induction l as [|t r IH]; intros c k H; [exact I|]. destruct H as [H1 H2]. cbn [calmed]. destruct (calc_step t c k) as [c' k'] eqn:Ec. cbn [fst snd] in H2.
  split; [|now apply IH]. intro Hn. destruct (H1 Hn) as [-> K2]. rewrite (needs_plain t _ _ Hn) in Ec. injection Ec as <- _.
  right. clear - Hn K2. destruct t as [|b| | |[]| | |]; try discriminate Hn.
  - unfold retain_blank. cbn. reflexivity.
  - specialize (K2 eq_refl). unfold retain_blank. cbn [is_the_char is_other andb is_a_selector_element orb].
    replace (some_and (is_the_char Star) (hd_error r)) with false; [reflexivity|].
    destruct (hd_error r) as [u|]; [|reflexivity]. cbn. destruct u as [| |x| | | | |]; try reflexivity. cbn. destruct x; try reflexivity. congruence.
Qed.

Lemma mrg_outr : forall j q c k l w, mrg j q c k l w -> outr c k l -> outr c k w.
Proof.
  intros j q c k l w H. induction H as [j q c k|j q c k t r w Hk Hs H IH|j q c k s r w Hq Hc H IH|j q k x r w Hx Hrt Hh H IH]; intro HO.
  - exact I.
  - destruct HO as [O1 O2]. split; [|now apply IH]. intro Hn. destruct (O1 Hn) as [A B]. split; [exact A|]. intro Hm. specialize (B Hm).
    inversion H; subst; try exact B; try discriminate.
    match goal with X : qp (qstep q t) = Some _ |- _ => cbn [qstep qp] in X; injection X as <- end.
    match goal with X : _ /\ _ \/ _ |- _ => destruct X as [[Zh Zw]|[s Zw]]; rewrite Zw; [|discriminate] end.
    match goal with X : retain_blank t _ false = false |- _ => rewrite Zh in X; exfalso; destruct t as [| | | |[]| | |]; discriminate end.
  - destruct HO as (_ & _ & O3). assert (E2 : calc_step (TOther s) c k = (c, k)) by (unfold calc_step; rewrite Hc; destruct c; reflexivity).
    assert (E1 : calc_step (TChar Colon) c k = (c, k)) by (destruct c; reflexivity).
    assert (E3 : calc_step (TSelectorElement (PseudoClass s)) c k = (c, k)) by (destruct c; reflexivity).
    rewrite E1 in O3. cbn [fst snd] in O3. rewrite E2 in O3. cbn [outr]. split; [discriminate|]. rewrite E3. apply IH. exact O3.
  - destruct HO as [_ O2]. apply IH. exact O2.
Qed.
End Merge.

Section Alpha.
Variable alpha : N -> bool.

Record src1 (st : pst) (ps : list piece) : Prop := {
  s1_ok : okl (cond1c alpha) q0 (rev (mv st));
  s1_n : outside (rev (mv st));
  s1_j : joins (rev (mv st));
  s1_w : forall s L, mv st <> TOther s :: TChar Colon :: L;
  s1_c : forall L, mv st = TChar Colon :: L -> mcol st = false -> selector_context (mblock st) (mmedia st) (mattr st) = true ->
    exists g, mild (g ++ map PChar (mseg st) ++ ps) /\ Forall (eq PBlank) g;
  s1_sp : forall s L, mv st = TChar Space :: TOther s :: TChar Colon :: L -> mseg st = [] -> qsel (qrun q0 (rev L)) = true ->
    exists g g', mild (g ++ map PChar s ++ PBlank :: g' ++ ps) /\ Forall (eq PBlank) g /\ Forall (eq PBlank) g' /\ s <> []
}.

Lemma cond_c : forall q n, wordtok n -> cond0 alpha q n -> cond1c alpha q n.
Proof. intros q n [[s ->] | [e ->]] C; exact C. Qed.

Lemma seg_media : forall st t L, mseg st <> [] -> fillp alpha st = t :: L -> is_a_media t = true -> L = mv st /\ exists name, mseg st = 0x40 :: name /\ name <> [].
Proof.
  intros st t L Hs E Hm. unfold fillp in E. destruct (mseg st) as [|c w] eqn:Es; [congruence|].
  destruct (selector_context _ _ _); [|injection E as <- <-; discriminate].
  destruct (some_and (is_the_char Colon) (hd_error (mv st))).
  - destruct (mcol st); cbn [selement_of N.eqb Pos.eqb] in E; injection E as <- <-; discriminate.
  - destruct (selement_of alpha (c :: w)) as [e|] eqn:Ee; injection E as <- <-; [|discriminate]. split; [reflexivity|].
    destruct e; try discriminate. cbn [selement_of] in Ee. destruct (c =? 46); [destruct w; discriminate|]. destruct (c =? 35); [destruct w; discriminate|].
    destruct (N.eqb_spec c 64) as [->|]; [|destruct (c =? 58); [destruct w; discriminate|]; destruct (is_alphabetic alpha c); discriminate].
    exists w. split; [reflexivity|]. destruct w; discriminate.
Qed.

(** A word pushed after a colon in a place for selectors: a gap was between the two. *)
Lemma seg_colon : forall st s L, mseg st <> [] -> fillp alpha st = TOther s :: TChar Colon :: L -> mv st = TChar Colon :: L ->
  selector_context (mblock st) (mmedia st) (mattr st) = true -> mcol st = false /\ s = mseg st.
Proof.
  intros st s L Hs E Ev Hsel. unfold fillp in E. destruct (mseg st) as [|c w] eqn:Es; [congruence|]. rewrite Hsel, Ev in E.
  cbn [hd_error some_and] in E. change (is_the_char Colon (TChar Colon)) with true in E. cbv iota in E.
  destruct (mcol st); cbn [selement_of N.eqb Pos.eqb] in E; [discriminate|]. injection E as ->. auto.
Qed.

Lemma fill1 : forall st x done ps full, src_inv alpha st x ps -> src1 st ps -> before alpha done st -> full = done ++ ps -> Forall punct_ok done -> steady full ->
  (match ps with PChar _ :: _ => False | _ => True end) ->
  okl (cond1c alpha) q0 (rev (fillp alpha st)) /\ outside (rev (fillp alpha st)) /\ joins (rev (fillp alpha st)).
Proof.
  intros st x done ps full HI [S1 S3 S4 S5 S2 S6] Hb Ef HF HS Hnp. destruct (fill_ok alpha st x ps HI) as (F1 & _).
  destruct (fillp_cases alpha st) as [[_ E] | (Hs & n & Hn & [E | (L & s & E1 & En & E2)])].
  - rewrite E. auto.
  - rewrite E in *. rewrite okl_snoc in *. destruct F1 as [F1 F2]. split; [|split].
    + split; [exact S1|]. apply cond_c; assumption.
    + apply outside_push; [exact S3| |].
      * intro Hnd. assert (Hm : is_a_media n = true) by (destruct Hn as [[s ->] | [e ->]]; [discriminate | unfold needs in Hnd; cbn [is_a_license] in Hnd; now rewrite orb_false_r in Hnd]).
        destruct (seg_media st n (mv st) Hs E Hm) as (_ & name & Enm & Hne).
        destruct (run_split alpha done st HF Hb Hs) as (q & Eq & Hr). rewrite Enm in Eq. subst done.
        apply Forall_app in HF. destruct HF as [HFq HFw].
        destruct (before_run alpha q (64 :: name) st HFq Hb Hr) as (st0 & Hb0 & Hm0 & _ & Est).
        assert (Ec : fst (cs (fillp alpha st0)) = false).
        { apply (outside_calc alpha q (map PChar (64 :: name) ++ ps) st0 HFq); [|exact Hb0|].
          - rewrite app_assoc, <- Ef. apply HS.
          - intro K. destruct (calcs_plain _ HS q (PChar 64) (map PChar name ++ ps)) as [K1 _]; [rewrite Ef, <- app_assoc; reflexivity | exact K | congruence]. }
        unfold fillp in Ec. rewrite Hm0 in Ec. rewrite Est. exact Ec.
      * intros ->. destruct Hn as [[s ?] | [e ?]]; discriminate.
    + apply joins_push; [exact S4| |].
      * intros s L -> Ev Hq.
        assert (Hsel : selector_context (mblock st) (mmedia st) (mattr st) = true).
        { rewrite (si_b _ _ _ _ HI), (si_m _ _ _ _ HI), (si_a _ _ _ _ HI), Ev. cbn [rev]. rewrite qrun_app. exact Hq. }
        rewrite Ev in E. destruct (seg_colon st s L Hs E Ev Hsel) as [Hcol Es].
        destruct (S2 L Ev Hcol Hsel) as (g & Hm & Hg). destruct (Hm g (mseg st) ps eq_refl Hg Hs Hnp) as (M3 & _).
        subst s. cbn [is_calc]. destruct (str_eqb (mseg st) (S_ "calc")) eqn:K; [|reflexivity]. apply str_eqb_eq in K. contradiction.
      * intros s L -> . destruct Hn as [[s' ?] | [e ?]]; discriminate.
  - rewrite E2 in *. rewrite E1 in S1, S3, S4. rewrite okl_snoc in *. destruct S1 as [S1 _]. destruct F1 as [F1 F2]. subst n. split; [split; [exact S1 | exact F2]|]. split.
    + apply outside_push; [apply (outside_init _ _ S3) | discriminate | discriminate].
    + apply joins_push; [apply (joins_init _ _ S4) | discriminate | discriminate].
Qed.

Lemma colon_last : forall done st, Forall punct_ok done -> before alpha done st -> mcol st = true -> mseg st = [] -> exists pre, done = pre ++ [PPunct 0x3A].
Proof.
  intros done st HF Hb Hc Hs. destruct done as [|p done _] using rev_ind.
  - cbn in Hb. injection Hb as <-. discriminate.
  - apply before_snoc in Hb. destruct Hb as (st0 & _ & Hp). apply Forall_app in HF. destruct HF as [_ HF]. inversion HF; subst.
    apply pstep_cases in Hp; [|assumption]. destruct Hp as (Hp & _). exists done.
    destruct p as [c| | |t|b|b|c]; try (destruct Hp as [_ Hp]; congruence).
    + destruct Hp as [(_ & _ & _ & Hp) | (_ & _ & Hp & _)]; [congruence|]. rewrite Hs in Hp. destruct (mseg st0); discriminate.
    + destruct Hp as (k & _ & _ & _ & [[_ Hp] | (o & _ & _ & _ & Hp)]); [|congruence]. rewrite Hc in Hp. symmetry in Hp. apply N.eqb_eq in Hp. now subst.
Qed.

Lemma place_context : forall done st, Forall punct_ok done -> before alpha done st -> colon_place done -> selector_context (mblock st) (mmedia st) (mattr st) = false.
Proof.
  intros done st HF Hb [K|[K|K]].
  - exact (declaration_place alpha done st HF Hb K).
  - destruct (PI_before alpha done st HF Hb) as (_ & E & _). rewrite E, K. reflexivity.
  - exact (in_at_head_context alpha done st HF Hb K).
Qed.

Lemma src1_step : forall st x done p ps full x' st', src_inv alpha st x (p :: ps) -> src1 st (p :: ps) -> before alpha done st -> full = done ++ p :: ps ->
  Forall punct_ok done -> punct_ok p -> steady full -> src_inv alpha st' x' ps -> pstep alpha st p = Ok st' -> src1 st' ps.
Proof.
  intros st x done p ps full x' st' HI H1 Hb Ef HF Hp HS HI' Hs.
  pose proof (fill1 st x done (p :: ps) full HI H1 Hb Ef HF HS) as F.
  pose proof (si_ok _ _ _ _ HI') as O'. pose proof (pstep_cases alpha st p st' Hp Hs) as (Hc & Hm & _).
  (* pushing a token other than a colon *)
  assert (Push : forall t, (match p with PChar _ => False | _ => True end) -> mv st' = t :: fillp alpha st ->
    (cond0 alpha (qrun q0 (rev (fillp alpha st))) t -> cond1 alpha (qrun q0 (rev (fillp alpha st))) t) -> (forall s, t <> TOther s) -> t <> TChar Space ->
    (is_colon t = true -> mcol st' = true) -> (needs t = true -> fst (cs (fillp alpha st)) = false) ->
    (t = TChar Star -> some_and is_a_media (hd_error (fillp alpha st)) = false) ->
    (forall s L, t = TChar OpenParenthese -> fillp alpha st = TChar Space :: TOther s :: TChar Colon :: L -> qsel (qrun q0 (rev L)) = true -> False) -> src1 st' ps).
  { intros t Hpc Ev C K0 K0' K1 K2 K3 K4. destruct F as (F1 & F2 & F3); [destruct p; auto|].
    rewrite Ev, okl_snoc in O'. destruct O' as [_ O']. constructor; rewrite Ev.
    - rewrite okl_snoc. split; [exact F1|]. destruct t as [b|b|k0|s|e|s|o|o]; first [exact (C O') | exact O'].
    - now apply outside_push.
    - apply joins_push; [exact F3| |exact K4]. intros s L ->. now destruct (K0 s).
    - intros s L K. injection K as -> _. now apply (K0 s).
    - intros L K Kc. injection K as -> _. rewrite K1 in Kc by reflexivity. discriminate.
    - intros s L K. injection K as -> _. now destruct K0'. }
  (* the blank before a token *)
  assert (Sp : forall s L, (match p with PChar _ => False | _ => True end) -> fillp alpha st = TChar Space :: TOther s :: TChar Colon :: L -> qsel (qrun q0 (rev L)) = true ->
    mseg st = [] /\ exists g g', mild (g ++ map PChar s ++ PBlank :: g' ++ p :: ps) /\ Forall (eq PBlank) g /\ Forall (eq PBlank) g' /\ s <> []).
  { intros s L Hpc E Hq. assert (Em : mseg st = []).
    { destruct (mseg st) eqn:Em; [reflexivity|]. exfalso. destruct (fillp_cases alpha st) as [[K _] | (_ & n0 & Hn & [E1 | (L1 & s1 & E1 & En & E2)])]; [congruence| |].
      - rewrite E1 in E. injection E as -> _. destruct Hn as [[? K]|[? K]]; discriminate K.
      - rewrite E2 in E. injection E as -> _. discriminate En. }
    split; [exact Em|]. apply (s1_sp _ _ H1 s L); [|exact Em | exact Hq]. unfold fillp in E. now rewrite Em in E. }
  destruct p as [c| | |t|b|b|c].
  - destruct Hc as [(He & Ev & Hs' & Hcol) | (He & Ev & Hs' & Hcol)].
    + cbn [pstep] in Hs. rewrite He in Hs. injection Hs as <-. cbn [mv mk mseg mcol] in *. destruct H1 as [S1 S3 S4 S5 S2 S6]. rewrite (si_e _ _ _ _ HI) in He. constructor; cbn [mv mk hd_error some_and].
      * rewrite okl_snoc in *. destruct O' as [_ O']. split; [exact S1|]. exact O'.
      * apply outside_push; [exact S3 | discriminate | discriminate].
      * apply joins_push; [exact S4| |discriminate]. intros s L _ K. rewrite K in He. discriminate He.
      * intros s L K. injection K as _ K. rewrite K in He. discriminate He.
      * discriminate.
      * discriminate.
    + cbn [pstep] in Hs. rewrite He in Hs. injection Hs as <-. destruct H1 as [S1 S3 S4 S5 S2 S6]. constructor; cbn [mv mblock mmedia mattr mcol mseg] in *; try assumption.
      * intros L K1 K2 K3. destruct (S2 L K1 K2 K3) as (g & Hmi & K). exists g. split; [|exact K].
        rewrite map_app, <- app_assoc. exact Hmi.
      * intros s L _ K. destruct (mseg st); discriminate K.
  - destruct Hc as [Ev Hcol]. apply (Push (TChar Backslash)); try discriminate; [exact I | exact Ev|].
    intro K. split; [exact K|]. split; discriminate.
  - destruct Hc as [Ev Hcol]. destruct F as (F1 & F2 & F3); [exact I|]. destruct (push_blank (fillp alpha st)) eqn:Epb.
    + rewrite Ev, okl_snoc in O'. destruct O' as [_ O']. constructor; rewrite Ev.
      * rewrite okl_snoc. split; [exact F1|]. split; [exact O'|]. split; [|discriminate]. intros _.
        rewrite qp_rev. destruct (fillp alpha st) as [|p v] eqn:Efl; [discriminate|]. exists p. split; [reflexivity|]. exact Epb.
      * apply outside_push; [exact F2 | discriminate | discriminate].
      * apply joins_push; [exact F3 | discriminate | discriminate].
      * discriminate.
      * discriminate.
      * intros s L K _ Hq. injection K as K.
        destruct (fillp_cases alpha st) as [[_ E] | (Hne & n & Hn & [E | (L1 & s1 & E1 & En & E2)])].
        -- rewrite E in K. exfalso. exact (s1_w _ _ H1 s L K).
        -- rewrite E in K. injection K as -> K.
           assert (Hsel : selector_context (mblock st) (mmedia st) (mattr st) = true).
           { rewrite (si_b _ _ _ _ HI), (si_m _ _ _ _ HI), (si_a _ _ _ _ HI), K. cbn [rev]. rewrite qrun_app. exact Hq. }
           rewrite K in E. destruct (seg_colon st s L Hne E K Hsel) as [Hcol' ->].
           destruct (s1_c _ _ H1 L K Hcol' Hsel) as (g & Hmi & Hg). exists g, []. cbn [app]. auto.
        -- rewrite E2 in K. injection K as K. congruence.
    + assert (Em : mseg st = []).
      { destruct (mseg st) eqn:Em; [reflexivity|]. exfalso. destruct (fillp_cases alpha st) as [[K _] | (_ & n0 & Hn & [E1 | (L1 & s1 & E1 & En & E2)])]; [congruence| |].
        - rewrite E1 in Epb. destruct Hn as [[? ->]|[? ->]]; discriminate Epb.
        - rewrite E2, En in Epb. discriminate Epb. }
      assert (Efl : fillp alpha st = mv st) by (unfold fillp; now rewrite Em). rewrite Efl in *.
      assert (Ectx : selector_context (mblock st') (mmedia st') (mattr st') = selector_context (mblock st) (mmedia st) (mattr st)).
      { cbn [pstep] in Hs. injection Hs as <-. cbn [mblock mmedia mattr mk]. rewrite Efl, (si_h _ _ _ _ HI), orb_false_r. reflexivity. }
      constructor; rewrite Ev; [exact F1 | exact F2 | exact F3 | apply (s1_w _ _ H1)| |].
      * intros L EL _ Hsel. rewrite Ectx in Hsel. rewrite Hm. cbn [map app]. destruct (mcol st) eqn:Ecl.
        -- destruct (colon_last done st HF Hb Ecl Em) as (pre & ->). exists []. split; [|constructor].
           destruct (colon_blanks _ HS pre ps) as [K|K]; [rewrite Ef, <- app_assoc; reflexivity| |exact K]. exfalso.
           rewrite (place_context _ st HF Hb K) in Hsel. discriminate.
        -- destruct (s1_c _ _ H1 L EL Ecl Hsel) as (g & Hmi & Hg). exists (g ++ [PBlank]). rewrite Em in Hmi. cbn [map app] in Hmi.
           rewrite <- app_assoc. split; [exact Hmi|]. apply Forall_app; auto.
      * intros s L EL _ Hq. destruct (s1_sp _ _ H1 s L EL Em Hq) as (g & g' & Hmi & Hg & Hg' & Hne). exists g, (g' ++ [PBlank]).
        rewrite <- (app_assoc g'). split; [exact Hmi|]. split; [exact Hg|]. split; [apply Forall_app; auto | exact Hne].
  - destruct Hc as [Ev Hcol]. apply (Push (TString t)); try discriminate; [exact I | exact Ev | auto].
  - exfalso. apply (no_comments _ HS b). rewrite Ef. apply in_or_app. right. left. reflexivity.
  - destruct Hc as [Ev Hcol]. apply (Push (TLicense b)); try discriminate; [exact I | exact Ev|auto|]. intros _.
    apply (outside_calc alpha done (PLic b :: ps) st HF); [|exact Hb|]; [rewrite <- Ef; apply HS|].
    intro K. destruct (calcs_plain _ HS done (PLic b) ps Ef K) as [_ K1]. exact (K1 b eq_refl).
  - destruct Hc as (k & Ek & Ec & Hu & [[Ev Hcol] | (o & Hk & Eo & Ev & Hcol)]).
    + apply (Push (TChar k)); [exact I | exact Ev| |discriminate| | |discriminate| |].
      * intro K. split; [exact K|]. split; [congruence|]. intros -> p Hpp. rewrite qp_rev in Hpp. cbn [pstep] in Hs. rewrite Ek in Hs.
        destruct (equal_operator (fillp alpha st)) as [o|] eqn:Eo.
        -- injection Hs as <-. cbn [mv mk] in Ev. discriminate Ev.
        -- unfold equal_operator in Eo. rewrite Hpp in Eo. exact Eo.
      * intro K. injection K as ->. discriminate Hu.
      * intro K. unfold is_colon in K. cbn in K. apply rchar_eqb_eq in K. subst k. rewrite Hcol, Ec. reflexivity.
      * intro K. injection K as ->. destruct (some_and is_a_media (hd_error (fillp alpha st))) eqn:Em; [|reflexivity]. exfalso.
        destruct (mseg st) as [|c0 w0] eqn:Es.
        -- unfold fillp in Em. rewrite Es in Em. rewrite (si_h _ _ _ _ HI) in Em. discriminate.
        -- assert (Hne : mseg st <> []) by (rewrite Es; discriminate). destruct (fillp alpha st) as [|t L] eqn:Efl; [discriminate|]. cbn in Em.
           destruct (seg_media st t L Hne Efl Em) as (_ & name & Enm & Hnm). destruct (run_split alpha done st HF Hb Hne) as (q & Eq & Hr).
           apply (at_stars _ HS done ps); [rewrite Ef, Ec; reflexivity|]. exists q, name. rewrite Enm in Eq. auto.
      * intros s L K E Hq. injection K as ->. destruct (Sp s L I E Hq) as (_ & g & g' & Hmi & Hg & Hg' & Hne). subst c.
        destruct (Hmi g s (PBlank :: g' ++ PPunct 0x28 :: ps) eq_refl Hg Hne I) as (_ & M). exact (M g' ps eq_refl Hg').
    + destruct F as (F1 & F2 & F3); [exact I|].
      destruct (equal_hd _ _ Eo) as (k' & L & EL & Hk'). rewrite EL in *. cbn [tl] in Ev. rewrite okl_snoc in F1. destruct F1 as [F1 F4].
      rewrite Ev, okl_snoc in O'. destruct O' as [_ O']. constructor; rewrite Ev; try discriminate.
      * rewrite okl_snoc. auto.
      * apply outside_push; [apply (outside_init _ _ F2) | discriminate | discriminate].
      * apply joins_push; [apply (joins_init _ _ F3) | discriminate | discriminate].
Qed.

Lemma src1_run : forall ps done st x x' v full, src_inv alpha st x ps -> src1 st ps -> before alpha done st -> full = done ++ ps ->
  Forall punct_ok full -> colons_clear ps -> steady full -> xrun x ps = Some x' -> prun alpha st ps None = Ok v -> okl (cond1c alpha) q0 v /\ outside v /\ joins v.
Proof.
  induction ps as [|p ps IH]; intros done st x x' v full HI H1 Hb Ef HF HC HS Hx Hr.
  - cbn [prun] in Hr. injection Hr as <-. rewrite app_nil_r in Ef. subst full. apply (fill1 st x done [] done HI H1 Hb); auto. now rewrite app_nil_r.
  - cbn [xrun prun] in *. destruct (xstep x p) as [x1|] eqn:Ex; [|discriminate]. destruct (pstep alpha st p) as [st1| | |] eqn:Es; try discriminate. cbn [obind] in Hr.
    assert (HFd : Forall punct_ok done /\ Forall punct_ok (p :: ps)) by (apply Forall_app; now rewrite <- Ef). destruct HFd as [HFd HFp]. inversion HFp as [|? ? HFp1 HFp2].
    assert (HI' : src_inv alpha st1 x1 ps) by (eapply src_step; eauto).
    apply (IH (done ++ [p]) st1 x1 x' v full); auto.
    + eapply src1_step; eauto.
    + apply before_app. exists st. split; [exact Hb|]. cbn [pmulti]. rewrite Es. reflexivity.
    + rewrite Ef, <- app_assoc. reflexivity.
    + apply (colons_clear_tail _ _ HC).
Qed.

Lemma steady_clear : forall ps, steady ps -> colons_clear ps.
Proof.
  intros ps H pre post E g b r Er _. apply (no_comments _ H b). rewrite E, Er. apply in_or_app. right. right. apply in_or_app. right. left. reflexivity.
Qed.

Lemma css_twice : forall s o, regular s -> steady (fst (lex s)) -> css_minify alpha s = Ok o -> css_minify alpha o = Ok o.
Proof.
  intros s o Hr HS H1. pose proof (css_main alpha s o H1 Hr) as (_ & _ & _ & _ & Hro & Hpo).
  pose proof (css_minify_cases alpha s) as K1. destruct (css_problem s); [congruence|]. destruct K1 as (v0 & V0 & M0).
  pose proof (css_minify_cases alpha o) as K2. rewrite Hpo in K2. destruct K2 as (v1 & V1 & M1).
  assert (Eo : o = concat (map token_show (cz None false 0 v0))) by congruence.
  pose proof (output_pieces alpha s o v0 Hr V0 Eo) as L1.
  destruct (lex_accept s Hr) as [h Hh].
  destruct (src1_run (fst (lex s)) [] pinit x0 (h, fold_left istep (fst (lex s)) (snd x0)) v0 (fst (lex s))) as (R2 & R3 & RJ); auto.
  - constructor; cbn; auto; try discriminate. exact AI_init.
  - constructor; cbn; auto; try discriminate; intros a t r E; destruct a; discriminate.
  - reflexivity.
  - apply lex_punct_ok.
  - now apply steady_clear.
  - rewrite xrun_hrun. cbn [fst x0]. rewrite Hh. reflexivity.
  - destruct (mrg_exists alpha v0 RJ R2 (length v0) v0 [] false (le_n _) eq_refl) as (w & Hw); [discriminate|]. cbn [qrun calcs fold_left fst snd] in Hw.
    destruct (mrg_clean alpha _ _ _ _ _ _ Hw None None R2) as [T1 T2]; [discriminate|].
    assert (R2' : okl (cond1 alpha) q0 w).
    { apply (mrg_ok alpha _ _ _ _ _ _ Hw q0 R2); [|intros; reflexivity]. split; [repeat split|]. split; [reflexivity | left; reflexivity]. }
    assert (R3' : calmed false 0 w) by (apply outr_calmed, (mrg_outr _ _ _ _ _ _ Hw), outside_outr, R3).
    assert (G0 : again_inv q0 pinit None w) by (constructor; cbn; auto; discriminate).
    pose proof (again_read alpha w q0 pinit None false 0%Z R2' G0) as R4. cbn [mv pinit rev app] in R4. rewrite L1, T1, R4 in V1. injection V1 as <-.
    rewrite M1. rewrite (tz_clean alpha (length w) w q0 None false 0%Z (le_n _) R2' R3'); [congruence | discriminate].
Qed.
End Alpha.
