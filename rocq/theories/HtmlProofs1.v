(** The pattern matcher of the model, and scanning. *)
From Coq Require Import String List NArith Bool Arith Lia ZifyBool ZifyN.
From Verif Require Import Base HtmlModel HtmlSpec.
Import ListNotations.
Open Scope N_scope.

(** The texts of the elements fit the elements. *)
Inductive fits : list elem -> list str -> Prop :=
| f_nil : fits [] []
| f_one : forall p c r l, p c = true -> fits r l -> fits (One p :: r) ([c] :: l)
| f_greedy : forall p n x r l, Forall (fun c => p c = true) x -> (n <= length x)%nat -> fits r l ->
    fits (Greedy p n :: r) (x :: l)
| f_lazy : forall p n x r l, Forall (fun c => p c = true) x -> (n <= length x)%nat -> fits r l ->
    fits (Lazy p n :: r) (x :: l).

Lemma m_seq_fits : forall r s l t, m_seq r s = Some (l, t) -> s = concat l ++ t /\ fits r l.
Proof.
  induction r as [|e r IH]; intros s l t H.
  - injection H as <- <-. split; [reflexivity | constructor].
  - destruct e as [p|p n|p n].
    + cbn [m_seq] in H. destruct s as [|c s]; [discriminate|]. destruct (p c) eqn:E; [|discriminate].
      destruct (m_seq r s) as [[l' t']|] eqn:E2; [|discriminate]. injection H as <- <-.
      destruct (IH _ _ _ E2) as [-> F]. split; [reflexivity | constructor; assumption].
    + cbn [m_seq] in H. revert n l t H. induction s as [|c s IHs]; intros n l t H.
      * destruct n; [|discriminate]. destruct (m_seq r []) as [[l' t']|] eqn:E2; [|discriminate].
        injection H as <- <-. destruct (IH _ _ _ E2) as [E F]. split; [exact E | constructor; auto with arith].
      * assert (St : match n with
                     | O => match m_seq r (c :: s) with Some (l0, t0) => Some ([] :: l0, t0) | None => None end
                     | S _ => None
                     end = Some (l, t) -> c :: s = concat l ++ t /\ fits (Greedy p n :: r) l).
        { intro St. destruct n; [|discriminate].
          destruct (m_seq r (c :: s)) as [[l' t']|] eqn:E2; [|discriminate].
          injection St as <- <-. destruct (IH _ _ _ E2) as [E F]. split; [exact E | constructor; auto with arith]. }
        destruct (p c) eqn:E; [|exact (St H)].
        destruct (_ (pred n) s) as [[l' t']|] eqn:E2 in H; [|exact (St H)].
        destruct l' as [|x l']; [exact (St H)|]. injection H as <- <-.
        destruct (IHs _ _ _ E2) as [-> F]. split; [reflexivity|].
        inversion F; subst. constructor; [constructor; assumption | cbn [length]; lia | assumption].
    + cbn [m_seq] in H. revert n l t H. induction s as [|c s IHs]; intros n l t H.
      * destruct n; [|discriminate]. destruct (m_seq r []) as [[l' t']|] eqn:E2; [|discriminate].
        injection H as <- <-. destruct (IH _ _ _ E2) as [E F]. split; [exact E | constructor; auto with arith].
      * assert (St : match n with
                     | O => match m_seq r (c :: s) with Some (l0, t0) => Some ([] :: l0, t0) | None => None end
                     | S _ => None
                     end = Some (l, t) -> c :: s = concat l ++ t /\ fits (Lazy p n :: r) l).
        { intro St. destruct n; [|discriminate].
          destruct (m_seq r (c :: s)) as [[l' t']|] eqn:E2; [|discriminate].
          injection St as <- <-. destruct (IH _ _ _ E2) as [E F]. split; [exact E | constructor; auto with arith]. }
        destruct (match n with
                     | O => match m_seq r (c :: s) with Some (l0, t0) => Some ([] :: l0, t0) | None => None end
                     | S _ => None
                     end) as [x|] eqn:E0 in H.
        -- apply St. rewrite E0. exact H.
        -- destruct (p c) eqn:E; [|discriminate].
           destruct (_ (pred n) s) as [[l' t']|] eqn:E2 in H; [|discriminate].
           destruct l' as [|x l']; [discriminate|]. injection H as <- <-.
           destruct (IHs _ _ _ E2) as [-> F]. split; [reflexivity|].
           inversion F; subst. constructor; [constructor; assumption | cbn [length]; lia | assumption].
Qed.

(** Whatever fits is found (perhaps another match). *)
Lemma fits_m_seq : forall r l t, fits r l -> m_seq r (concat l ++ t) <> None.
Proof.
  intros r l t F. induction F as [|p c r l P F IH|p n x r l P Hn F IH|p n x r l P Hn F IH].
  - discriminate.
  - cbn. rewrite P. destruct (m_seq r (concat l ++ t)) as [[l' t']|]; [discriminate | contradiction].
  - cbn [m_seq concat]. rewrite <- app_assoc. revert n Hn. induction P as [|c x Pc P IHx]; intros n Hn.
    + cbn in Hn. assert (n = O) as -> by lia. cbn [app].
      destruct (m_seq r (concat l ++ t)) as [[l' t']|] eqn:E; [|contradiction].
      destruct (concat l ++ t) as [|c s]; rewrite E; [discriminate|].
      destruct (p c); [|discriminate]. destruct (_ (pred 0%nat) s) as [[l2 t2]|]; [destruct l2|]; discriminate.
    + cbn [app]. rewrite Pc. cbn [length] in Hn. specialize (IHx (pred n) ltac:(lia)).
      destruct (_ (pred n) (x ++ concat l ++ t)) as [[l2 t2]|] eqn:E in IHx |- *; [|congruence].
      pose proof (m_seq_fits (Greedy p (pred n) :: r) (x ++ concat l ++ t) l2 t2 E) as [_ F2].
      inversion F2; subst. discriminate.
  - cbn [m_seq concat]. rewrite <- app_assoc. revert n Hn. induction P as [|c x Pc P IHx]; intros n Hn.
    + cbn in Hn. assert (n = O) as -> by lia. cbn [app].
      destruct (m_seq r (concat l ++ t)) as [[l' t']|] eqn:E; [|contradiction].
      destruct (concat l ++ t) as [|c s]; rewrite E; discriminate.
    + cbn [app]. destruct (match n with
                     | O => match m_seq r (c :: x ++ concat l ++ t) with Some (l0, t0) => Some ([] :: l0, t0) | None => None end
                     | S _ => None
                     end); [discriminate|].
      rewrite Pc. cbn [length] in Hn. specialize (IHx (pred n) ltac:(lia)).
      destruct (_ (pred n) (x ++ concat l ++ t)) as [[l2 t2]|] eqn:E in IHx |- *; [|congruence].
      pose proof (m_seq_fits (Lazy p (pred n) :: r) (x ++ concat l ++ t) l2 t2 E) as [_ F2].
      inversion F2; subst. discriminate.
Qed.

(** A lazy element stops at the first place it can. *)
Lemma lazy_first : forall p r s x l t, m_seq (Lazy p 0 :: r) s = Some (x :: l, t) ->
  m_seq r (concat l ++ t) = Some (l, t) /\
  forall a b, x = a ++ b -> b <> [] -> m_seq r (b ++ concat l ++ t) = None.
Proof.
  intros p r s x l t H. cbn [m_seq] in H. revert x l t H. induction s as [|c s IHs]; intros x l t H.
  - destruct (m_seq r []) as [[l' t']|] eqn:E2; [|discriminate]. injection H as <- <- <-.
    destruct (m_seq_fits _ _ _ _ E2) as [E _]. rewrite <- E. split; [exact E2|].
    intros a b Hx Hb. destruct a; destruct b; try discriminate. contradiction.
  - destruct (m_seq r (c :: s)) as [[l' t']|] eqn:E2.
    + injection H as <- <- <-. destruct (m_seq_fits _ _ _ _ E2) as [E _]. rewrite <- E. split; [exact E2|].
      intros a b Hx Hb. destruct a; destruct b; try discriminate. contradiction.
    + destruct (p c) eqn:E; [|discriminate].
      destruct (_ (pred 0%nat) s) as [[l' t']|] eqn:E3 in H; [|discriminate].
      destruct l' as [|x' l']; [discriminate|]. injection H as <- <- <-.
      pose proof (m_seq_fits (Lazy p 0 :: r) s _ _ E3) as [Es _].
      destruct (IHs _ _ _ E3) as [A B]. split; [exact A|].
      intros [|c' a] b Hx Hb.
      * cbn in Hx. subst b. cbn [app]. cbn [concat] in Es. rewrite <- app_assoc in Es. rewrite <- Es. exact E2.
      * injection Hx as -> ->. apply (B a b); [reflexivity | exact Hb].
Qed.

(** A greedy element that ends its pattern takes the whole run. *)
Lemma greedy_last : forall p n s x t, m_seq [Greedy p n] s = Some ([x], t) ->
  forall c t', t = c :: t' -> p c = false.
Proof.
  intros p n s x t H. cbn [m_seq] in H. revert n x t H. induction s as [|c s IHs]; intros n x t H.
  - destruct n; [|discriminate]. injection H as <- <-. intros; discriminate.
  - destruct (p c) eqn:E.
    + destruct (_ (pred n) s) as [[l' t']|] eqn:E3 in H.
      * destruct l' as [|x' l'].
        { exfalso. pose proof (m_seq_fits [Greedy p (pred n)] s _ _ E3) as [_ F]. inversion F. }
        injection H as <- -> ->. exact (IHs _ _ _ E3).
      * exfalso. destruct n; [|discriminate].
        refine (fits_m_seq [Greedy p 0] [[]] s _ E3). constructor; auto with arith. constructor.
    + destruct n; [|discriminate]. injection H as <- <-. intros c' t' E'. injection E' as <- _. exact E.
Qed.

(** Greedy elements: the first character of the rest cannot be taken as well when the elements
    after would still match; only this form is needed. *)

Lemma m_alt_fits : forall r s l t, m_alt r s = Some (l, t) ->
  exists a, In a r /\ m_seq a s = Some (l, t) /\ s = concat l ++ t /\ fits a l.
Proof.
  induction r as [|a r IH]; intros s l t H; [discriminate|]. cbn in H.
  destruct (m_seq a s) as [x|] eqn:E.
  - injection H as ->. exists a. destruct (m_seq_fits _ _ _ _ E). repeat split; auto. now left.
  - destruct (IH _ _ _ H) as (b & B1 & B2). exists b. split; [now right | exact B2].
Qed.

Lemma fits_m_alt : forall r a l t, In a r -> fits a l -> m_alt r (concat l ++ t) <> None.
Proof.
  intros r a l t. induction r as [|b r IH]; intros I F; [contradiction|]. cbn.
  destruct (m_seq b (concat l ++ t)) as [x|] eqn:E; [discriminate|].
  destruct I as [-> | I]; [|auto]. exfalso. exact (fits_m_seq _ _ _ F E).
Qed.

(** Literal texts. *)
Lemma fits_lit : forall s r l, fits (lit s ++ r) l -> exists l', l = map (fun c => [c]) s ++ l' /\ fits r l'.
Proof.
  induction s as [|a s IH]; intros r l F; cbn in F.
  - exists l. split; [reflexivity | exact F].
  - inversion F; subst. destruct (IH _ _ H3) as (l' & -> & F'). apply N.eqb_eq in H1. subst c.
    exists l'. split; [reflexivity | exact F'].
Qed.

Lemma lit_fits : forall s r l, fits r l -> fits (lit s ++ r) (map (fun c => [c]) s ++ l).
Proof.
  induction s as [|a s IH]; intros r l F; cbn; [exact F|]. constructor; [apply N.eqb_refl | auto].
Qed.

Lemma concat_singles : forall s, concat (map (fun c : N => [c]) s) = s.
Proof. induction s as [|c s IH]; [reflexivity | cbn; now rewrite IH]. Qed.

Lemma m_seq_lit : forall s r t, m_seq (lit s ++ r) (s ++ t) =
  match m_seq r t with Some (l, u) => Some (map (fun c => [c]) s ++ l, u) | None => None end.
Proof.
  induction s as [|a s IH]; intros r t.
  - cbn. destruct (m_seq r t) as [[? ?]|]; reflexivity.
  - cbn [lit map app m_seq]. rewrite N.eqb_refl.
    change (map (fun a0 => One (N.eqb a0)) s) with (lit s). rewrite IH.
    destruct (m_seq r t) as [[? ?]|]; reflexivity.
Qed.

Lemma m_seq_lit_inv : forall s r u l t, m_seq (lit s ++ r) u = Some (l, t) ->
  exists l' v, l = map (fun c => [c]) s ++ l' /\ u = s ++ v /\ m_seq r v = Some (l', t).
Proof.
  induction s as [|a s IH]; intros r u l t H.
  - exists l, u. repeat split. exact H.
  - cbn [lit map app m_seq] in H. destruct u as [|c u]; [discriminate|].
    destruct (a =? c) eqn:E; [|discriminate]. apply N.eqb_eq in E. subst c.
    change (map (fun a0 => One (N.eqb a0)) s) with (lit s) in H.
    destruct (m_seq (lit s ++ r) u) as [[l1 t1]|] eqn:E1; [|discriminate]. injection H as <- ->.
    destruct (IH _ _ _ _ E1) as (l' & v & -> & -> & E2). exists l', v. repeat split. exact E2.
Qed.

(** ** Scanning *)

Lemma rewrites_det : forall (L F : str -> str -> Prop),
  (forall m r m' r', L m r -> L m' r' -> m ++ r = m' ++ r' -> m = m') ->
  (forall m a b, F m a -> F m b -> a = b) ->
  forall s t, rewrites L F s t -> forall t', rewrites L F s t' -> t = t'.
Proof.
  intros L F UL UF s t R. induction R as [|c s t Hn R IH|m m' r t Hm Lm Fm R IH]; intros t' R'.
  - inversion R' as [|? ? ? ? ? E1|m m' r t Hm Lm Fm R2 E1]; [reflexivity|].
    exfalso. destruct m; [congruence | discriminate].
  - inversion R' as [|? ? u Hn2 R2 E1|m m' r u Hm Lm Fm R2 E1]; subst.
    + f_equal. auto.
    + exfalso. exact (Hn m r (eq_sym E1) Lm).
  - inversion R' as [E1 E2|c s u Hn2 R2 E1 E2|m2 m2' r2 u Hm2 Lm2 Fm2 R2 E1 E2].
    + exfalso. destruct m; [congruence | discriminate].
    + exfalso. exact (Hn2 m r (ltac:(congruence)) Lm).
    + assert (m = m2) as <- by (apply (UL m r m2 r2); auto).
      apply app_inv_head in E1. subst r2. rewrite (UF _ _ _ Fm Fm2), (IH _ R2). reflexivity.
Qed.

Section Scan.
Variables (r : pattern) (L F : str -> str -> Prop) (f : list str -> outcome str).
Hypothesis HL : forall s l t, m_alt r s = Some (l, t) -> concat l <> [] /\ L (concat l) t.
Hypothesis HC : forall m t, L m t -> m_alt r (m ++ t) <> None.
Hypothesis HF : forall s l t, m_alt r s = Some (l, t) -> exists m', f l = Ok m' /\ F (concat l) m'.

Lemma replace_loop_rewrites : forall n s, (length s <= n)%nat ->
  exists t, replace_loop n r f s = Ok t /\ rewrites L F s t.
Proof.
  induction n as [|n IH]; intros s Hs.
  - destruct s; [|cbn in Hs; lia]. exists []. split; [reflexivity | constructor].
  - cbn [replace_loop]. destruct (m_alt r s) as [[l t]|] eqn:E.
    + destruct (HL _ _ _ E) as [Hne Lm]. destruct (HF _ _ _ E) as (m' & Ef & Fm).
      destruct (m_alt_fits _ _ _ _ E) as (_ & _ & _ & Es & _).
      destruct (IH t) as (u & Eu & Ru).
      { rewrite Es, app_length in Hs. destruct (concat l); [contradiction | cbn in Hs; lia]. }
      exists (m' ++ u). rewrite Ef. cbn [obind]. rewrite Eu. cbn [obind]. split; [reflexivity|].
      rewrite Es. constructor; assumption.
    + destruct s as [|c s]; [exists []; split; [reflexivity | constructor]|].
      destruct (IH s) as (u & Eu & Ru); [cbn in Hs; lia|].
      exists (c :: u). rewrite Eu. split; [reflexivity|]. constructor; [|exact Ru].
      intros m t Em Lm. rewrite Em in E. exact (HC _ _ Lm E).
Qed.

Lemma re_replace_all_rewrites : forall s, exists t, re_replace_all r f s = Ok t /\ rewrites L F s t.
Proof. intro s. apply replace_loop_rewrites. reflexivity. Qed.

End Scan.

Lemma subst_loop_replace : forall n r b s,
  replace_loop n r (fun _ => Ok b) s = Ok (subst_loop n r b s).
Proof.
  induction n as [|n IH]; intros r b s; [reflexivity|]. cbn [replace_loop subst_loop].
  destruct (m_alt r s) as [[l t]|].
  - cbn [obind]. rewrite IH. reflexivity.
  - destruct s; [reflexivity|]. rewrite IH. reflexivity.
Qed.

Lemma re_subst_all_rewrites : forall r (L : str -> str -> Prop) b,
  (forall s l t, m_alt r s = Some (l, t) -> concat l <> [] /\ L (concat l) t) ->
  (forall m t, L m t -> m_alt r (m ++ t) <> None) ->
  forall s, rewrites L (fun _ m' => m' = b) s (re_subst_all r b s).
Proof.
  intros r L b HL HC s.
  destruct (re_replace_all_rewrites r L (fun _ m' => m' = b) (fun _ => Ok b) HL HC) with (s := s) as (t & E & R).
  { intros. exists b. split; reflexivity. }
  unfold re_replace_all in E. rewrite subst_loop_replace in E. injection E as E.
  unfold re_subst_all. rewrite E. exact R.
Qed.

(** The first occurrence of a character. *)
Lemma first_split : forall (q : N) a a' r r', a ++ q :: r = a' ++ q :: r' -> ~ In q a -> ~ In q a' -> a = a'.
Proof.
  intros q a. induction a as [|x a IH]; intros [|y a'] r r' E H H'.
  - reflexivity.
  - injection E as -> _. exfalso. apply H'. now left.
  - injection E as -> _. exfalso. apply H. now left.
  - injection E as -> E. f_equal. apply (IH a' r r' E); intro I; [apply H | apply H']; now right.
Qed.

Lemma strip_spec : forall p s t, strip p s = Some t <-> s = p ++ t.
Proof.
  induction p as [|a p IH]; intros s t; cbn.
  - split; [now injection 1 | intros ->; reflexivity].
  - destruct s as [|b s]; [split; discriminate|]. destruct (N.eqb_spec a b) as [-> | Ne].
    + rewrite IH. split; [intros ->; reflexivity | injection 1; auto].
    + split; [discriminate | injection 1; congruence].
Qed.

Lemma starts_spec : forall p s, starts p s = true <-> exists t, s = p ++ t.
Proof.
  intros p s. unfold starts. destruct (strip p s) as [t|] eqn:E.
  - split; [intros _; exists t; now apply strip_spec | reflexivity].
  - split; [discriminate|]. intros [t Ht]. apply strip_spec in Ht. congruence.
Qed.

Lemma contains_spec : forall p s, contains p s = true <-> occurs p s.
Proof.
  intros p s. induction s as [|c s IH].
  - cbn. rewrite orb_false_r, starts_spec. split.
    + intros [t Ht]. exists [], t. exact Ht.
    + intros (a & b & E). symmetry in E. destruct a; [exists b; now symmetry | discriminate].
  - cbn. rewrite orb_true_iff, starts_spec, IH. split.
    + intros [[t Ht] | (a & b & ->)]; [exists [], t; exact Ht | exists (c :: a), b; reflexivity].
    + intros ([|x a] & b & E); [left; exists b; exact E|]. right. injection E as -> ->. exists a, b. reflexivity.
Qed.
