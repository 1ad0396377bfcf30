(** Aggregation of strings into variables. *)
From Coq Require Import String List NArith ZArith Bool Lia ZifyBool ZifyN Arith Permutation.
From Verif Require Import Base JsModel JsUtilModel JsUtilSpec JsUtilProofs JsUtilProofs2 JsAggModel JsAggSpec.
Import ListNotations.
Open Scope N_scope.

(** ** Maps *)

Lemma mget_mset : forall A (m : list (str * A)) k a k',
  mget (mset m k a) k' = if str_eqb k' k then Some a else mget m k'.
Proof.
  induction m as [|[k0 a0] m IH]; intros k a k'; cbn [mset mget].
  - destruct (str_eqb k' k); reflexivity.
  - destruct (str_eqb k k0) eqn:E; cbn [mget].
    + apply str_eqb_eq in E. subst k0. destruct (str_eqb k' k); reflexivity.
    + rewrite IH. destruct (str_eqb k' k0) eqn:E0; [|reflexivity].
      apply str_eqb_eq in E0. subst k0. destruct (str_eqb k' k) eqn:E1; [|reflexivity].
      apply str_eqb_eq in E1. subst k'. rewrite str_eqb_refl in E. discriminate.
Qed.

Lemma mset_absent : forall A (m : list (str * A)) k a, mget m k = None -> mset m k a = m ++ [(k, a)].
Proof.
  induction m as [|[k0 a0] m IH]; intros k a H; [reflexivity|]. cbn [mget mset app] in *.
  destruct (str_eqb k k0); [discriminate|]. rewrite IH by exact H. reflexivity.
Qed.

Lemma mget_in : forall A (m : list (str * A)) k a, mget m k = Some a -> In (k, a) m.
Proof.
  induction m as [|[k0 a0] m IH]; intros k a H; [discriminate|]. cbn [mget] in H.
  destruct (str_eqb k k0) eqn:E; [|right; now apply IH].
  apply str_eqb_eq in E. subst k0. injection H as ->. left. reflexivity.
Qed.

Lemma mget_none : forall A (m : list (str * A)) k, mget m k = None <-> ~ In k (map fst m).
Proof.
  induction m as [|[k0 a0] m IH]; intros k; cbn [mget map fst In]; [tauto|].
  destruct (str_eqb k k0) eqn:E.
  - apply str_eqb_eq in E. subst k0. split; [discriminate|]. intro H. exfalso. tauto.
  - apply str_eqb_neq in E. rewrite IH. split; [intros H [?|?]; [congruence|tauto]|tauto].
Qed.

Lemma mget_nodup : forall A (m : list (str * A)) k a, NoDup (map fst m) -> In (k, a) m -> mget m k = Some a.
Proof.
  induction m as [|[k0 a0] m IH]; intros k a D H; [destruct H|]. cbn [mget map fst] in *.
  inversion D; subst. destruct H as [H|H].
  - injection H as -> ->. rewrite str_eqb_refl. reflexivity.
  - destruct (str_eqb k k0) eqn:E; [|now apply IH]. apply str_eqb_eq in E. subst k0.
    exfalso. apply H2. apply (in_map fst) in H. exact H.
Qed.

(** ** The variables of the program *)

Lemma starts_with_spec : forall p s, starts_with p s = true <-> exists y, s = p ++ y.
Proof.
  induction p as [|c p IH]; intros s; cbn [starts_with]; [split; [intros _; exists s; reflexivity|reflexivity]|].
  destruct s as [|d s]; [split; [discriminate|intros [y H]; discriminate]|].
  rewrite andb_true_iff, IH, N.eqb_eq. split.
  - intros [-> [y ->]]. exists y. reflexivity.
  - intros [y H]. injection H as -> ->. split; [reflexivity|]. exists y. reflexivity.
Qed.

Lemma search_le : forall ts q start, search_from ts q start -> (q <= start <= S q)%nat.
Proof. intros ts q start [(k & _ & _ & ->)|(s & _ & _ & -> & _)]; lia. Qed.

Lemma search_token : forall ts q start, search_from ts q start ->
  (exists k, nth_error ts q = Some (TKeyword k)) \/ (exists s, nth_error ts q = Some (TOther s)).
Proof. intros ts q start [(k & H & _)|(s & H & _)]; [left|right]; eauto. Qed.

Lemma search_unique : forall ts q a b, search_from ts q a -> search_from ts q b -> a = b.
Proof.
  intros ts q a b [(k & H & _ & ->)|(s & H & _ & -> & _)] [(k' & H' & _ & ->)|(s' & H' & _ & -> & _)]; congruence.
Qed.

Lemma declares_unique : forall ts n v v', declares ts n (Some v) -> declares ts n (Some v') -> v = v'.
Proof.
  intros ts n v v' [_ (e & t & A & B & E & V & Iv & Bn & Be)] [_ (e' & t' & A' & B' & E' & V' & Iv' & Bn' & Be')].
  assert (X : e = e').
  { destruct (Nat.lt_trichotomy e e') as [H|[H|H]]; [|exact H|].
    - specialize (Bn' e _ A H E). discriminate.
    - specialize (Bn e' _ A' H E'). discriminate. }
  subst e'. destruct (Nat.lt_trichotomy v v') as [H|[H|H]]; [|exact H|].
  - specialize (Be' v _ B H V). destruct t; discriminate.
  - specialize (Be v' _ B' H V'). destruct t'; discriminate.
Qed.

(** The places a search can start from on the way to a value lead to the same declarator. *)
Lemma found_between : forall ts pos n v q n' v', found_from ts pos n v -> found_from ts q n' v' ->
  (pos <= q <= v)%nat -> n' = n.
Proof.
  intros ts pos n v q n' v' (st & S & L & D & F) (st' & S' & L' & D' & F') Hq.
  pose proof (search_le _ _ _ S) as B. pose proof (search_le _ _ _ S') as B'.
  assert (LE : (st <= st')%nat).
  { destruct (Nat.eq_dec pos q) as [->|]; [rewrite (search_unique _ _ _ _ S S'); lia|lia]. }
  assert (GE : (n <= n')%nat).
  { destruct (Nat.le_gt_cases n n'); [assumption|]. exfalso. apply (F n' (Some v')); [lia|lia|exact D']. }
  destruct (Nat.le_gt_cases st' n) as [H|H].
  - destruct (Nat.eq_dec n' n); [assumption|]. exfalso. apply (F' n (Some v)); [lia|lia|exact D].
  - exfalso. destruct D as [(t0 & Hn & In0) (e & t & A & B0 & Eq & Ev & Iv & Bn & Be)].
    (* q is behind n *)
    assert (Qn : (n <= q)%nat) by lia.
    assert (X : forall t, nth_error ts q = Some t ->
      (exists k, t = TKeyword k) \/ ((exists s, t = TOther s) /\ st' = q /\ exists p, (p < q)%nat /\ between useless ts p q
         /\ (p = 0%nat \/ nth_error ts p = Some (TChar Comma) \/ nth_error ts p = Some (TKeyword KLet)
             \/ nth_error ts p = Some (TKeyword KVar)))).
    { intros u U. destruct S' as [(k & K & _)|(s & K & _ & Z & p & P)].
      - left. exists k. congruence.
      - right. split; [exists s; congruence|]. split; [exact Z|]. exists p. exact P. }
    destruct (Nat.eq_dec q n) as [->|Nq].
    { destruct (X _ Hn) as [(k & ->)|(_ & Z & _)]; [discriminate In0|lia]. }
    destruct (Nat.lt_trichotomy q e) as [Q|[Q|Q]].
    + destruct (nth_error ts q) as [u|] eqn:U.
      2:{ apply nth_error_None in U. assert (e < length ts)%nat by (apply nth_error_Some; congruence). lia. }
      pose proof (Bn q u) as Z. specialize (Z ltac:(lia) Q U).
      destruct (X u eq_refl) as [(k & ->)|((s & ->) & _)]; discriminate.
    + subst q. destruct (X _ Eq) as [(k & Z)|((s & Z) & _)]; discriminate.
    + destruct (Nat.eq_dec q v) as [->|Nv].
      * destruct (X _ Ev) as [(k & ->)|(_ & _ & p & P & Bp & Cp)]; [discriminate|].
        destruct (Nat.lt_trichotomy p e) as [P'|[P'|P']].
        -- specialize (Bp e _ P' B0 Eq). discriminate.
        -- subst p. rewrite Eq in Cp. destruct Cp as [Cp|[Cp|[Cp|Cp]]]; [lia|discriminate..].
        -- destruct Cp as [Cp|Cp]; [lia|].
           destruct Cp as [Cp|[Cp|Cp]]; specialize (Be p _ P' P Cp); discriminate.
      * destruct (nth_error ts q) as [u|] eqn:U.
        2:{ apply nth_error_None in U. assert (v < length ts)%nat by (apply nth_error_Some; congruence). lia. }
        specialize (Be q u Q ltac:(lia) U).
        destruct (X u eq_refl) as [(k & ->)|((s & ->) & _)]; discriminate.
Qed.

Lemma get_found : forall ts pos n v,
  get_variable_name_and_value_positions ts pos = Ok (Some (n, Some v)) -> found_from ts pos n v.
Proof.
  intros ts pos n v H. destruct (get_variable_spec ts pos) as (o & E & Ho). rewrite E in H. injection H as ->.
  destruct Ho as (start & A & B & C & D). exists start. auto.
Qed.

Lemma found_get : forall ts pos n v, found_from ts pos n v ->
  get_variable_name_and_value_positions ts pos = Ok (Some (n, Some v)).
Proof.
  intros ts pos n v (st & S & L & D & F). destruct (get_variable_spec ts pos) as (o & E & Ho). rewrite E. f_equal.
  destruct o as [[n' r']|].
  - destruct Ho as (st' & S' & L' & D' & F'). rewrite (search_unique _ _ _ _ S' S) in *.
    assert (n' = n).
    { destruct (Nat.lt_trichotomy n n') as [H|[H|H]]; [|congruence|].
      - exfalso. exact (F' n _ L H D).
      - exfalso. exact (F n' _ L' H D'). }
    subst n'. f_equal. f_equal. destruct r' as [v'|].
    + f_equal. exact (declares_unique _ _ _ _ D' D).
    + exfalso. destruct D as [_ (e & t & A & B & Eq & _ & _ & Bn & _)].
      destruct D' as [_ (e' & t' & A' & Eq' & T' & Bn')].
      destruct (Nat.lt_trichotomy e e') as [H|[H|H]].
      * specialize (Bn' e _ A H Eq). discriminate.
      * subst e'. rewrite Eq in Eq'. injection Eq' as <-. destruct T'; discriminate.
      * specialize (Bn e' _ A' H Eq'). destruct T'; subst t'; discriminate.
  - exfalso. exact (Ho st n _ S L D).
Qed.

Definition vars_ok (ts : list token) (pos : nat) (ret : list str) (vars : list (str * (nat * nat))) : Prop :=
  (forall x, In x ret -> exists n v, found ts n v /\ r_name ts n x)
  /\ (forall s n v, mget vars s = Some (n, v) -> exists x, stands_for ts s n v x)
  /\ (forall q n v x, (q < pos)%nat -> found_from ts q n v -> r_name ts n x ->
      In x ret /\ forall s, nth_error ts v = Some (TString s) -> mget vars s <> None).

Lemma variables_loop_spec : forall m ts pos ret vars, (length ts - pos < m)%nat ->
  vars_ok ts pos ret vars ->
  exists ret' vars', variables_loop m ts pos ret vars = Ok (ret', vars')
    /\ vars_ok ts (length ts) ret' vars'.
Proof.
  induction m as [|m IH]; intros ts pos ret vars L H; [lia|].
  cbn [variables_loop]. destruct (Nat.ltb_spec pos (length ts)) as [Lp|Lp].
  2:{ exists ret, vars. split; [reflexivity|]. destruct H as (A & B & C). split; [exact A|]. split; [exact B|].
      intros q n v x Q. apply C. lia. }
  destruct (index_in ts pos Lp) as (t & Et & ->). cbn [obind].
  assert (SKIP : (forall n v, ~ found_from ts pos n v) ->
    exists ret' vars', variables_loop m ts (S pos) ret vars = Ok (ret', vars') /\ vars_ok ts (length ts) ret' vars').
  { intro N. apply IH; [lia|]. destruct H as (A & B & C). split; [exact A|]. split; [exact B|].
    intros q n v x Q F. destruct (Nat.eq_dec q pos) as [->|]; [exfalso; exact (N n v F)|]. apply (C q); [lia|exact F]. }
  destruct (is_keyword t || is_other t) eqn:K.
  2:{ apply SKIP. intros n v (st & S & _). destruct (search_token _ _ _ S) as [(k & E)|(k & E)];
      rewrite Et in E; injection E as ->; discriminate. }
  destruct (get_variable_spec ts pos) as (o & E & _). rewrite E. cbn [obind].
  destruct o as [[n [v|]]|].
  2:{ apply SKIP. intros n' v' F. apply found_get in F. congruence. }
  2:{ apply SKIP. intros n' v' F. apply found_get in F. congruence. }
  pose proof (get_found _ _ _ _ E) as F.
  assert (F0 := F). destruct F0 as (st & Sf & Ls & D & _). pose proof (search_le _ _ _ Sf) as Sl.
  destruct D as [(t0 & Hn & In0) (e & tv & A1 & A2 & _ & Hv & _)].
  unfold index. rewrite Hn, Hv. cbn [obind].
  destruct t0 as [| | | | |x| | | | | | |]; try discriminate In0. cbn [get_other].
  assert (ALL : forall q n' v', (q < S v)%nat -> found_from ts q n' v' ->
     (q < pos)%nat \/ (n' = n /\ v' = v)).
  { intros q n' v' Q F'. destruct (Nat.lt_ge_cases q pos); [auto|]. right.
    pose proof (found_between _ _ _ _ _ _ _ F F') as X. specialize (X ltac:(lia)). subst n'. split; [reflexivity|].
    destruct F as (? & _ & _ & D1 & _). destruct F' as (? & _ & _ & D2 & _).
    exact (declares_unique _ _ _ _ D2 D1). }
  assert (Vl : (v < length ts)%nat) by (apply nth_error_Some; congruence).
  destruct H as (A & B & C).
  destruct (starts_with (S_ "r_") x) eqn:R; cbn [negb].
  - assert (Rn : r_name ts n x) by (split; [exact Hn|now apply starts_with_spec]).
    assert (A' : forall y, In y (x :: ret) -> exists n v, found ts n v /\ r_name ts n y).
    { intros y [<-|Y]; [|now apply A]. exists n, v. split; [exists pos; exact F|exact Rn]. }
    destruct (get_string_of tv) as [s|] eqn:Gs.
    + destruct tv; try discriminate Gs. injection Gs as ->.
      apply IH; [lia|]. split; [exact A'|]. split.
      * intros s' n' v' G. rewrite mget_mset in G. destruct (str_eqb s' s) eqn:Es.
        -- apply str_eqb_eq in Es. subst s'. injection G as <- <-. exists x.
           split; [exists pos; exact F|]. split; [exact Rn|exact Hv].
        -- now apply B.
      * intros q n' v' y Q F' Ry. destruct (ALL q n' v' Q F') as [Q'|[-> ->]].
        -- destruct (C q n' v' y Q' F' Ry) as [C1 C2]. split; [right; exact C1|].
           intros s' Hs'. rewrite mget_mset. destruct (str_eqb s' s); [discriminate|]. now apply C2.
        -- split; [left; destruct Ry as [Ry _]; congruence|].
           intros s' Hs'. rewrite Hv in Hs'. injection Hs' as <-. rewrite mget_mset, str_eqb_refl. discriminate.
    + apply IH; [lia|]. split; [exact A'|]. split; [exact B|].
      intros q n' v' y Q F' Ry. destruct (ALL q n' v' Q F') as [Q'|[-> ->]].
      * destruct (C q n' v' y Q' F' Ry) as [C1 C2]. split; [right; exact C1|exact C2].
      * split; [left; destruct Ry as [Ry _]; congruence|]. intros s' Hs'. rewrite Hv in Hs'. injection Hs' as ->.
        discriminate Gs.
  - apply IH; [lia|]. split; [exact A|]. split; [exact B|].
    intros q n' v' y Q F' Ry. destruct (ALL q n' v' Q F') as [Q'|[-> ->]]; [exact (C q n' v' y Q' F' Ry)|].
    exfalso. destruct Ry as [R1 R2]. rewrite Hn in R1. injection R1 as ->.
    apply starts_with_spec in R2. congruence.
Qed.

Lemma get_variables_spec : forall ts, exists ret vars, get_variables_name ts = Ok (ret, vars)
  /\ (forall x, In x ret <-> exists n v, found ts n v /\ r_name ts n x)
  /\ (forall s n v, mget vars s = Some (n, v) -> exists x, stands_for ts s n v x)
  /\ (forall s, mget vars s = None <-> forall n v x, ~ stands_for ts s n v x).
Proof.
  intro ts. destruct (variables_loop_spec (S (length ts)) ts 0 [] []) as (ret & vars & E & A & B & C); [lia| |].
  { split; [intros x []|]. split; [discriminate|]. intros q n v x Q. lia. }
  assert (C' : forall n v x, found ts n v -> r_name ts n x -> In x ret
     /\ forall s, nth_error ts v = Some (TString s) -> mget vars s <> None).
  { intros n v x (q & F) R. apply (C q n v x); [|exact F|exact R].
    destruct F as (st & S & _). apply nth_error_Some. destruct (search_token _ _ _ S) as [(k & K)|(k & K)]; congruence. }
  exists ret, vars. split; [exact E|]. split; [|split; [exact B|]].
  - intro x. split; [apply A|]. intros (n & v & F & R). exact (proj1 (C' n v x F R)).
  - intro s. split.
    + intros N n v x (F & R & V). exact (proj2 (C' n v x F R) s V N).
    + intro N. destruct (mget vars s) as [[n v]|] eqn:G; [|reflexivity]. destruct (B s n v G) as (x & X).
      exfalso. exact (N n v x X).
Qed.

(** ** Fresh names *)

Notation g0 := (namegen_new (Some (S_ "r_")) 2).

Lemma mem_in : forall l k, mem l k = true <-> In k l.
Proof.
  intros l k. unfold mem. rewrite existsb_exists. split.
  - intros (x & I & E). apply str_eqb_eq in E. congruence.
  - intro I. exists k. split; [exact I|apply str_eqb_refl].
Qed.

Lemma skip_used_spec : forall m used i,
  (exists j, (i <= j)%nat /\ skip_used m used (nth_gen g0 i) = Ok (nth_gen g0 j)
    /\ ~ In (namegen_show (nth_gen g0 j)) used
    /\ forall k, (i <= k)%nat -> (k < j)%nat -> In (namegen_show (nth_gen g0 k)) used)
  \/ (forall k, (k < m)%nat -> In (namegen_show (nth_gen g0 (i + k))) used).
Proof.
  induction m as [|m IH]; intros used i; [right; lia|]. cbn [skip_used].
  destruct (mem used (namegen_show (nth_gen g0 i))) eqn:M.
  - apply mem_in in M. change (namegen_next (nth_gen g0 i)) with (nth_gen g0 (S i)).
    destruct (IH used (S i)) as [(j & A & B & C & D)|H].
    + left. exists j. split; [lia|]. split; [exact B|]. split; [exact C|]. intros k K1 K2.
      destruct (Nat.eq_dec k i) as [->|K3]; [exact M|]. apply D; lia.
    + right. intros [|k] K; [rewrite Nat.add_0_r; exact M|].
      replace (i + S k)%nat with (S i + k)%nat by lia. apply H. lia.
  - left. exists i. split; [lia|]. split; [reflexivity|]. split; [|lia]. intro I. apply mem_in in I. congruence.
Qed.

Lemma fresh_spec : forall used i, exists j, (i <= j)%nat /\ fresh used (nth_gen g0 i) = Ok (nth_gen g0 j)
  /\ ~ In (namegen_show (nth_gen g0 j)) used
  /\ forall k, (i <= k)%nat -> (k < j)%nat -> In (namegen_show (nth_gen g0 k)) used.
Proof.
  intros used i. destruct (skip_used_spec (S (length used)) used i) as [H|H]; [exact H|]. exfalso.
  set (l := map (fun k => namegen_show (nth_gen g0 (i + k))) (seq 0 (S (length used)))).
  assert (ND : NoDup l).
  { apply NoDup_nth_error. intros a b La E. unfold l in *. rewrite map_length, seq_length in La.
    assert (X : forall a, (a < S (length used))%nat ->
      nth_error (map (fun k => namegen_show (nth_gen g0 (i + k))) (seq 0 (S (length used)))) a
      = Some (namegen_show (nth_gen g0 (i + a)))).
    { intros c Lc. apply (map_nth_error (fun k => namegen_show (nth_gen g0 (i + k)))).
      rewrite nth_error_nth' with (d := 0%nat) by (rewrite seq_length; exact Lc). rewrite seq_nth by exact Lc. reflexivity. }
    rewrite (X a La) in E. destruct (Nat.lt_ge_cases b (S (length used))) as [Lb|Lb].
    - rewrite (X b Lb) in E. injection E as E. apply names_distinct in E. lia.
    - rewrite (proj2 (nth_error_None _ _)) in E; [discriminate|]. rewrite map_length, seq_length. exact Lb. }
  assert (IN : incl l used).
  { intros x I. unfold l in I. apply in_map_iff in I. destruct I as (k & <- & Ik). apply in_seq in Ik. apply H. lia. }
  pose proof (NoDup_incl_length ND IN) as Len. unfold l in Len. rewrite map_length, seq_length in Len. lia.
Qed.
