(** Aggregation of strings into an array: the edits and the result. *)
From Coq Require Import String List NArith ZArith Bool Lia ZifyBool ZifyN Arith Permutation Sorting.Sorted.
From Verif Require Import Base JsModel JsUtilModel JsUtilSpec JsUtilProofs JsUtilProofs2 JsAggModel
  JsAggProofs1 JsAggProofs3 JsArrSpec JsArrProofs1.
Import ListNotations.
Open Scope N_scope.

(** ** The sorted list of elements *)
Definition desc (a b : N * str) : bool := fst b <=? fst a.

Fixpoint numbered (b : nat) (l : list str) : list (N * str) :=
  match l with
  | [] => []
  | s :: r => (N.of_nat b, s) :: numbered (S b) r
  end.

Lemma numbered_in : forall l b i s, In (i, s) (numbered b l) <-> exists k, i = N.of_nat (b + k) /\ nth_error l k = Some s.
Proof.
  induction l as [|x l IH]; intros b i s; cbn [numbered].
  - split; [intros []|]. intros (k & _ & H). destruct k; discriminate.
  - cbn [In]. rewrite IH. split.
    + intros [H|(k & -> & H)].
      * injection H as <- <-. exists 0%nat. rewrite Nat.add_0_r. auto.
      * exists (S k). split; [f_equal; lia|exact H].
    + intros ([|k] & -> & H).
      * left. cbn in H. injection H as ->. rewrite Nat.add_0_r. reflexivity.
      * right. exists k. split; [f_equal; lia|exact H].
Qed.

Lemma sorted_app : forall A (R : A -> A -> Prop) l l', StronglySorted R l -> StronglySorted R l' ->
  (forall x y, In x l -> In y l' -> R x y) -> StronglySorted R (l ++ l').
Proof.
  induction l as [|x l IH]; intros l' H H' C; [exact H'|]. inversion H; subst. cbn [app]. constructor.
  - apply IH; [assumption|exact H'|]. intros a b Ia Ib. apply C; [now right|exact Ib].
  - apply Forall_app. split; [assumption|]. apply Forall_forall. intros y Iy. apply C; [now left|exact Iy].
Qed.

Lemma numbered_sorted : forall l b, StronglySorted (fun x y => desc x y = true) (rev (numbered b l)).
Proof.
  induction l as [|x l IH]; intro b; cbn [numbered rev]; [constructor|]. apply sorted_app; [apply IH|repeat constructor|].
  intros [i s] y I [<-|[]]. rewrite <- in_rev in I. apply numbered_in in I. destruct I as (k & -> & _).
  unfold desc. cbn [fst]. lia.
Qed.

Definition index_of (m : list (str * entry)) (s : str) : N := match mget m s with Some x => e_index x | None => 0 end.
Definition with_idx (m : list (str * entry)) (s : str) : N * str := (index_of m s, s).

Lemma with_index_spec : forall m l, (forall s, In s l -> mget m s <> None) ->
  with_index m l = Ok (map (with_idx m) l).
Proof.
  induction l as [|s l IH]; intro H; [reflexivity|]. cbn [with_index map]. unfold with_idx at 1, index_of.
  destruct (mget m s) eqn:E; [|exfalso; apply (H s); [now left|exact E]]. rewrite IH by (intros; apply H; now right).
  reflexivity.
Qed.

Section Result.
Variables (all : list token) (filter : list token -> nat -> bool) (ignore : list nat) (name : str).
Variables (v0 olds news : list str) (m : list (str * entry)) (valid : list str) (ap : N).
Hypothesis V0 : forall s, In s v0 <-> In s olds.
Hypothesis H : scanned all filter ignore name v0 olds all m valid ap news.

Let pos (s : str) := occ all filter ignore s 0 all.

Lemma in_valid : forall s, In s valid <-> In s olds \/ In s news.
Proof. intro s. rewrite (sc_valid _ _ _ _ _ _ _ _ _ _ _ H), in_app_iff, V0. reflexivity. Qed.

Lemma valid_entry : forall s, In s valid -> exists k,
  nth_error (olds ++ news) k = Some s /\ index_of m s = N.of_nat k
  /\ exists c, mget m s = Some {| e_index := N.of_nat k; e_positions := pos s; e_create := c |}.
Proof.
  intros s I. apply in_valid in I. destruct I as [I|I].
  - destruct (sc_old _ _ _ _ _ _ _ _ _ _ _ H s I) as (k & K1 & K2). exists k. unfold index_of. rewrite K2.
    rewrite nth_error_app1 by (apply nth_error_Some; congruence). split; [exact K1|]. split; [reflexivity|]. eauto.
  - apply In_nth_error in I. destruct I as (k & I). pose proof (sc_new _ _ _ _ _ _ _ _ _ _ _ H k s I) as K2.
    exists (length olds + k)%nat. unfold index_of. rewrite K2.
    rewrite nth_error_app2 by lia. rewrite Nat.add_comm, Nat.add_sub. split; [exact I|].
    rewrite Nat.add_comm. split; [reflexivity|]. eauto.
Qed.

Lemma news_numbered : map (with_idx m) news = numbered (length olds) news.
Proof.
  assert (X : forall l b, (forall k s, nth_error l k = Some s -> index_of m s = N.of_nat (b + k)) ->
    map (with_idx m) l = numbered b l).
  { induction l as [|s l IH]; intros b Hk; [reflexivity|]. cbn [map numbered]. f_equal.
    - unfold with_idx. rewrite (Hk 0%nat s eq_refl), Nat.add_0_r. reflexivity.
    - apply IH. intros k s' E. rewrite (Hk (S k) s' E). f_equal. lia. }
  apply X. intros k s E. unfold index_of. rewrite (sc_new _ _ _ _ _ _ _ _ _ _ _ H k s E). reflexivity.
Qed.

Definition old_part : list (N * str) := sort desc (map (with_idx m) v0).

Lemma old_part_in : forall p, In p old_part <-> In p (map (with_idx m) v0).
Proof. intro p. unfold old_part. split; apply Permutation_in; [|symmetry]; apply sort_perm. Qed.

(** Whatever the order of the set, the new elements come first, from the last one to the
    first one. *)
Lemma sorted_elements : forall l, Permutation l valid ->
  sort desc (map (with_idx m) l) = rev (numbered (length olds) news) ++ old_part.
Proof.
  intros l P.
  set (Q := fun p : N * str => exists s, In s valid /\ p = with_idx m s).
  assert (TOT : forall x y : N * str, Q x -> Q y -> desc x y = true \/ desc y x = true) by (intros; unfold desc; lia).
  assert (TR : forall x y z : N * str, Q x -> Q y -> Q z -> desc x y = true -> desc y z = true -> desc x z = true) by (unfold desc; lia).
  assert (ASY : forall x y, Q x -> Q y -> desc x y = true -> desc y x = true -> x = y).
  { intros x y (s & Is & ->) (s' & Is' & ->) A B. unfold desc, with_idx in *. cbn [fst] in *.
    destruct (valid_entry s Is) as (k & K1 & K2 & _). destruct (valid_entry s' Is') as (k' & K1' & K2' & _).
    assert (k = k') by lia. subst k'. congruence. }
  assert (FQ : forall l, (forall s, In s l -> In s valid) -> Forall Q (map (with_idx m) l)).
  { intros l' S'. apply Forall_forall. intros p I. apply in_map_iff in I. destruct I as (s & <- & I). exists s. auto. }
  assert (IV : forall s, In s v0 -> In s valid) by (intros s I; rewrite (sc_valid _ _ _ _ _ _ _ _ _ _ _ H); apply in_or_app; now left).
  assert (SL : forall s, In s l -> In s valid) by (intros s I; exact (Permutation_in _ P I)).
  apply (sorted_unique desc Q ASY).
  - apply Forall_forall. intros p I. apply (Permutation_in _ (sort_perm _ desc _)) in I.
    apply (proj1 (Forall_forall _ _) (FQ l SL)). exact I.
  - apply (sort_sorts desc Q TOT TR). now apply FQ.
  - apply sorted_app.
    + apply numbered_sorted.
    + apply (sort_sorts desc Q TOT TR). now apply FQ.
    + intros [i s] [j s'] I J. rewrite <- in_rev in I. apply numbered_in in I. destruct I as (k & -> & _).
      apply old_part_in in J. apply in_map_iff in J. destruct J as (u & E & J). injection E as <- <-. apply V0 in J.
      destruct (sc_old _ _ _ _ _ _ _ _ _ _ _ H u J) as (q & K1 & K2). unfold desc, index_of. rewrite K2. cbn [fst e_index].
      assert (q < length olds)%nat by (apply nth_error_Some; congruence). lia.
  - rewrite sort_perm, P, (sc_valid _ _ _ _ _ _ _ _ _ _ _ H), map_app, news_numbered.
    unfold old_part. rewrite (sort_perm _ desc (map (with_idx m) v0)). rewrite <- Permutation_rev. apply Permutation_app_comm.
Qed.

(** ** The edits *)
Definition reps (l : list (N * str)) : list (nat * token) :=
  concat (map (fun p => map (fun q => (q, TCreatedVar (name ++ S_ "[" ++ number_show (fst p) ++ S_ "]"))) (pos (snd p))) l).

Fixpoint inss (b : nat) (nv : bool) (l : list (N * str)) : list (nat * token) :=
  match l with
  | [] => []
  | (i, s) :: r =>
      (match mget m s with
       | Some x => if e_create x then (b, element s)
           :: (if (match r with [] => true | _ => false end) && nv then [] else [(b, TChar Comma)]) else []
       | None => []
       end) ++ inss b nv r
  end.

Lemma edits_eq : forall b nv l, (forall p, In p l -> In (snd p) valid) ->
  array_edits m name b nv l = Ok (reps l, inss b nv l).
Proof.
  induction l as [|[i s] l IH]; intro I; [reflexivity|]. cbn [array_edits].
  destruct (valid_entry s (I (i, s) (or_introl eq_refl))) as (k & _ & _ & c & E). rewrite E. cbn [e_positions e_create].
  rewrite IH by (intros p J; apply I; now right). cbn [obind inss]. rewrite E. reflexivity.
Qed.

Lemma inss_old : forall b nv l, (forall p, In p l -> In (snd p) olds) -> inss b nv l = [].
Proof.
  induction l as [|[i s] l IH]; intro I; [reflexivity|]. cbn [inss].
  destruct (sc_old _ _ _ _ _ _ _ _ _ _ _ H s (I (i, s) (or_introl eq_refl))) as (k & _ & E). rewrite E. cbn [e_create app].
  apply IH. intros p J. apply I. now right.
Qed.

Definition both (b : nat) (p : N * str) : list (nat * token) := [(b, element (snd p)); (b, TChar Comma)].

Lemma inss_new : forall b l o nv, (nv = false \/ o <> []) -> (forall p, In p l -> In (snd p) news) ->
  inss b nv (l ++ o) = concat (map (both b) l) ++ inss b nv o.
Proof.
  induction l as [|[i s] l IH]; intros o nv A I; [reflexivity|]. cbn [app inss map concat both snd].
  pose proof (I (i, s) (or_introl eq_refl)) as J. cbn [snd] in J. apply In_nth_error in J. destruct J as (k & J).
  rewrite (sc_new _ _ _ _ _ _ _ _ _ _ _ H k s J). cbn [e_create].
  replace ((match l ++ o with [] => true | _ => false end) && nv) with false.
  2:{ symmetry. destruct A as [-> | A]; [apply andb_false_r|]. destruct l; [destruct o; [contradiction|reflexivity]|reflexivity]. }
  cbn [app]. rewrite IH; [reflexivity|exact A|]. intros p J'. apply I. now right.
Qed.

Lemma both_rev : forall b n l, rev (map snd (concat (map (both b) (rev (numbered n l))))) = appended l.
Proof.
  induction l as [|s l IH]; [reflexivity|]. revert n IH.
  assert (X : forall n l, rev (map snd (concat (map (both b) (rev (numbered n l))))) = appended l).
  { clear. intros n l. revert n. induction l as [|s l IH]; intro n; [reflexivity|]. cbn [numbered rev].
    rewrite map_app, concat_app, map_app, rev_app_distr, IH. reflexivity. }
  intros n _. apply X.
Qed.

Lemma both_fst : forall b l, Forall (fun x => fst x = b) (concat (map (both b) l)).
Proof. induction l as [|p l IH]; [constructor|]. cbn [map concat both app]. repeat constructor. exact IH. Qed.

Lemma in_numbered_news : forall p, In p (rev (numbered (length olds) news)) -> In (snd p) news.
Proof.
  intros [i s] I. rewrite <- in_rev in I. apply numbered_in in I. destruct I as (k & _ & I). eapply nth_error_In. exact I.
Qed.

Lemma old_part_old : forall p, In p old_part -> In (snd p) olds.
Proof.
  intros p J. apply old_part_in in J. apply in_map_iff in J. destruct J as (u & <- & J). apply V0. exact J.
Qed.

(** With a non-empty array, every new element comes after a comma. *)
Lemma inserted_more : forall b,
  let l := inss b false (rev (numbered (length olds) news) ++ old_part) in
  Forall (fun x => fst x = b) l /\ rev (map snd l) = appended news.
Proof.
  intro b. cbv zeta. rewrite inss_new; [|now left|apply in_numbered_news].
  rewrite (inss_old b false old_part old_part_old), app_nil_r. split; [apply both_fst|apply both_rev].
Qed.

(** With an empty array, all but the first. *)
Lemma inserted_first : forall b, v0 = [] ->
  let l := inss b true (rev (numbered (length olds) news) ++ old_part) in
  Forall (fun x => fst x = b) l /\ rev (map snd l) = listed news.
Proof.
  intros b E. cbv zeta. unfold old_part. rewrite E. cbn [map sort]. rewrite app_nil_r.
  pose proof in_numbered_news as IN.
  assert (C : news = [] \/ exists s r, news = s :: r) by (destruct news; [now left|right; eauto]).
  destruct C as [En|(s & r & En)]; [rewrite En; split; [constructor|reflexivity]|].
  rewrite En in IN |- *. cbn [numbered rev] in *. rewrite inss_new; [|right; discriminate|].
  2:{ intros p I. rewrite En. apply IN. apply in_or_app. now left. }
  cbn [inss]. pose proof (sc_new _ _ _ _ _ _ _ _ _ _ _ H 0%nat s) as Z. rewrite En in Z. rewrite (Z eq_refl). cbn [e_create andb app].
  split.
  - apply Forall_app. split; [apply both_fst|repeat constructor].
  - rewrite map_app, rev_app_distr, both_rev. reflexivity.
Qed.

(** ** The replacements *)
Lemma in_reps : forall l p t, In (p, t) (reps l) <->
  exists i s, In (i, s) l /\ In p (pos s) /\ t = TCreatedVar (name ++ S_ "[" ++ number_show i ++ S_ "]").
Proof.
  intros l p t. unfold reps. rewrite in_concat. split.
  - intros (x & Ix & It). apply in_map_iff in Ix. destruct Ix as ([i s] & <- & Is). apply in_map_iff in It.
    destruct It as (q & E & Iq). injection E as <- <-. exists i, s. auto.
  - intros (i & s & I & J & ->). exists (map (fun q => (q, TCreatedVar (name ++ S_ "[" ++ number_show i ++ S_ "]"))) (pos s)).
    split; [apply in_map_iff; exists (i, s); auto|]. apply in_map_iff. exists p. auto.
Qed.

Lemma pos_in : forall s p, In p (pos s) <-> exists t, nth_error all p = Some (TString t) /\ content t = s /\ eligible all filter ignore p.
Proof.
  intros s p. unfold pos. rewrite occ_in, Nat.sub_0_r. split.
  - intros (_ & t & A & B). destruct t; try discriminate B. cbn [hit] in B. apply andb_prop in B. destruct B as [B C].
    apply andb_prop in B. destruct B as [B D]. apply str_eqb_eq in B. exists s0. split; [exact A|]. split; [exact B|].
    split; [|exact C]. intro I. apply negb_true_iff in D. 
    assert (X : existsb (Nat.eqb p) ignore = true) by (apply existsb_exists; exists p; split; [exact I|apply Nat.eqb_refl]).
    congruence.
  - intros (t & A & B & C & D). split; [lia|]. exists (TString t). split; [exact A|]. cbn [hit]. rewrite B, str_eqb_refl, D.
    replace (existsb (Nat.eqb p) ignore) with false; [reflexivity|]. symmetry. destruct (existsb (Nat.eqb p) ignore) eqn:X; [|reflexivity].
    apply existsb_exists in X. destruct X as (q & I & E). apply Nat.eqb_eq in E. subst q. contradiction.
Qed.

Lemma apply_replace_spec : forall l toks,
  (forall p t, In (p, t) l -> (p < length toks)%nat) ->
  (forall p t t', In (p, t) l -> In (p, t') l -> t = t') ->
  exists toks', apply_replace l toks = Ok toks' /\ length toks' = length toks
    /\ (forall p t, In (p, t) l -> nth_error toks' p = Some t)
    /\ (forall p, ~ In p (map fst l) -> nth_error toks' p = nth_error toks p).
Proof.
  induction l as [|[p t] l IH]; intros toks B F.
  { exists toks. split; [reflexivity|]. split; [reflexivity|]. split; [intros ? ? []|reflexivity]. }
  cbn [apply_replace]. pose proof (B p t (or_introl eq_refl)) as Lp. unfold set_index.
  rewrite (proj2 (Nat.ltb_lt _ _)) by exact Lp. cbn [obind].
  destruct (IH (update toks p t)) as (toks' & A & L & C & D).
  - intros q u I. rewrite update_length. apply (B q u). now right.
  - intros q u u' I I'. apply (F q); now right.
  - rewrite update_length in L. exists toks'. split; [exact A|]. split; [exact L|]. split.
    + intros q u [E|I]; [|exact (C q u I)]. injection E as <- <-.
      destruct (in_dec Nat.eq_dec p (map fst l)) as [I|I].
      * apply in_map_iff in I. destruct I as ([p' u'] & E & I). cbn in E. subst p'. rewrite (C p u' I). f_equal.
        apply (F p); [now right|now left].
      * rewrite (D p I), nth_update by exact Lp. rewrite Nat.eqb_refl. reflexivity.
    + intros q I. cbn [map fst In] in I. rewrite D by tauto. rewrite nth_update by exact Lp.
      destruct (Nat.eqb_spec q p) as [->|N]; [tauto|reflexivity].
Qed.

Let L := rev (numbered (length olds) news) ++ old_part.

Lemma L_in : forall i s, In (i, s) L <-> In s valid /\ i = index_of m s.
Proof.
  intros i s. unfold L. rewrite in_app_iff, <- in_rev, old_part_in, <- news_numbered, !in_map_iff.
  rewrite (sc_valid _ _ _ _ _ _ _ _ _ _ _ H), in_app_iff. split.
  - intros [(u & E & I)|(u & E & I)]; injection E as <- <-; auto.
  - intros [[I|I] ->]; [right|left]; exists s; auto.
Qed.

Lemma replaced : exists ts', apply_replace (reps L) all = Ok ts' /\ length ts' = length all
  /\ forall i t, nth_error all i = Some t ->
     exists t', nth_error ts' i = Some t' /\ indexed all filter ignore name (olds ++ news) i t t'.
Proof.
  destruct (apply_replace_spec (reps L) all) as (ts' & A & Ln & C & D).
  - intros p t I. apply in_reps in I. destruct I as (i & s & _ & J & _). apply pos_in in J. destruct J as (x & J & _).
    apply nth_error_Some. congruence.
  - intros p t t' I I'. apply in_reps in I. destruct I as (i & s & I & J & ->). apply in_reps in I'.
    destruct I' as (i' & s' & I' & J' & ->). apply pos_in in J, J'. destruct J as (x & J & <- & _). destruct J' as (x' & J' & <- & _).
    rewrite J in J'. injection J' as <-. apply L_in in I, I'. destruct I as [_ ->]. destruct I' as [_ ->]. reflexivity.
  - exists ts'. split; [exact A|]. split; [exact Ln|]. intros i t Ht.
    destruct (in_dec Nat.eq_dec i (map fst (reps L))) as [I|I].
    + apply in_map_iff in I. destruct I as ([i' t'] & E & I). cbn in E. subst i'. exists t'. split; [exact (C i t' I)|].
      apply in_reps in I. destruct I as (j & s & I & J & ->). apply pos_in in J. destruct J as (x & J & Ex & El).
      rewrite J in Ht. injection Ht as <-. apply L_in in I. destruct I as [I ->].
      destruct (valid_entry s I) as (k & K1 & K2 & _). rewrite K2. apply ix_element; [exact El|]. rewrite Ex. exact K1.
    + exists t. split; [rewrite (D i I); exact Ht|]. apply ix_other. intros x -> [El In_]. apply I. apply in_map_iff.
      assert (Iv : In (content x) valid) by (apply in_valid; apply in_app_or; exact In_).
      exists (i, TCreatedVar (name ++ S_ "[" ++ number_show (index_of m (content x)) ++ S_ "]")). split; [reflexivity|].
      apply in_reps. exists (index_of m (content x)), (content x). split; [apply L_in; auto|]. split; [|reflexivity].
      apply pos_in. exists x. auto.
Qed.

Lemma uses_pos : forall s, uses all filter ignore s = length (pos s).
Proof.
  intro s. unfold uses, pos.
  assert (X : forall r pre, (forall i, nth_error r i = nth_error all (pre + i)) ->
    length (List.filter (fun i => match nth_error all i with
      | Some (TString t) => str_eqb (content t) s && negb (existsb (Nat.eqb i) ignore) && filter all i
      | _ => false end) (seq pre (length r))) = length (occ all filter ignore s pre r)).
  { induction r as [|t r IH]; intros pre E; [reflexivity|]. cbn [length seq List.filter occ].
    pose proof (E 0%nat) as E0. rewrite Nat.add_0_r in E0. cbn [nth_error] in E0. rewrite <- E0.
    rewrite app_length, <- IH.
    2:{ intro i. specialize (E (S i)). cbn [nth_error] in E. rewrite E. f_equal. lia. }
    destruct t; cbn [hit]; try reflexivity.
    match goal with |- length (if ?c then _ else _) = _ => destruct c end; reflexivity. }
  apply X. reflexivity.
Qed.

Lemma aggregated_array : forall ts', length ts' = length all ->
  (forall i t, nth_error all i = Some t ->
     exists t', nth_error ts' i = Some t' /\ indexed all filter ignore name (olds ++ news) i t t') ->
  array_aggregation all filter ignore name olds news ts'.
Proof.
  intros ts' A B. constructor; [exact A|exact B| | | |].
  - exact (sc_news _ _ _ _ _ _ _ _ _ _ _ H).
  - exact (sc_not_old _ _ _ _ _ _ _ _ _ _ _ H).
  - intros k s I. rewrite uses_pos. destruct (sc_pays _ _ _ _ _ _ _ _ _ _ _ H k s I) as [C D]. split; [exact C|].
    unfold pays_b, worth_array in D. apply Nat.ltb_lt in D. exact D.
  - intros s I J. rewrite uses_pos. intro Two. destruct (sc_left _ _ _ _ _ _ _ _ _ _ _ H s I J Two) as (k & C & D).
    exists k. split; [exact C|]. unfold pays_b, worth_array in D. apply Nat.ltb_ge in D. unfold pays_array, pos. lia.
Qed.

End Result.
