(** Aggregation of strings into variables: the result. *)
From Coq Require Import String List NArith ZArith Bool Lia ZifyBool ZifyN Arith Permutation Sorting.Sorted.
From Verif Require Import Base JsModel JsUtilModel JsUtilSpec JsUtilProofs JsUtilProofs2 JsAggModel JsAggSpec
  JsAggProofs1 JsAggProofs2.
Import ListNotations.
Open Scope N_scope.

(** ** Sorting *)

Lemma insert_perm : forall A (leb : A -> A -> bool) x l, Permutation (insert_sorted leb x l) (x :: l).
Proof.
  induction l as [|y l IH]; cbn [insert_sorted]; [reflexivity|]. destruct (leb x y); [reflexivity|].
  rewrite IH. apply perm_swap.
Qed.

Lemma sort_perm : forall A (leb : A -> A -> bool) l, Permutation (sort leb l) l.
Proof.
  induction l as [|x l IH]; cbn [sort]; [reflexivity|]. rewrite insert_perm, IH. reflexivity.
Qed.

Section Sorting.
Context {A : Type} (leb : A -> A -> bool) (P : A -> Prop).
Hypothesis total : forall x y, P x -> P y -> leb x y = true \/ leb y x = true.
Hypothesis trans : forall x y z, P x -> P y -> P z -> leb x y = true -> leb y z = true -> leb x z = true.

Let R x y := leb x y = true.

Lemma insert_sorts : forall x l, P x -> Forall P l -> StronglySorted R l -> StronglySorted R (insert_sorted leb x l).
Proof.
  induction l as [|y l IH]; intros Px F H; cbn [insert_sorted]; [repeat constructor|].
  inversion F as [|? ? Py Fl]; subst. inversion H as [|? ? Hl Hy]; subst.
  destruct (leb x y) eqn:E.
  - constructor; [exact H|]. constructor; [exact E|]. rewrite Forall_forall in *. intros z Iz.
    apply (trans x y z); auto. now apply Hy.
  - constructor; [now apply IH|]. rewrite Forall_forall. intros z Iz.
    apply (Permutation_in _ (insert_perm _ _ _ _)) in Iz. destruct Iz as [<-|Iz].
    + destruct (total x y); [auto|auto|congruence|assumption].
    + rewrite Forall_forall in Hy. now apply Hy.
Qed.

Lemma sort_sorts : forall l, Forall P l -> StronglySorted R (sort leb l).
Proof.
  induction l as [|x l IH]; intro F; cbn [sort]; [constructor|]. inversion F; subst.
  apply insert_sorts; auto. rewrite Forall_forall in *. intros z Iz.
  apply (Permutation_in _ (sort_perm _ _ _)) in Iz. auto.
Qed.

Hypothesis antisym : forall x y, P x -> P y -> leb x y = true -> leb y x = true -> x = y.

Lemma sorted_unique : forall l l', Forall P l -> StronglySorted R l -> StronglySorted R l' -> Permutation l l' -> l = l'.
Proof.
  induction l as [|x l IH]; intros l' F H H' E.
  - apply Permutation_nil in E. congruence.
  - destruct l' as [|y l']; [apply Permutation_sym, Permutation_nil in E; discriminate|].
    inversion F as [|? ? Px Fl]; subst. inversion H as [|? ? Hl Hx]; subst. inversion H' as [|? ? Hl' Hy]; subst.
    assert (F' : Forall P (y :: l')).
    { rewrite Forall_forall. intros z Iz. apply (Permutation_in _ (Permutation_sym E)) in Iz.
      rewrite Forall_forall in F. auto. }
    inversion F' as [|? ? Py Fl']; subst.
    assert (x = y).
    { assert (Ix : In x (y :: l')) by (apply (Permutation_in _ E); left; reflexivity).
      assert (Iy : In y (x :: l)) by (apply (Permutation_in _ (Permutation_sym E)); left; reflexivity).
      destruct Ix as [->|Ix]; [reflexivity|]. destruct Iy as [->|Iy]; [reflexivity|].
      rewrite Forall_forall in Hx, Hy. apply antisym; auto; [now apply Hx|now apply Hy]. }
    subst y. f_equal. apply IH; auto. eapply Permutation_cons_inv; eauto.
Qed.

Lemma sort_unique : forall l l', Forall P l -> Permutation l l' -> sort leb l = sort leb l'.
Proof.
  intros l l' F E.
  assert (F' : Forall P l').
  { rewrite Forall_forall in *. intros z Iz. apply F. apply (Permutation_in _ (Permutation_sym E)). exact Iz. }
  apply sorted_unique; [|now apply sort_sorts|now apply sort_sorts|].
  - rewrite Forall_forall in *. intros z Iz. apply F. exact (Permutation_in _ (sort_perm _ leb l) Iz).
  - rewrite !sort_perm. exact E.
Qed.

End Sorting.

Lemma bytes_total : forall a b, bytes_leb a b = true \/ bytes_leb b a = true.
Proof.
  induction a as [|x a IH]; intros [|y b]; cbn [bytes_leb]; auto.
  destruct (N.ltb_spec x y), (N.ltb_spec y x); auto.
Qed.

Lemma bytes_trans : forall a b c, bytes_leb a b = true -> bytes_leb b c = true -> bytes_leb a c = true.
Proof.
  induction a as [|x a IH]; intros [|y b] [|z c]; cbn [bytes_leb]; auto; try discriminate.
  destruct (N.ltb_spec x y), (N.ltb_spec y x), (N.ltb_spec y z), (N.ltb_spec z y), (N.ltb_spec x z), (N.ltb_spec z x);
    try discriminate; try lia; auto. apply IH.
Qed.

Lemma bytes_antisym : forall a b, bytes_leb a b = true -> bytes_leb b a = true -> a = b.
Proof.
  induction a as [|x a IH]; intros [|y b]; cbn [bytes_leb]; auto; try discriminate.
  destruct (N.ltb_spec x y), (N.ltb_spec y x); try discriminate; try lia.
  intros A B. f_equal; [lia|]. now apply IH.
Qed.

(** ** Replacing *)

Lemma set_index_at : forall A (pre : list A) t r x, set_index (pre ++ t :: r) (length pre) x = Ok (pre ++ x :: r).
Proof.
  intros. unfold set_index. replace (Nat.ltb (length pre) (length (pre ++ t :: r))) with true.
  2:{ symmetry. apply Nat.ltb_lt. rewrite app_length. cbn. lia. }
  f_equal. induction pre as [|a pre IH]; [reflexivity|]. cbn [app length update]. rewrite IH. reflexivity.
Qed.

Lemma replace_where : forall f x ts pre,
  replace_all (pre ++ ts) (where_ f (length pre) ts) x = Ok (pre ++ map (fun t => if f t then x else t) ts).
Proof.
  induction ts as [|t r IH]; intro pre; [reflexivity|]. cbn [where_ map].
  assert (X : forall u, replace_all (pre ++ u :: r) (where_ f (S (length pre)) r) x
    = Ok (pre ++ u :: map (fun t => if f t then x else t) r)).
  { intro u. specialize (IH (pre ++ [u])). rewrite app_length, Nat.add_1_r, <- !app_assoc in IH. exact IH. }
  destruct (f t); cbn [app].
  - cbn [replace_all]. rewrite set_index_at. cbn [obind]. apply X.
  - apply X.
Qed.

Lemma nth_where : forall f ts p q l, where_ f q ts = p :: l ->
  exists t, nth_error ts (p - q) = Some t /\ f t = true.
Proof.
  induction ts as [|t r IH]; intros p q l H; [discriminate|]. cbn [where_] in H. destruct (f t) eqn:F.
  - cbn [app] in H. injection H as <- _. rewrite Nat.sub_diag. exists t. auto.
  - cbn [app] in H. assert (Q : (S q <= p)%nat).
    { clear IH F t. revert q H. induction r as [|t r IH]; intros q H; [discriminate|]. cbn [where_] in H.
      destruct (f t); [injection H as <- _; lia|]. apply IH in H. lia. }
    destruct (IH _ _ _ H) as (u & U & Fu). exists u. split; [|exact Fu].
    replace (p - q)%nat with (S (p - S q)) by lia. exact U.
Qed.

Definition put (s x : str) (t : token) : token := if is_lit s t then TCreatedVar x else t.

Fixpoint put_all (vs : list (str * str)) (t : token) : token :=
  match vs with [] => t | (s, x) :: r => put_all r (put s x t) end.

Fixpoint decls (first : bool) (vs : list (str * str)) : list token :=
  match vs with
  | [] => []
  | (s, x) :: r => (if first then TKeyword KVar else TChar Comma) :: TCreatedVarDecl (x ++ S_ "=" ++ s) :: decls false r
  end.

Lemma declare_loop_spec : forall vs nv tokens, NoDup (map fst vs) ->
  (forall s x, In (s, x) vs -> where_ (is_lit s) 0 tokens <> []) ->
  declare_loop (map (fun p => (snd p, where_ (is_lit (fst p)) 0 tokens)) vs) nv tokens
  = Ok (nv ++ decls (match nv with [] => true | _ => false end) vs, map (put_all vs) tokens).
Proof.
  induction vs as [|[s x] vs IH]; intros nv tokens D H.
  - cbn. rewrite app_nil_r, map_id. reflexivity.
  - cbn [map fst snd declare_loop decls put_all]. inversion D as [|? ? Ns D']; subst.
    destruct (where_ (is_lit s) 0 tokens) as [|p0 ps] eqn:W; [exfalso; apply (H s x); [left; reflexivity|exact W]|].
    destruct (nth_where _ _ _ _ _ W) as (t & Et & Ft). rewrite Nat.sub_0_r in Et. apply is_lit_eq in Ft. subst t.
    unfold index at 1. cbn [nth_error obind]. unfold index. rewrite Et. cbn [obind]. rewrite <- W.
    pose proof (replace_where (is_lit s) (TCreatedVar x) tokens []) as R. cbn [app length] in R. rewrite R. cbn [obind].
    change (fun t => if is_lit s t then TCreatedVar x else t) with (put s x).
    assert (Same : forall s', s' <> s -> where_ (is_lit s') 0 (map (put s x) tokens) = where_ (is_lit s') 0 tokens).
    { intros s' N'. rewrite where_map. apply where_ext. intros t _. unfold put.
      destruct (is_lit s t) eqn:L; [|reflexivity]. apply is_lit_eq in L. subst t. cbn [is_lit].
      symmetry. apply str_eqb_neq. congruence. }
    assert (NE : forall s' x', In (s', x') vs -> s' <> s).
    { intros s' x' I ->. apply Ns. apply (in_map fst) in I. exact I. }
    replace (map (fun p => (snd p, where_ (is_lit (fst p)) 0 tokens)) vs)
      with (map (fun p => (snd p, where_ (is_lit (fst p)) 0 (map (put s x) tokens))) vs).
    2:{ apply map_ext_in. intros [s' x'] I. cbn [fst snd]. rewrite Same by (eapply NE; exact I). reflexivity. }
    rewrite IH; [|exact D'|].
    + rewrite map_map. f_equal. f_equal. rewrite <- app_assoc. destruct nv; cbn [app];
        unfold token_show; cbn [token_chunks concat]; rewrite app_nil_r; reflexivity.
    + intros s' x' I. rewrite Same by (eapply NE; exact I). apply (H s' x'). right. exact I.
Qed.

Lemma put_all_created : forall vs x, put_all vs (TCreatedVar x) = TCreatedVar x.
Proof. induction vs as [|[s y] vs IH]; intro x; [reflexivity|]. cbn [put_all put is_lit]. apply IH. Qed.

Lemma put_all_other : forall vs t, (forall s, t <> TString s) -> put_all vs t = t.
Proof.
  induction vs as [|[s y] vs IH]; intros t H; [reflexivity|]. cbn [put_all]. unfold put.
  destruct (is_lit s t) eqn:L; [apply is_lit_eq in L; exfalso; exact (H s L)|]. now apply IH.
Qed.

Lemma put_all_string : forall vs s, put_all vs (TString s)
  = match mget vs s with Some x => TCreatedVar x | None => TString s end.
Proof.
  induction vs as [|[s' y] vs IH]; intro s; [reflexivity|]. cbn [put_all mget]. unfold put. cbn [is_lit].
  destruct (str_eqb s s') eqn:E; [apply put_all_created|apply IH].
Qed.

Lemma collect_spec : forall ts st used values vs, scan_ok used values ts st -> incl vs (validated st) ->
  collect_positions (strs st) vs = Ok (map (fun p => (snd p, where_ (is_lit (fst p)) 0 ts)) vs).
Proof.
  intros ts st used values vs H. induction vs as [|[s x] vs IH]; intro I; [reflexivity|].
  cbn [collect_positions map fst snd].
  destruct (so_valid _ _ _ _ H s x) as (A & B & _); [apply I; left; reflexivity|].
  rewrite (so_strs _ _ _ _ H). unfold where_opt. rewrite A.
  destruct (where_ (is_lit s) 0 ts) as [|p l] eqn:W; [cbn in B; lia|].
  rewrite IH by (intros y Iy; apply I; right; exact Iy). reflexivity.
Qed.

(** ** Copying names *)

Lemma nth_update : forall A (l : list A) i x j, (i < length l)%nat ->
  nth_error (update l i x) j = if Nat.eqb j i then Some x else nth_error l j.
Proof.
  induction l as [|a l IH]; intros i x j H; [cbn in H; lia|]. destruct i as [|i]; cbn [update].
  - destruct j; reflexivity.
  - destruct j as [|j]; [reflexivity|]. cbn [nth_error]. rewrite IH by (cbn in H; lia). reflexivity.
Qed.

Lemma update_length : forall A (l : list A) i x, length (update l i x) = length l.
Proof. induction l as [|a l IH]; intros [|i] x; cbn; auto. Qed.

Lemma copy_spec : forall l toks, NoDup (map fst l) ->
  (forall p v, In (p, v) l -> (p < length toks)%nat /\ (v < length toks)%nat /\ ~ In v (map fst l)) ->
  exists toks', copy_loop l toks = Ok toks' /\ length toks' = length toks
    /\ (forall p v, In (p, v) l -> nth_error toks' p = nth_error toks v)
    /\ (forall p, ~ In p (map fst l) -> nth_error toks' p = nth_error toks p).
Proof.
  induction l as [|[p v] l IH]; intros toks D H.
  { exists toks. split; [reflexivity|]. split; [reflexivity|]. split; [intros ? ? []|reflexivity]. }
  cbn [map fst] in D. inversion D as [|? ? Np D']; subst.
  destruct (H p v) as (Lp & Lv & Nv); [left; reflexivity|].
  cbn [copy_loop]. destruct (index_in toks v Lv) as (t & Et & ->). cbn [obind]. unfold set_index.
  replace (Nat.ltb p (length toks)) with true by (symmetry; now apply Nat.ltb_lt). cbn [obind].
  destruct (IH (update toks p t) D') as (toks' & E & L & A & B).
  { intros p' v' I. rewrite update_length. destruct (H p' v') as (Lp' & Lv' & Nv'); [right; exact I|].
    split; [exact Lp'|]. split; [exact Lv'|]. intro X. apply Nv'. right. exact X. }
  exists toks'. split; [exact E|]. split; [rewrite L, update_length; reflexivity|]. split.
  - intros p' v' [I|I].
    + injection I as <- <-. rewrite (B p Np), nth_update by exact Lp. rewrite Nat.eqb_refl. symmetry. exact Et.
    + rewrite (A p' v' I), nth_update by exact Lp. destruct (H p' v') as (_ & _ & Nv'); [right; exact I|].
      destruct (Nat.eqb_spec v' p); [|reflexivity]. exfalso. apply Nv'. left. cbn. congruence.
  - intros p' N'. cbn [map fst In] in N'. rewrite (B p') by tauto. rewrite nth_update by exact Lp.
    destruct (Nat.eqb_spec p' p); [|reflexivity]. exfalso. apply N'. left. congruence.
Qed.

Lemma copies_in : forall values ts q p v, In (p, v) (copies values q ts) <->
  exists s k, (q <= p)%nat /\ nth_error ts (p - q) = Some (TString s) /\ mget values s = Some (v, k) /\ p <> k.
Proof.
  induction ts as [|t r IH]; intros q p v; cbn [copies].
  - split; [intros []|]. intros (s & k & _ & H & _). destruct (p - q)%nat; discriminate.
  - rewrite in_app_iff, IH. split.
    + intros [H|(s & k & A & B & C & D)].
      * destruct t; try (destruct H; fail). destruct (mget values s) as [[v0 k]|] eqn:M; [|destruct H].
        destruct (Nat.eqb_spec q k) as [->|N]; [destruct H|]. destruct H as [H|[]]. injection H as <- <-.
        exists s, k. rewrite Nat.sub_diag. auto.
      * exists s, k. split; [lia|]. split; [|auto]. replace (p - q)%nat with (S (p - S q)) by lia. exact B.
    + intros (s & k & A & B & C & D). destruct (Nat.eq_dec p q) as [->|N].
      * left. rewrite Nat.sub_diag in B. injection B as ->. rewrite C.
        destruct (Nat.eqb_spec q k); [contradiction|]. left. reflexivity.
      * right. exists s, k. split; [lia|]. split; [|auto]. replace (p - q)%nat with (S (p - S q)) in B by lia. exact B.
Qed.

Lemma copies_nodup : forall values ts q, NoDup (map fst (copies values q ts)).
Proof.
  induction ts as [|t r IH]; intro q; cbn [copies]; [constructor|]. rewrite map_app.
  assert (X : forall a, In a (map fst (copies values (S q) r)) -> (q < a)%nat).
  { intros a I. apply in_map_iff in I. destruct I as ([p v] & <- & I). apply copies_in in I.
    destruct I as (s & k & A & _). cbn. lia. }
  destruct t; try apply IH. destruct (mget values s) as [[v k]|]; [|apply IH].
  destruct (Nat.eqb q k); [apply IH|]. cbn [map fst app]. constructor; [|apply IH].
  intro I. apply X in I. lia.
Qed.

(** ** The result *)

Lemma encode_ascii : forall s, Forall (fun c => c < 0x80) s -> encode s = s.
Proof.
  induction 1 as [|c s H F IH]; [reflexivity|]. change (c :: s) with ([c] ++ s). rewrite encode_app, IH.
  f_equal. unfold encode, encode_char. cbn. replace (c <? 0x80) with true by lia. reflexivity.
Qed.

Lemma name_shape : forall i, exists l, namegen_show (nth_gen g0 i) = S_ "r_" ++ l
  /\ Forall (fun c => alnum c = true) l /\ (2 <= length l)%nat.
Proof.
  intro i. destruct (new_ok (Some (S_ "r_")) 2) as [K L].
  destruct (nth_gen_ok _ i K) as (A & B & C & D). exists (letters (nth_gen g0 i)).
  unfold namegen_show. rewrite D. split; [reflexivity|]. split; [exact A|]. lia.
Qed.

Lemma name_ascii : forall i, encode (namegen_show (nth_gen g0 i)) = namegen_show (nth_gen g0 i).
Proof.
  intro i. apply encode_ascii. destruct (name_shape i) as (l & -> & H & _). apply Forall_app. split.
  - repeat constructor.
  - eapply Forall_impl; [|exact H]. cbv beta. intros c A. unfold alnum in A. lia.
Qed.

Definition swap (p : str * str) : str * str := (snd p, fst p).

Lemma decls_declarations : forall vs,
  match decls true vs with [] => [] | _ => decls true vs ++ [TChar SemiColon] end = declarations (map swap vs).
Proof.
  intros [|[s x] vs]; [reflexivity|]. cbn [decls map swap fst snd declarations declaration app]. f_equal. f_equal.
  f_equal. induction vs as [|[s' x'] vs IH]; [reflexivity|]. cbn [decls map concat swap fst snd declaration app].
  rewrite IH. reflexivity.
Qed.

Lemma scan_start : forall used values, exists i, fresh used g0 = Ok (nth_gen g0 i)
  /\ scan_ok used values [] {| strs := []; validated := []; var_gen := nth_gen g0 i; to_replace := [] |}.
Proof.
  intros used values. destruct (fresh_spec used 0) as (i & _ & Ei & Ni & Ti). exists i. split; [exact Ei|].
  constructor; cbn.
  - intro s. unfold where_opt. destruct (mget values s); reflexivity.
  - constructor.
  - constructor.
  - exists i. split; [reflexivity|]. split; [exact Ni|]. split; [|intros s x []].
    intros k Lk. left. apply Ti; lia.
  - lia.
  - intros s x [].
  - reflexivity.
Qed.

Section Order.
Variable order : forall A : Type, list A -> list A.
Hypothesis order_perm : forall A (l : list A), Permutation (order A l) l.

Definition by_name (a b : str * str) : bool := bytes_leb (encode (snd a)) (encode (snd b)).

Lemma aggregate_spec : forall ts sep, exists vars ds ts',
  aggregate_strings_inner order ts sep
  = Ok (declarations ds ++ (match sep with Some t => [t] | None => [] end) ++ ts')
  /\ aggregation ts vars ds ts'.
Proof.
  intros ts sep. unfold aggregate_strings_inner.
  destruct (get_variables_spec ts) as (used & values & -> & U & V & W). cbn [obind].
  destruct (scan_start used values) as (i & Ei & H0). rewrite Ei. cbn [obind].
  destruct (agg_scan_spec used values ts [] _ H0) as (st & E & H). cbn [length app] in E, H. rewrite E. cbn [obind].
  set (sorted := sort _ (order _ (validated st))).
  assert (PS : Permutation sorted (validated st)) by (unfold sorted; rewrite sort_perm; apply order_perm).
  rewrite (collect_spec ts st used values sorted H).
  2:{ intros x Ix. exact (Permutation_in _ PS Ix). }
  cbn [obind].
  assert (NK : NoDup (map fst sorted)).
  { apply (Permutation_NoDup (l := map fst (validated st))); [|exact (so_keys _ _ _ _ H)].
    apply Permutation_map. symmetry. exact PS. }
  assert (NN : NoDup (map snd sorted)).
  { apply (Permutation_NoDup (l := map snd (validated st))); [|exact (so_names _ _ _ _ H)].
    apply Permutation_map. symmetry. exact PS. }
  assert (VS : forall s x, In (s, x) sorted -> In (s, x) (validated st)) by (intros s x I; exact (Permutation_in _ PS I)).
  rewrite (declare_loop_spec sorted [] ts NK).
  2:{ intros s x I. destruct (so_valid _ _ _ _ H s x (VS s x I)) as (_ & B & _).
      intro X. rewrite X in B. cbn in B. lia. }
  cbn [app obind]. rewrite decls_declarations. rewrite (so_copies _ _ _ _ H).
  destruct (copy_spec (copies values 0 ts) (map (put_all sorted) ts) (copies_nodup values ts 0)) as (ts' & Ec & Lc & A & B).
  { intros p v I. rewrite map_length. pose proof I as I'. apply copies_in in I.
    destruct I as (s & k & _ & N & G & _). rewrite Nat.sub_0_r in N.
    destruct (V s v k G) as (x & _ & (R & _) & _).
    split; [apply nth_error_Some; congruence|]. split; [apply nth_error_Some; congruence|].
    intro X. apply in_map_iff in X. destruct X as ([v' w] & Ev & X). cbn in Ev. subst v'. apply copies_in in X.
    destruct X as (s' & k' & _ & N' & _). rewrite Nat.sub_0_r in N'. congruence. }
  rewrite Ec. cbn [obind]. rewrite map_length in Lc.
  exists (mget values), (map swap sorted), ts'. split; [reflexivity|].
  assert (M1 : map fst (map swap sorted) = map snd sorted) by (rewrite map_map; reflexivity).
  assert (M2 : map snd (map swap sorted) = map fst sorted) by (rewrite map_map; reflexivity).
  assert (SW : forall x s, In (x, s) (map swap sorted) -> In (s, x) (validated st)).
  { intros x s I. apply in_map_iff in I. destruct I as ([s' x'] & Es & I). injection Es as <- <-. now apply VS. }
  destruct (so_gen _ _ _ _ H) as (gi & Gi & Gn & Gt & Gv).
  assert (TK : forall j, taken used (validated st) j ->
    program_name ts (generated j) \/ In (generated j) (map fst (map swap sorted))).
  { intros j [T|T]; [left|right].
    - apply U in T. exact T.
    - rewrite M1. apply (Permutation_in (l := map snd (validated st))); [|exact T].
      apply Permutation_map. symmetry. exact PS. }
  assert (KS : forall s, ~ In s (map fst sorted) -> ~ In s (map fst (validated st))).
  { intros s NI I. apply NI. apply (Permutation_in (l := map fst (validated st))); [|exact I].
    apply Permutation_map. symmetry. exact PS. }
  constructor; rewrite ?M1, ?M2.
  - exact V.
  - exact (fun s => proj1 (W s)).
  - exact Lc.
  - intros p t Ht.
    assert (MP : nth_error (map (put_all sorted) ts) p = Some (put_all sorted t)) by now apply map_nth_error.
    destruct t; try (exists (put_all sorted
      ltac:(match type of Ht with _ = Some ?u => exact u end)); split;
      [rewrite B; [exact MP|]; intro X; apply in_map_iff in X; destruct X as ([v' w] & Ev & X); cbn in Ev; subst v';
       apply copies_in in X; destruct X as (s' & k' & _ & N' & _); rewrite Nat.sub_0_r in N'; congruence
      |rewrite put_all_other by discriminate; apply ag_other; discriminate]).
    rewrite put_all_string in MP. destruct (mget values s) as [[n v]|] eqn:G.
    + assert (MN : mget sorted s = None).
      { apply mget_none. intro X. apply in_map_iff in X. destruct X as ([s' x'] & Es & X). cbn in Es. subst s'.
        destruct (so_valid _ _ _ _ H s x' (VS s x' X)) as (Z & _). congruence. }
      rewrite MN in MP.
      destruct (V s n v G) as (x & SF). destruct (Nat.eq_dec p v) as [->|Np].
      * exists (TString s). split.
        -- rewrite B; [exact MP|]. intro X. apply in_map_iff in X. destruct X as ([v' w] & Ev & X). cbn in Ev. subst v'.
           apply copies_in in X. destruct X as (s' & k' & _ & N' & G' & K'). rewrite Nat.sub_0_r in N'. congruence.
        -- exact (ag_value _ _ _ _ s n G).
      * destruct SF as (_ & (R & _) & _). exists (TOther x). split; [|exact (ag_variable _ _ _ _ s n v x G Np R)].
        rewrite (A p n).
        -- rewrite (map_nth_error (put_all sorted) n ts R). rewrite put_all_other by discriminate. reflexivity.
        -- apply copies_in. exists s, v. rewrite Nat.sub_0_r. split; [lia|auto].
    + assert (NC : ~ In p (map fst (copies values 0 ts))).
      { intro X. apply in_map_iff in X. destruct X as ([v' w] & Ev & X). cbn in Ev. subst v'.
        apply copies_in in X. destruct X as (s' & k' & _ & N' & G' & K'). rewrite Nat.sub_0_r in N'. congruence. }
      rewrite <- (B p NC) in MP. destruct (mget sorted s) as [x|] eqn:Ms.
      * exists (TCreatedVar x). split; [exact MP|]. apply ag_created; [exact G|].
        apply mget_in in Ms. apply (in_map swap) in Ms. exact Ms.
      * exists (TString s). split; [exact MP|]. apply ag_literal; [exact G|].
        rewrite M2. now apply mget_none.
  - exact NN.
  - exact NK.
  - intros x s I (n & v & F). apply SW in I. destruct (Gv _ _ I) as [_ Nu]. apply Nu. apply U. exists n, v. exact F.
  - intros x s I. apply SW in I. destruct (Gv _ _ I) as [(j & Lj & ->) _]. exists j. split; [reflexivity|].
    intros k Lk. apply TK. apply Gt. lia.
  - intros x s I. apply SW in I. destruct (so_valid _ _ _ _ H _ _ I) as (C0 & C1 & C2). rewrite !occurrences_where.
    split; [exact C0|]. split; [exact C1|]. unfold worth_variable in C2. apply Nat.ltb_lt in C2. exact C2.
  - intros s M NI. rewrite !occurrences_where. intro L2.
    destruct (so_left _ _ _ _ H s M (KS s NI) L2) as (j & J1 & J2). exists j.
    split; [intros k Lk; apply TK; now apply J2|]. unfold worth_variable in J1. apply Nat.ltb_ge in J1.
    unfold pays, generated. lia.
Qed.

End Order.

(** The order does not matter. *)
Lemma aggregate_order : forall o1 o2 : (forall A : Type, list A -> list A),
  (forall A (l : list A), Permutation (o1 A l) l) -> (forall A (l : list A), Permutation (o2 A l) l) ->
  forall ts sep, aggregate_strings_inner o1 ts sep = aggregate_strings_inner o2 ts sep.
Proof.
  intros o1 o2 P1 P2 ts sep. unfold aggregate_strings_inner.
  destruct (get_variables_spec ts) as (used & values & -> & _). cbn [obind].
  destruct (scan_start used values) as (i & Ei & H0). rewrite Ei. cbn [obind].
  destruct (agg_scan_spec used values ts [] _ H0) as (st & E & H). cbn [length app] in E, H. rewrite E. cbn [obind].
  match goal with |- context [sort ?f (o1 _ (validated st))] => assert (X : sort f (o1 _ (validated st)) = sort f (o2 _ (validated st))) end.
  2:{ rewrite X. reflexivity. }
  apply (sort_unique _ (fun p => In p (validated st))).
  - intros a b _ _. apply bytes_total.
  - intros a b c _ _ _. apply bytes_trans.
  - intros [s x] [s' x'] Ia Ib A B. pose proof (bytes_antisym _ _ A B) as Q. cbn [snd] in Q.
    destruct (so_gen _ _ _ _ H) as (i' & _ & _ & _ & Gv).
    destruct (Gv _ _ Ia) as [(j & _ & Ej) _]. destruct (Gv _ _ Ib) as [(k & _ & Ek) _].
    assert (X : x = x').
    { rewrite Ej, Ek in *. rewrite !name_ascii in Q. exact Q. }
    clear Ej Ek Q A B. subst x'. f_equal.
    pose proof (so_names _ _ _ _ H) as ND.
    clear - ND Ia Ib. induction (validated st) as [|[s0 x0] l IH]; [destruct Ia|]. cbn [map snd] in ND. inversion ND; subst.
    destruct Ia as [Ia|Ia], Ib as [Ib|Ib].
    + congruence.
    + exfalso. injection Ia as -> ->. apply H1. apply (in_map snd) in Ib. exact Ib.
    + exfalso. injection Ib as -> ->. apply H1. apply (in_map snd) in Ia. exact Ia.
    + now apply IH.
  - rewrite Forall_forall. intros p Ip. exact (Permutation_in _ (P1 _ _) Ip).
  - rewrite (P1 _ (validated st)). symmetry. apply P2.
Qed.
