(** Aggregation of strings into an array: the search for the array, and the theorems. *)
From Coq Require Import String List NArith ZArith Bool Lia ZifyBool ZifyN Arith Permutation Sorting.Sorted.
From Verif Require Import Base JsModel JsUtilModel JsUtilSpec JsUtilProofs JsUtilProofs2 JsAggModel
  JsAggProofs1 JsAggProofs3 JsArrSpec JsArrProofs1 JsArrProofs2.
Import ListNotations.
Open Scope N_scope.

(** ** get_array *)
Lemma is_blank_eq : forall t, is_blank t = blank t.
Proof. intros []; try reflexivity. Qed.

Section Array.
Variable name : str.

Definition astep (st : array_state) (t : token) : array_state :=
  match st with
  | LookingForVar => match t with
      | TOther s => if str_eqb s name then LookingForEqual else Idle
      | _ => if is_blank t then LookingForVar else Idle
      end
  | LookingForEqual => match t with TOperation Equal => LookingForStart | _ => if is_blank t then LookingForEqual else Idle end
  | LookingForStart => match t with TChar OpenBracket => GettingValues | _ => if is_blank t then LookingForStart else Idle end
  | GettingValues => GettingValues
  | Idle => match t with TKeyword KLet | TKeyword KVar => LookingForVar | _ => Idle end
  end.

Lemma loop_step : forall st pos ret t r, st <> GettingValues ->
  array_loop name st pos ret (t :: r) = array_loop name (astep st t) (S pos) ret r.
Proof.
  intros st pos ret t r N. destruct st; try contradiction; cbn [array_loop astep]; destruct t; try reflexivity.
  - destruct k; reflexivity.
  - destruct o; reflexivity.
  - destruct c; reflexivity.
Qed.

Definition state_inv (st : array_state) (pre : list token) : Prop :=
  match st with
  | Idle => True
  | LookingForVar => exists p kw b1, (kw = KLet \/ kw = KVar) /\ blanks b1 /\ pre = p ++ TKeyword kw :: b1
  | LookingForEqual => exists p kw b1 b2, (kw = KLet \/ kw = KVar) /\ blanks b1 /\ blanks b2
      /\ pre = p ++ TKeyword kw :: b1 ++ TOther name :: b2
  | LookingForStart => exists p kw b1 b2 b3, (kw = KLet \/ kw = KVar) /\ blanks b1 /\ blanks b2 /\ blanks b3
      /\ pre = p ++ TKeyword kw :: b1 ++ TOther name :: b2 ++ TOperation Equal :: b3
  | GettingValues => exists p h, array_head name h /\ pre = p ++ h
  end.

Lemma blanks_snoc : forall b t, blanks b -> is_blank t = true -> blanks (b ++ [t]).
Proof. intros b t H E. apply Forall_app. split; [exact H|]. rewrite is_blank_eq in E. repeat constructor. exact E. Qed.

Lemma step_inv : forall st pre t, st <> GettingValues -> state_inv st pre -> state_inv (astep st t) (pre ++ [t]).
Proof.
  intros st pre t N H.
  assert (KW : forall kw, (kw = KLet \/ kw = KVar) -> t = TKeyword kw -> state_inv LookingForVar (pre ++ [t])).
  { intros kw K ->. exists pre, kw, []. split; [exact K|]. split; [constructor|reflexivity]. }
  assert (BL : forall st', (is_blank t = true -> state_inv st' (pre ++ [t])) -> state_inv (if is_blank t then st' else Idle) (pre ++ [t])).
  { intros st' X. destruct (is_blank t); [now apply X|exact I]. }
  destruct st; try contradiction; cbn [astep].
  - destruct t; try exact I. destruct k; try exact I; [apply (KW KLet)|apply (KW KVar)]; auto.
  - destruct H as (p & kw & b1 & K & B1 & ->).
    assert (B : is_blank t = true -> state_inv LookingForVar ((p ++ TKeyword kw :: b1) ++ [t])).
    { intro E. exists p, kw, (b1 ++ [t]). split; [exact K|]. split; [now apply blanks_snoc|]. rewrite <- app_assoc. reflexivity. }
    destruct t; try (apply BL; exact B). destruct (str_eqb s name) eqn:E; [|exact I]. apply str_eqb_eq in E. subst s.
    exists p, kw, b1, []. split; [exact K|]. split; [exact B1|]. split; [constructor|]. rewrite <- app_assoc. reflexivity.
  - destruct H as (p & kw & b1 & b2 & K & B1 & B2 & ->).
    assert (B : is_blank t = true -> state_inv LookingForEqual ((p ++ TKeyword kw :: b1 ++ TOther name :: b2) ++ [t])).
    { intro E. exists p, kw, b1, (b2 ++ [t]). split; [exact K|]. split; [exact B1|]. split; [now apply blanks_snoc|].
      repeat (rewrite <- app_assoc; cbn [app]). reflexivity. }
    destruct t; try (apply BL; exact B). destruct o; try (apply BL; exact B).
    exists p, kw, b1, b2, []. split; [exact K|]. split; [exact B1|]. split; [exact B2|]. split; [constructor|].
    repeat (rewrite <- app_assoc; cbn [app]). reflexivity.
  - destruct H as (p & kw & b1 & b2 & b3 & K & B1 & B2 & B3 & ->).
    assert (B : is_blank t = true -> state_inv LookingForStart ((p ++ TKeyword kw :: b1 ++ TOther name :: b2 ++ TOperation Equal :: b3) ++ [t])).
    { intro E. exists p, kw, b1, b2, (b3 ++ [t]). split; [exact K|]. split; [exact B1|]. split; [exact B2|]. split; [now apply blanks_snoc|].
      repeat (rewrite <- app_assoc; cbn [app]). reflexivity. }
    destruct t; try (apply BL; exact B). destruct c; try (apply BL; exact B).
    exists p, (TKeyword kw :: b1 ++ TOther name :: b2 ++ TOperation Equal :: b3 ++ [TChar OpenBracket]). split.
    + exists kw, b1, b2, b3. auto.
    + repeat (rewrite <- app_assoc; cbn [app]). reflexivity.
Qed.

(** Positions of the tokens that are not blank. *)
Fixpoint items (p : nat) (l : list token) : list nat :=
  match l with
  | [] => []
  | t :: r => (if blank t then [] else [p]) ++ items (S p) r
  end.

Lemma getting : forall body pos ret tail, ~ In (TChar CloseBracket) body ->
  array_loop name GettingValues pos ret (body ++ TChar CloseBracket :: tail)
  = Some (ret ++ items pos body, (pos + length body)%nat).
Proof.
  induction body as [|t body IH]; intros pos ret tail N; cbn [app array_loop items length].
  - rewrite app_nil_r, Nat.add_0_r. reflexivity.
  - assert (Nt : t <> TChar CloseBracket) by (intros ->; apply N; now left).
    assert (Nb : ~ In (TChar CloseBracket) body) by (intro X; apply N; now right).
    assert (E : array_loop name GettingValues (S pos) (if is_blank t then ret else ret ++ [pos]) (body ++ TChar CloseBracket :: tail)
      = Some (ret ++ (if blank t then [] else [pos]) ++ items (S pos) body, (pos + S (length body))%nat)).
    { rewrite IH by exact Nb. rewrite is_blank_eq. replace (S pos + length body)%nat with (pos + S (length body))%nat by lia.
      destruct (blank t); [reflexivity|]. rewrite <- app_assoc. reflexivity. }
    destruct t; try exact E. destruct c; try exact E. contradiction.
Qed.

Lemma getting_inv : forall r pos ret x e, array_loop name GettingValues pos ret r = Some (x, e) ->
  exists body tail, r = body ++ TChar CloseBracket :: tail /\ ~ In (TChar CloseBracket) body.
Proof.
  induction r as [|t r IH]; intros pos ret x e E; cbn [array_loop] in E; [discriminate|].
  assert (C : t = TChar CloseBracket \/ array_loop name GettingValues (S pos) (if is_blank t then ret else ret ++ [pos]) r = Some (x, e) /\ t <> TChar CloseBracket).
  { destruct t; try (right; split; [exact E|discriminate]). destruct c; try (right; split; [exact E|discriminate]). now left. }
  destruct C as [->|[C N]].
  - exists [], r. split; [reflexivity|intros []].
  - destruct (IH _ _ _ _ C) as (body & tail & -> & Nb). exists (t :: body), tail. split; [reflexivity|].
    intros [X|X]; [congruence|contradiction].
Qed.

Lemma loop_sound : forall r st pre x e, st <> GettingValues -> state_inv st pre ->
  array_loop name st (length pre) [] r = Some (x, e) ->
  exists p h body tail, pre ++ r = p ++ h ++ body ++ TChar CloseBracket :: tail /\ array_head name h
    /\ ~ In (TChar CloseBracket) body /\ x = items (length p + length h) body /\ e = (length p + length h + length body)%nat.
Proof.
  induction r as [|t r IH]; intros st pre x e N Iv E; [destruct st; discriminate E|].
  rewrite (loop_step st _ _ _ _ N) in E. pose proof (step_inv st pre t N Iv) as J.
  assert (Ln : S (length pre) = length (pre ++ [t])) by (rewrite app_length; cbn; lia). rewrite Ln in E.
  assert (D : astep st t = GettingValues \/ astep st t <> GettingValues) by (destruct (astep st t); auto; right; discriminate).
  replace (pre ++ t :: r) with ((pre ++ [t]) ++ r) by (rewrite <- app_assoc; reflexivity).
  destruct D as [D|D]; [|exact (IH _ _ _ _ D J E)].
  rewrite D in *. destruct J as (p & h & Hh & Ep). rewrite Ep in *. pose proof E as E'. apply getting_inv in E'.
  destruct E' as (body & tail & -> & Nb). rewrite getting in E by exact Nb. rewrite app_length in E. cbn [app] in E.
  injection E as <- <-. exists p, h, body, tail. rewrite <- app_assoc. auto.
Qed.

Lemma get_array_sound : forall ts x e, get_array ts name = Some (x, e) ->
  exists p h body tail, ts = p ++ h ++ body ++ TChar CloseBracket :: tail /\ array_head name h
    /\ ~ In (TChar CloseBracket) body /\ x = items (length p + length h) body /\ e = (length p + length h + length body)%nat.
Proof. intros ts x e E. apply (loop_sound ts Idle [] x e); [discriminate|exact I|exact E]. Qed.

(** Reading the head. *)
Lemma run_blanks : forall st b pos ret r, blanks b -> (st = LookingForVar \/ st = LookingForEqual \/ st = LookingForStart) ->
  array_loop name st pos ret (b ++ r) = array_loop name st (pos + length b) ret r.
Proof.
  intros st b pos ret r B S'. revert pos. induction B as [|t b T B IH]; intro pos; cbn [app length]; [rewrite Nat.add_0_r; reflexivity|].
  rewrite loop_step by (destruct S' as [-> | [-> | ->]]; discriminate).
  replace (astep st t) with st.
  - rewrite IH. f_equal. lia.
  - destruct S' as [-> | [-> | ->]]; destruct t; try discriminate T; cbn [astep]; rewrite ?is_blank_eq; cbn [blank] in *; rewrite ?T; try reflexivity.
    destruct c; try discriminate T; reflexivity.
Qed.

Lemma run_head : forall h pos ret r, array_head name h ->
  array_loop name Idle pos ret (h ++ r) = array_loop name GettingValues (pos + length h) ret r.
Proof.
  intros h pos ret r (kw & b1 & b2 & b3 & K & -> & B1 & B2 & B3).
  cbn [app]. rewrite loop_step by discriminate.
  replace (astep Idle (TKeyword kw)) with LookingForVar by (destruct K as [->| ->]; reflexivity).
  rewrite <- app_assoc. rewrite run_blanks by auto. cbn [app]. rewrite loop_step by discriminate. cbn [astep]. rewrite str_eqb_refl.
  rewrite <- app_assoc. rewrite run_blanks by auto. cbn [app]. rewrite loop_step by discriminate. cbn [astep].
  rewrite <- app_assoc. rewrite run_blanks by auto. cbn [app]. rewrite loop_step by discriminate. cbn [astep].
  f_equal. cbn [length]. repeat (rewrite app_length; cbn [length]). lia.
Qed.

Lemma get_array_found : forall ts pre head body tail, uninterrupted name ts -> array_at name ts pre head body tail ->
  get_array ts name = Some (items (length pre + length head) body, (length pre + length head + length body)%nat).
Proof.
  intros ts pre head body tail U [Sp Hh Nb Fi].
  assert (X : forall r p st, ts = p ++ r ++ head ++ body ++ TChar CloseBracket :: tail -> pre = p ++ r ->
    st <> GettingValues -> state_inv st p ->
    array_loop name st (length p) [] (r ++ head ++ body ++ TChar CloseBracket :: tail)
    = Some (items (length pre + length head) body, (length pre + length head + length body)%nat)).
  { induction r as [|t r IH]; intros p st Et Ep N Iv.
    - cbn [app] in *. rewrite app_nil_r in Ep. subst p.
      assert (st = Idle).
      { destruct Hh as (kw & c1 & c2 & c3 & K & -> & _). 
        assert (Z : forall p0 l, begun name l -> pre = p0 ++ l -> False).
        { intros p0 l Bl ->. apply (U p0 l kw ((c1 ++ TOther name :: c2 ++ TOperation Equal :: c3 ++ [TChar OpenBracket])
            ++ body ++ TChar CloseBracket :: tail) Bl K). rewrite Sp. rewrite <- app_assoc. reflexivity. }
        destruct st; [reflexivity| | | |contradiction]; exfalso.
        - destruct Iv as (p0 & k0 & b1 & K0 & B1 & E0). apply (Z p0 _ ) in E0; [exact E0|].
          exists k0, b1, [], []. repeat (split; [first [assumption|constructor]|]). auto.
        - destruct Iv as (p0 & k0 & b1 & b2 & K0 & B1 & B2 & E0). apply (Z p0 _ ) in E0; [exact E0|].
          exists k0, b1, b2, []. split; [exact K0|]. split; [exact B1|]. split; [exact B2|]. split; [constructor|]. auto.
        - destruct Iv as (p0 & k0 & b1 & b2 & b3 & K0 & B1 & B2 & B3 & E0). apply (Z p0 _ ) in E0; [exact E0|].
          exists k0, b1, b2, b3. auto 10. }
      subst st. rewrite run_head by exact Hh. rewrite getting by exact Nb. reflexivity.
    - cbn [app]. rewrite (loop_step st _ _ _ _ N). pose proof (step_inv st p t N Iv) as J.
      replace (S (length p)) with (length (p ++ [t])) by (rewrite app_length; cbn; lia).
      apply IH.
      + rewrite <- app_assoc. exact Et.
      + rewrite <- app_assoc. exact Ep.
      + intro G. rewrite G in J. destruct J as (p0 & h0 & Hh0 & E0).
        assert (Q : ts = p0 ++ h0 ++ r ++ head ++ body ++ TChar CloseBracket :: tail).
        { rewrite app_assoc, <- E0, <- app_assoc. exact Et. }
        pose proof (Fi _ _ _ Q Hh0) as Le. rewrite Ep in Le.
        assert (0 < length h0)%nat by (destruct Hh0 as (? & ? & ? & ? & _ & -> & _); cbn; lia).
        apply (f_equal (@length token)) in E0. rewrite !app_length in E0. rewrite app_length in Le. cbn [length] in *. lia.
      + exact J. }
  unfold get_array. rewrite Sp at 1. apply (X pre [] Idle); [exact Sp|reflexivity|discriminate|exact I].
Qed.

End Array.

(** ** Insertions *)
Lemma insert_same : forall l b toks, Forall (fun x => fst x = b) l -> (b <= length toks)%nat ->
  apply_insert l toks = Ok (firstn b toks ++ rev (map snd l) ++ skipn b toks).
Proof.
  induction l as [|[b' t] l IH]; intros b toks F Le; cbn [apply_insert map rev].
  - cbn [app]. rewrite firstn_skipn. reflexivity.
  - inversion F as [|? ? E F']; subst. cbn [fst] in *. unfold insert_at. rewrite (proj2 (Nat.leb_le _ _)) by exact Le.
    cbn [obind snd].
    assert (Lf : length (firstn b' toks) = b') by (apply firstn_length_le; exact Le).
    rewrite (IH b') by (first [exact F'|rewrite app_length, Lf; cbn; lia]).
    rewrite firstn_app, skipn_app, Lf, Nat.sub_diag. cbn [firstn skipn]. rewrite firstn_firstn, Nat.min_id, app_nil_r.
    rewrite (skipn_all2 (firstn b' toks)) by lia. rewrite <- app_assoc. reflexivity.
Qed.

Lemma apply_insert_app : forall a b toks, apply_insert (a ++ b) toks = obind (apply_insert a toks) (apply_insert b).
Proof.
  induction a as [|[p t] a IH]; intros b toks; [reflexivity|]. cbn [app apply_insert].
  destruct (insert_at toks p t); cbn [obind]; [apply IH|reflexivity..].
Qed.

(** ** The state after the scan *)
Lemma scan_result : forall ts name filter cur m0 v0 ig ap m valid,
  existing_loop ts cur [] [] [] 0 = Ok (m0, v0, ig, ap) ->
  array_scan ts name filter ig 0 ts m0 v0 ap = Ok (m, valid) ->
  ig = string_positions ts cur /\ (forall s, In s v0 <-> In s (strings_at ts cur))
  /\ exists news ap', scanned ts filter ig name v0 (strings_at ts cur) ts m valid ap' news.
Proof.
  intros ts name filter cur m0 v0 ig ap m valid E1 E2.
  apply (existing_spec ts cur []) in E1; cbn [app length In] in *.
  - destruct E1 as (-> & ND & V & -> & O & NO). split; [reflexivity|]. split; [exact V|].
    apply (array_scan_spec ts filter _ name v0 (strings_at ts cur) ts [] m0 v0 _ [] m valid V) in E2; [exact E2|].
    constructor; cbn [occ length In app].
    + rewrite app_nil_r. reflexivity.
    + constructor.
    + intros s [].
    + rewrite Nat.add_0_r. reflexivity.
    + exact O.
    + intros k s Q. destruct k; discriminate.
    + intros s Q _. apply NO. exact Q.
    + intros k s Q. destruct k; discriminate.
    + lia.
  - constructor.
  - intro s. split; auto.
  - reflexivity.
  - intros s [].
  - reflexivity.
Qed.

Lemma mget_valid : forall ts filter ig name v0 olds news m valid ap,
  (forall s, In s v0 <-> In s olds) -> scanned ts filter ig name v0 olds ts m valid ap news ->
  forall s, In s valid -> mget m s <> None.
Proof.
  intros ts filter ig name v0 olds news m valid ap V H s I.
  destruct (valid_entry _ _ _ _ _ _ _ _ _ _ V H s I) as (k & _ & _ & c & ->). discriminate.
Qed.

(** ** No dependence on the order *)
Lemma array_order : forall o1 o2 : (forall A : Type, list A -> list A),
  (forall A (l : list A), Permutation (o1 A l) l) -> (forall A (l : list A), Permutation (o2 A l) l) ->
  forall ts name sep filter,
  aggregate_strings_into_array_inner o1 ts name sep filter = aggregate_strings_into_array_inner o2 ts name sep filter.
Proof.
  intros o1 o2 P1 P2 ts name sep filter. unfold aggregate_strings_into_array_inner.
  destruct (match get_array ts name with Some (s, p) => (s, false, p) | None => ([], true, 0%nat) end) as [[cur nr] eb].
  destruct (existing_loop ts cur [] [] [] 0) as [[[[m0 v0] ig] ap]| | |] eqn:E1; try reflexivity. cbn [obind].
  destruct (array_scan ts name filter ig 0 ts m0 v0 ap) as [[m valid]| | |] eqn:E2; try reflexivity. cbn [obind].
  destruct (scan_result _ _ _ _ _ _ _ _ _ _ E1 E2) as (_ & V & news & ap' & H).
  pose proof (mget_valid _ _ _ _ _ _ _ _ _ _ V H) as MV.
  rewrite (with_index_spec m (o1 _ valid)), (with_index_spec m (o2 _ valid)).
  2,3: intros s I; apply MV; [eapply Permutation_in; [|exact I]; first [apply P1|apply P2]].
  cbn [obind]. change (fun a b : N * str => fst b <=? fst a) with desc.
  rewrite (sorted_elements _ _ _ _ _ _ _ _ _ _ V H (o1 _ valid) (P1 _ _)).
  rewrite (sorted_elements _ _ _ _ _ _ _ _ _ _ V H (o2 _ valid) (P2 _ _)). reflexivity.
Qed.

Section Main.
Variable order : forall A : Type, list A -> list A.
Hypothesis order_perm : forall A (l : list A), Permutation (order A l) l.

Lemma same_tokens : forall (a b : list token), length a = length b ->
  (forall i t, nth_error a i = Some t -> nth_error b i = Some t) -> a = b.
Proof.
  induction a as [|x a IH]; intros [|y b] L E; try discriminate; [reflexivity|].
  pose proof (E 0%nat x eq_refl) as E0. cbn in E0. injection E0 as ->. f_equal. apply IH; [now injection L|].
  intros i t Ht. exact (E (S i) t Ht).
Qed.

(** No array of that name. *)
Lemma array_new : forall ts name sep filter, Forall quoted_token ts ->
  (forall p h r, ts = p ++ h ++ r -> array_head name h -> ~ In (TChar CloseBracket) r) ->
  exists news ts',
    aggregate_strings_into_array_inner order ts name sep filter
    = Ok (match news with
          | [] => ts
          | _ => array_declaration name news ++ (match sep with Some t => [t] | None => [] end) ++ ts'
          end)
    /\ array_aggregation ts filter [] name [] news ts'.
Proof.
  intros ts name sep filter Q NA. unfold aggregate_strings_into_array_inner.
  assert (G : get_array ts name = None).
  { destruct (get_array ts name) as [[x e]|] eqn:G; [|reflexivity]. exfalso. apply get_array_sound in G.
    destruct G as (p & h & body & tail & E & Hh & _). apply (NA p h _ E Hh). apply in_or_app. right. now left. }
  rewrite G. cbn [existing_loop obind].
  destruct (array_scan_total ts filter [] name ts [] [] 0 0 Q) as (m & valid & E2). rewrite E2. cbn [obind].
  destruct (scan_result ts name filter [] [] [] [] 0 m valid eq_refl E2) as (_ & V & news & ap' & H).
  change (strings_at ts []) with (@nil str) in *.
  pose proof (mget_valid _ _ _ _ _ _ _ _ _ _ V H) as MV.
  rewrite (with_index_spec m (order _ valid)) by (intros s I; apply MV; eapply Permutation_in; [apply order_perm|exact I]).
  cbn [obind]. change (fun a b : N * str => fst b <=? fst a) with desc.
  rewrite (sorted_elements _ _ _ _ _ _ _ _ _ _ V H (order _ valid) (order_perm _ _)).
  destruct (replaced _ _ _ _ _ _ _ _ _ _ V H) as (ts' & R1 & R2 & R3).
  exists news, ts'. split; [|exact (aggregated_array _ _ _ _ _ _ _ _ _ _ V H ts' R2 R3)].
  rewrite (edits_eq _ _ _ _ _ _ _ _ _ _ V H).
  2:{ intros [i s] I. apply (L_in _ _ _ _ _ _ _ _ _ _ V H) in I. exact (proj1 I). }
  cbn [obind]. rewrite R1. cbn [obind andb].
  destruct (inserted_first _ _ _ _ _ _ _ _ _ _ H 2 eq_refl) as [F Rv].
  destruct news as [|s0 news0].
  - cbn [numbered rev app map old_part sort] in *. cbn [app apply_insert inss]. f_equal. symmetry. apply same_tokens; [auto|].
    intros i t Ht. destruct (R3 i t Ht) as (t' & A & B). rewrite A. f_equal. inversion B; subst; [|reflexivity].
    destruct k; discriminate.
  - set (news := s0 :: news0) in *.
    assert (NE : exists x l, rev (numbered (@length str []) news) ++ old_part [] m = x :: l).
    { cbn [old_part map sort]. rewrite app_nil_r. destruct (rev (numbered (@length str []) news)) as [|x l] eqn:Er; [|eauto].
      apply (f_equal (@length _)) in Er. rewrite rev_length in Er. discriminate. }
    destruct NE as (x & l & NE). rewrite NE in *.
    rewrite apply_insert_app.
    set (hd := (match sep with Some t => [(0%nat, t)] | None => [] end) ++ [(0%nat, TChar SemiColon); (0%nat, TChar CloseBracket); (0%nat, TChar OpenBracket);
          (0%nat, TCreatedVarDecl (S_ "var " ++ name ++ S_ "="))]).
    rewrite (insert_same hd 0 ts').
    2:{ unfold hd. destruct sep; repeat constructor. }
    2:{ lia. }
    cbn [firstn skipn app obind].
    assert (Eh : rev (map snd hd) = [TCreatedVarDecl (S_ "var " ++ name ++ S_ "="); TChar OpenBracket; TChar CloseBracket; TChar SemiColon]
      ++ match sep with Some t => [t] | None => [] end) by (unfold hd; destruct sep; reflexivity).
    rewrite Eh. rewrite (insert_same _ 2) by (first [exact F|cbn; lia]). rewrite Rv.
    cbn [app firstn skipn]. unfold array_declaration. repeat (cbn [app]; rewrite <- app_assoc). reflexivity.
Qed.

End Main.

(** ** An existing array of literals *)
Definition literals (l : list token) : list str :=
  concat (map (fun t => match t with TString x => [content x] | _ => [] end) l).

Lemma items_strings : forall body front rest,
  strings_at (front ++ body ++ rest) (items (length front) body)
  = literals (List.filter (fun t => negb (blank t)) body).
Proof.
  induction body as [|t body IH]; intros front rest; [reflexivity|]. cbn [items List.filter].
  pose proof (IH (front ++ [t]) rest) as E. rewrite <- app_assoc in E. cbn [app] in E.
  replace (length (front ++ [t])) with (S (length front)) in E by (rewrite app_length; cbn; lia).
  destruct (blank t) eqn:B; cbn [negb app].
  - exact E.
  - unfold strings_at, literals in *. cbn [map concat]. cbn [app] in E. rewrite E. f_equal.
    unfold string_at. rewrite nth_error_app2, Nat.sub_diag by lia. reflexivity.
Qed.

Lemma items_in : forall body p i, In i (items p body) <->
  exists t, (p <= i)%nat /\ nth_error body (i - p) = Some t /\ blank t = false.
Proof.
  induction body as [|t body IH]; intros p i; cbn [items].
  - split; [intros []|]. intros (u & _ & H & _). destruct (i - p)%nat; discriminate.
  - rewrite in_app_iff, IH. split.
    + intros [H|(u & A & B & C)].
      * destruct (blank t) eqn:E; [destruct H|]. destruct H as [->|[]]. exists t. rewrite Nat.sub_diag. auto.
      * exists u. replace (i - p)%nat with (S (i - S p)) by lia. split; [lia|auto].
    + intros (u & A & B & C). destruct (Nat.eq_dec i p) as [->|N].
      * left. rewrite Nat.sub_diag in B. injection B as ->. rewrite C. now left.
      * right. exists u. replace (i - p)%nat with (S (i - S p)) in B by lia. split; [lia|auto].
Qed.

Lemma items_nil : forall body p, items p body = [] <-> blanks body.
Proof.
  induction body as [|t body IH]; intro p; cbn [items].
  - split; [constructor|reflexivity].
  - split.
    + intro H. apply app_eq_nil in H. destruct H as [A B]. constructor; [destruct (blank t); [reflexivity|discriminate]|]. now apply (IH (S p)).
    + intro H. inversion H as [|? ? A B]; subst. rewrite A. apply IH. exact B.
Qed.

Lemma values_literals : forall l ss, values l ss -> (forall x, ~ In (TCreatedVar x) l) -> literals l = ss.
Proof.
  induction 1 as [t s V|t s l ss V H IH]; intro N; unfold literals; cbn [map concat].
  - destruct V; [reflexivity|]. exfalso. eapply N. left. reflexivity.
  - destruct V; [|exfalso; eapply N; left; reflexivity]. cbn [app]. f_equal. apply IH. intros x I. apply (N x). right. now right.
Qed.

Lemma values_ne : forall l ss, values l ss -> ss <> [].
Proof. intros l ss []; discriminate. Qed.

Lemma blanks_filter : forall l, blanks l -> List.filter (fun t => negb (blank t)) l = [].
Proof. induction 1 as [|t l H F IH]; [reflexivity|]. cbn [List.filter]. rewrite H. exact IH. Qed.

Lemma values_app : forall l ss, values l ss -> forall news, values (l ++ appended news) (ss ++ news).
Proof.
  intros l ss H news. revert l ss H. induction news as [|s news IH]; intros l ss H.
  { unfold appended. cbn. rewrite !app_nil_r. exact H. }
  assert (X : values (l ++ [TChar Comma; element s]) (ss ++ [s])).
  { induction H as [t u V|t u l ss V H' IH']; cbn [app].
    - apply vs_more; [exact V|]. apply vs_one. constructor.
    - apply vs_more; [exact V|]. exact IH'. }
  apply IH in X. unfold appended in *. cbn [map concat]. rewrite <- !app_assoc in X. cbn [app] in *. exact X.
Qed.

Lemma filter_appended : forall news, List.filter (fun t => negb (blank t)) (appended news) = appended news.
Proof. induction news as [|s news IH]; [reflexivity|]. unfold appended in *. cbn. rewrite IH. reflexivity. Qed.

Definition added (olds news : list str) : list token := match olds with [] => listed news | _ => appended news end.

Lemma entries_added : forall body olds news, entries body olds -> entries (body ++ added olds news) (olds ++ news).
Proof.
  intros body olds news [[B ->]|V].
  - destruct news as [|s news]; cbn [added listed app].
    + left. rewrite app_nil_r. auto.
    + right. rewrite filter_app, (blanks_filter body B). cbn [app List.filter blank negb element]. rewrite filter_appended.
      exact (values_app _ _ (vs_one (element s) s (va_element s)) news).
  - right. pose proof (values_ne _ _ V) as Ne.
    assert (E : added olds news = appended news) by (destruct olds; [contradiction|reflexivity]).
    rewrite E, filter_app, filter_appended. now apply values_app.
Qed.

Lemma nth_skipn : forall A (l : list A) n i, nth_error (skipn n l) i = nth_error l (n + i).
Proof.
  intros A l n. revert l. induction n as [|n IH]; intros l i; [reflexivity|]. destruct l as [|x l]; cbn [skipn Nat.add nth_error].
  - destruct i; reflexivity.
  - apply IH.
Qed.

Lemma skipn_skipn : forall A a b (l : list A), skipn a (skipn b l) = skipn (a + b) l.
Proof.
  intros A a b. revert a. induction b as [|b IH]; intros a l; [rewrite Nat.add_0_r; reflexivity|].
  destruct l as [|x l]; [rewrite !skipn_nil; reflexivity|]. rewrite Nat.add_succ_r. cbn [skipn]. apply IH.
Qed.

Lemma nth_firstn : forall A n (l : list A) i, (i < n)%nat -> nth_error (firstn n l) i = nth_error l i.
Proof.
  intros A n. induction n as [|n IH]; intros l i L; [lia|]. destruct l as [|x l]; [reflexivity|]. destruct i as [|i]; [reflexivity|].
  cbn [firstn nth_error]. apply IH. lia.
Qed.

(** The positions that are not replaced may be given in another way. *)
Lemma aggregation_old : forall ts filter old old' name olds news ts',
  (forall i t, nth_error ts i = Some (TString t) -> In i old <-> In i old') ->
  array_aggregation ts filter old name olds news ts' -> array_aggregation ts filter old' name olds news ts'.
Proof.
  intros ts filter old old' name olds news ts' E H.
  assert (U : forall s, uses ts filter old s = uses ts filter old' s).
  { intro s. unfold uses. f_equal. apply filter_ext_in. intros i _. destruct (nth_error ts i) as [[]|] eqn:N; try reflexivity.
    f_equal. f_equal. f_equal. apply eq_true_iff_eq. rewrite !existsb_exists. specialize (E _ _ N).
    split; intros (x & I & Q); apply Nat.eqb_eq in Q; subst x; exists i; (split; [tauto|apply Nat.eqb_refl]). }
  destruct H as [A B C D F G]. constructor; try assumption.
  - intros i t Ht. destruct (B i t Ht) as (t' & X & Y). exists t'. split; [exact X|]. destruct Y as [x k [El1 El2] Nk|t NO].
    + apply ix_element; [|exact Nk]. split; [|exact El2]. rewrite <- (E i x Ht). exact El1.
    + apply ix_other. intros x -> [[El1 El2] In_]. apply (NO x eq_refl). split; [|exact In_]. split; [|exact El2].
      rewrite (E i x Ht). exact El1.
  - intros k s N. rewrite <- U. exact (F k s N).
  - intros s N1 N2. rewrite <- U. exact (G s N1 N2).
Qed.

Section Main2.
Variable order : forall A : Type, list A -> list A.
Hypothesis order_perm : forall A (l : list A), Permutation (order A l) l.

Lemma array_existing : forall ts name sep filter pre head body tail olds, Forall quoted_token ts ->
  uninterrupted name ts -> array_at name ts pre head body tail ->
  entries body olds -> (forall x, ~ In (TCreatedVar x) body) ->
  exists news front back,
    aggregate_strings_into_array_inner order ts name sep filter
    = Ok (front ++ body ++ added olds news ++ TChar CloseBracket :: back)
    /\ length front = length (pre ++ head)
    /\ array_aggregation ts filter (seq (length (pre ++ head)) (length body)) name olds news
         (front ++ body ++ TChar CloseBracket :: back).
Proof.
  intros ts name sep filter pre head body tail olds Q U AT En NC. unfold aggregate_strings_into_array_inner.
  rewrite (get_array_found name ts pre head body tail U AT). destruct AT as [Sp Hh Nb _].
  set (off := (length pre + length head)%nat). assert (Eo : off = length (pre ++ head)) by (rewrite app_length; reflexivity).
  assert (Sp' : ts = (pre ++ head) ++ body ++ TChar CloseBracket :: tail) by (rewrite <- app_assoc; exact Sp).
  set (cur := items off body).
  assert (ES : strings_at ts cur = olds).
  { unfold cur. rewrite Eo, Sp', items_strings. destruct En as [[B ->]|V]; [rewrite (blanks_filter _ B); reflexivity|].
    apply (values_literals _ _ V). intros x I. apply filter_In in I. exact (NC x (proj1 I)). }
  assert (BD : Forall (fun p => (p < length ts)%nat) cur).
  { apply Forall_forall. intros i I. apply items_in in I. destruct I as (t & A & B & _).
    assert (i - off < length body)%nat by (apply nth_error_Some; congruence).
    rewrite Sp', !app_length. unfold off in *. lia. }
  destruct (existing_total ts cur [] [] [] 0 Q BD) as ([[[m0 v0] ig] ap] & E1). rewrite E1. cbn [obind].
  destruct (array_scan_total ts filter ig name ts m0 v0 ap 0 Q) as (m & valid & E2). rewrite E2. cbn [obind].
  destruct (scan_result ts name filter cur m0 v0 ig ap m valid E1 E2) as (Ei & V & news & ap' & H). rewrite ES in *.
  pose proof (mget_valid _ _ _ _ _ _ _ _ _ _ V H) as MV.
  rewrite (with_index_spec m (order _ valid)) by (intros s I; apply MV; eapply Permutation_in; [apply order_perm|exact I]).
  cbn [obind]. change (fun a b : N * str => fst b <=? fst a) with desc.
  rewrite (sorted_elements _ _ _ _ _ _ _ _ _ _ V H (order _ valid) (order_perm _ _)).
  destruct (replaced _ _ _ _ _ _ _ _ _ _ V H) as (ts' & R1 & R2 & R3).
  cbn [andb app]. rewrite (edits_eq _ _ _ _ _ _ _ _ _ _ V H).
  2:{ intros [i s] I. apply (L_in _ _ _ _ _ _ _ _ _ _ V H) in I. exact (proj1 I). }
  cbn [obind]. rewrite R1. cbn [obind].
  pose proof (aggregated_array _ _ _ _ _ _ _ _ _ _ V H ts' R2 R3) as AA.
  (* the array itself is unchanged *)
  assert (SAME : forall i t, nth_error (body ++ [TChar CloseBracket]) i = Some t -> nth_error ts' (off + i) = Some t).
  { intros i t Ht.
    assert (Hts : nth_error ts (off + i) = Some t).
    { rewrite Sp', nth_error_app2 by lia. rewrite <- Eo. replace (off + i - off)%nat with i by lia.
      replace (body ++ TChar CloseBracket :: tail) with ((body ++ [TChar CloseBracket]) ++ tail) by (rewrite <- app_assoc; reflexivity).
      rewrite nth_error_app1; [exact Ht|]. apply nth_error_Some. congruence. }
    destruct (R3 _ _ Hts) as (t' & A & B). rewrite A. f_equal. inversion B as [x k [El1 El2] Nk E3 E4|]; subst; [|reflexivity].
    exfalso. apply El1. unfold string_positions. apply filter_In. rewrite Hts. split; [|reflexivity]. apply items_in.
    exists (TString x). split; [lia|]. replace (off + i - off)%nat with i by lia. split; [|reflexivity].
    destruct (Nat.lt_ge_cases i (length body)) as [Lt|Ge].
    - rewrite nth_error_app1 in Ht by exact Lt. exact Ht.
    - rewrite nth_error_app2 in Ht by exact Ge. destruct (i - length body)%nat as [|[|]]; discriminate. }
  assert (Lts : length ts' = (off + (length body + S (length tail)))%nat).
  { rewrite R2, Sp', !app_length. cbn [length]. unfold off. lia. }
  set (front := firstn off ts'). set (back := skipn (off + S (length body)) ts').
  assert (Lf : length front = off) by (apply firstn_length_le; lia).
  assert (Mid : firstn (S (length body)) (skipn off ts') = body ++ [TChar CloseBracket]).
  { symmetry. apply same_tokens.
    - rewrite firstn_length, skipn_length, app_length. cbn [length]. lia.
    - intros i t Ht. assert (i < S (length body))%nat.
      { assert (i < length (body ++ [TChar CloseBracket]))%nat by (apply nth_error_Some; congruence). rewrite app_length in *. cbn in *. lia. }
      rewrite nth_firstn by assumption. rewrite nth_skipn. exact (SAME i t Ht). }
  assert (Ets : ts' = front ++ body ++ TChar CloseBracket :: back).
  { rewrite <- (firstn_skipn off ts') at 1. fold front. f_equal. rewrite <- (firstn_skipn (S (length body)) (skipn off ts')), Mid.
    rewrite skipn_skipn, <- app_assoc. cbn [app]. f_equal. f_equal. unfold back. f_equal. lia. }
  exists news, front, back. split; [|split].
  - set (eb := (off + length body)%nat).
    assert (Fb : firstn eb ts' = front ++ body).
    { rewrite Ets, app_assoc. rewrite firstn_app, firstn_all2 by (rewrite app_length; lia).
      replace (eb - length (front ++ body))%nat with 0%nat by (rewrite app_length; lia). apply app_nil_r. }
    assert (Sb : skipn eb ts' = TChar CloseBracket :: back).
    { rewrite Ets, app_assoc. rewrite skipn_app, skipn_all2 by (rewrite app_length; lia).
      replace (eb - length (front ++ body))%nat with 0%nat by (rewrite app_length; lia). reflexivity. }
    assert (Leb : (eb <= length ts')%nat) by lia.
    destruct cur as [|c0 cur0] eqn:Ec.
    + assert (olds = []) by (rewrite <- ES; reflexivity). subst olds.
      assert (Ev : v0 = []) by (destruct v0 as [|z v0']; [reflexivity|]; exfalso; apply (proj1 (V z)); now left).
      destruct (inserted_first _ _ _ _ _ _ _ _ _ _ H eb Ev) as [F Rv].
      rewrite (insert_same _ eb ts' F Leb), Rv, Fb, Sb. cbn [added]. rewrite <- !app_assoc. reflexivity.
    + assert (Ea : added olds news = appended news).
      { destruct olds; [|reflexivity]. exfalso. destruct En as [[B _]|Vs]; [|exact (values_ne _ _ Vs eq_refl)].
        apply (items_nil body off) in B. unfold cur in Ec. congruence. }
      destruct (inserted_more _ _ _ _ _ _ _ _ _ _ V H eb) as [F Rv].
      rewrite (insert_same _ eb ts' F Leb), Rv, Fb, Sb, Ea. rewrite <- !app_assoc. reflexivity.
  - rewrite Lf. exact Eo.
  - rewrite <- Ets. apply (aggregation_old ts filter ig); [|exact AA].
    intros i t Ht. rewrite Ei. unfold string_positions. rewrite filter_In, Ht, in_seq, <- Eo. unfold cur. rewrite items_in. split.
    + intros [(u & A & B & _) _]. assert (i - off < length body)%nat by (apply nth_error_Some; congruence). lia.
    + intros [A B]. split; [|reflexivity]. exists (TString t). split; [exact A|]. split; [|reflexivity].
      rewrite Sp', nth_error_app2 in Ht by lia. rewrite <- Eo in Ht. rewrite nth_error_app1 in Ht by lia. exact Ht.
Qed.

End Main2.
