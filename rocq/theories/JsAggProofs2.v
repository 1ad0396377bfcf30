(** Aggregation of strings into variables: the scan, the replacements. *)
From Coq Require Import String List NArith ZArith Bool Lia ZifyBool ZifyN Arith Permutation.
From Verif Require Import Base JsModel JsUtilModel JsUtilSpec JsUtilProofs JsUtilProofs2 JsAggModel JsAggSpec
  JsAggProofs1.
Import ListNotations.
Open Scope N_scope.

Definition is_lit (s : str) (t : token) : bool := match t with TString x => str_eqb x s | _ => false end.

Lemma is_lit_eq : forall s t, is_lit s t = true <-> t = TString s.
Proof.
  intros s t. destruct t; cbn [is_lit]; try (split; discriminate). rewrite str_eqb_eq. split; congruence.
Qed.

Fixpoint where_ (f : token -> bool) (pos : nat) (ts : list token) : list nat :=
  match ts with
  | [] => []
  | t :: r => (if f t then [pos] else []) ++ where_ f (S pos) r
  end.

Lemma where_app : forall f a b p, where_ f p (a ++ b) = where_ f p a ++ where_ f (p + length a) b.
Proof.
  induction a as [|t a IH]; intros b p; cbn [app where_ length]; [rewrite Nat.add_0_r; reflexivity|].
  rewrite IH, <- app_assoc. replace (S p + length a)%nat with (p + S (length a))%nat by lia. reflexivity.
Qed.

Lemma where_length : forall f ts p, length (where_ f p ts) = length (filter f ts).
Proof.
  induction ts as [|t r IH]; intro p; [reflexivity|]. cbn [where_ filter]. rewrite app_length, IH.
  destruct (f t); reflexivity.
Qed.

Lemma occurrences_where : forall ts s, occurrences ts s = length (where_ (is_lit s) 0 ts).
Proof. intros. rewrite where_length. reflexivity. Qed.

Lemma where_ext : forall f g ts p, (forall t, In t ts -> f t = g t) -> where_ f p ts = where_ g p ts.
Proof.
  induction ts as [|t r IH]; intros p H; [reflexivity|]. cbn [where_].
  rewrite (H t) by (left; reflexivity). rewrite IH; [reflexivity|]. intros u I. apply H. right. exact I.
Qed.

Lemma where_map : forall f g ts p, where_ f p (map g ts) = where_ (fun t => f (g t)) p ts.
Proof. induction ts as [|t r IH]; intro p; [reflexivity|]. cbn [map where_]. rewrite IH. reflexivity. Qed.

(** ** The scan *)

Fixpoint copies (values : list (str * (nat * nat))) (pos : nat) (ts : list token) : list (nat * nat) :=
  match ts with
  | [] => []
  | t :: r =>
      match t with
      | TString s =>
          match mget values s with
          | Some (v, k) => if Nat.eqb pos k then [] else [(pos, v)]
          | None => []
          end
      | _ => []
      end ++ copies values (S pos) r
  end.

Lemma copies_app : forall values a b p,
  copies values p (a ++ b) = copies values p a ++ copies values (p + length a) b.
Proof.
  induction a as [|t a IH]; intros b p; cbn [app copies length]; [rewrite Nat.add_0_r; reflexivity|].
  rewrite IH, <- app_assoc. replace (S p + length a)%nat with (p + S (length a))%nat by lia. reflexivity.
Qed.

Definition where_opt (values : list (str * (nat * nat))) (s : str) (pre : list token) : option (list nat) :=
  match mget values s with
  | Some _ => None
  | None => match where_ (is_lit s) 0 pre with [] => None | l => Some l end
  end.

Definition taken (used : list str) (v : list (str * str)) (k : nat) : Prop :=
  In (namegen_show (nth_gen g0 k)) used \/ In (namegen_show (nth_gen g0 k)) (map snd v).

Record scan_ok (used : list str) (values : list (str * (nat * nat))) (pre : list token) (st : agg_state) : Prop := {
  so_strs : forall s, mget (strs st) s = where_opt values s pre;
  so_keys : NoDup (map fst (validated st));
  so_names : NoDup (map snd (validated st));
  so_gen : exists i, var_gen st = nth_gen g0 i /\ ~ In (namegen_show (nth_gen g0 i)) used
    /\ (forall k, (k < i)%nat -> taken used (validated st) k)
    /\ forall s x, In (s, x) (validated st) -> (exists j, (j < i)%nat /\ x = namegen_show (nth_gen g0 j)) /\ ~ In x used;
  so_left : forall s, mget values s = None -> ~ In s (map fst (validated st)) ->
    (2 <= length (where_ (is_lit s) 0 pre))%nat ->
    exists j, worth_variable (length (where_ (is_lit s) 0 pre)) (blen s) (blen (namegen_show (nth_gen g0 j))) = false
      /\ (forall k, (k < j)%nat -> taken used (validated st) k);
  so_valid : forall s x, In (s, x) (validated st) ->
    mget values s = None /\ (2 <= length (where_ (is_lit s) 0 pre))%nat
    /\ worth_variable (length (where_ (is_lit s) 0 pre)) (blen s) (blen x) = true;
  so_copies : to_replace st = copies values 0 pre
}.

Lemma worth_more : forall n L x, worth_variable n L x = true -> worth_variable (S n) L x = true.
Proof. intros n L x H. unfold worth_variable in *. apply Nat.ltb_lt in H. apply Nat.ltb_lt. nia. Qed.

Lemma where_snoc : forall f pre t, where_ f 0 (pre ++ [t]) = where_ f 0 pre ++ (if f t then [length pre] else []).
Proof. intros. rewrite where_app. cbn [where_ Nat.add]. rewrite app_nil_r. reflexivity. Qed.

Lemma where_opt_other : forall values s pre t, is_lit s t = false ->
  where_opt values s (pre ++ [t]) = where_opt values s pre.
Proof. intros. unfold where_opt. rewrite where_snoc, H, app_nil_r. reflexivity. Qed.

Lemma valid_step : forall (values : list (str * (nat * nat))) pre t (v : list (str * str)),
  (forall s x, In (s, x) v -> mget values s = None /\ (2 <= length (where_ (is_lit s) 0 pre))%nat
    /\ worth_variable (length (where_ (is_lit s) 0 pre)) (blen s) (blen x) = true) ->
  (forall s x, In (s, x) v -> mget values s = None /\ (2 <= length (where_ (is_lit s) 0 (pre ++ [t])))%nat
    /\ worth_variable (length (where_ (is_lit s) 0 (pre ++ [t]))) (blen s) (blen x) = true).
Proof.
  intros values pre t v H s x I. destruct (H s x I) as (A & B & C). split; [exact A|].
  rewrite where_snoc, app_length. destruct (is_lit s t); cbn [length].
  - split; [lia|]. replace (length (where_ (is_lit s) 0 pre) + 1)%nat with (S (length (where_ (is_lit s) 0 pre))) by lia.
    now apply worth_more.
  - rewrite Nat.add_0_r. auto.
Qed.

Lemma left_step : forall used (values : list (str * (nat * nat))) pre t (v : list (str * str)),
  (forall s, mget values s = None -> ~ In s (map fst v) -> (2 <= length (where_ (is_lit s) 0 pre))%nat ->
    exists j, worth_variable (length (where_ (is_lit s) 0 pre)) (blen s) (blen (namegen_show (nth_gen g0 j))) = false
      /\ (forall k, (k < j)%nat -> taken used v k)) ->
  forall s, is_lit s t = false -> mget values s = None -> ~ In s (map fst v) ->
    (2 <= length (where_ (is_lit s) 0 (pre ++ [t])))%nat ->
    exists j, worth_variable (length (where_ (is_lit s) 0 (pre ++ [t]))) (blen s) (blen (namegen_show (nth_gen g0 j))) = false
      /\ (forall k, (k < j)%nat -> taken used v k).
Proof.
  intros used values pre t v H s L M I. rewrite where_snoc, L, app_nil_r. now apply H.
Qed.

Lemma agg_scan_spec : forall used values r pre st, scan_ok used values pre st ->
  exists st', agg_scan used values (length pre) r st = Ok st' /\ scan_ok used values (pre ++ r) st'.
Proof.
  induction r as [|t r IH]; intros pre st H.
  { exists st. rewrite app_nil_r. split; [reflexivity|exact H]. }
  assert (GO : forall st1, scan_ok used values (pre ++ [t]) st1 ->
    exists st', agg_scan used values (S (length pre)) r st1 = Ok st' /\ scan_ok used values (pre ++ t :: r) st').
  { intros st1 H1. destruct (IH (pre ++ [t]) st1 H1) as (st' & A & B). exists st'.
    rewrite app_length in A. cbn [length] in A. rewrite Nat.add_1_r in A. rewrite <- app_assoc in B. auto. }
  cbn [agg_scan]. destruct H as [Hs Hk Hn Hg Hl Hv Hc].
  destruct (get_string_of t) as [s|] eqn:Gs.
  2:{ assert (NL : forall s, is_lit s t = false) by (intro s; destruct t; try reflexivity; discriminate Gs).
      apply GO. constructor; [|exact Hk|exact Hn|exact Hg|intro s; exact (left_step _ _ _ _ _ Hl s (NL s))|now apply valid_step|].
      - intro s. rewrite where_opt_other by apply NL. apply Hs.
      - rewrite copies_app, <- Hc. destruct t; try (rewrite app_nil_r; reflexivity). discriminate Gs. }
  destruct t; try discriminate Gs. injection Gs as ->.
  destruct (mget values s) as [[vp sp]|] eqn:V.
  - assert (Hl' : forall s', mget values s' = None -> is_lit s' (TString s) = false).
    { intros s' M. destruct (is_lit s' (TString s)) eqn:Li; [|reflexivity]. apply is_lit_eq in Li. injection Li as ->. congruence. }
    apply GO. destruct (Nat.eqb (length pre) sp) eqn:Sp.
    + constructor; [|exact Hk|exact Hn|exact Hg|intros s' M; exact (left_step _ _ _ _ _ Hl s' (Hl' s' M) M)|now apply valid_step|].
      * intro s'. destruct (is_lit s' (TString s)) eqn:Li; [|rewrite where_opt_other by exact Li; apply Hs].
        apply is_lit_eq in Li. injection Li as ->. rewrite Hs. unfold where_opt. rewrite V. reflexivity.
      * rewrite copies_app, <- Hc. cbn [copies Nat.add]. rewrite V, Sp. cbn [app]. rewrite app_nil_r. reflexivity.
    + constructor; cbn [strs validated var_gen to_replace]; [|exact Hk|exact Hn|exact Hg|intros s' M; exact (left_step _ _ _ _ _ Hl s' (Hl' s' M) M)|now apply valid_step|].
      * intro s'. destruct (is_lit s' (TString s)) eqn:Li; [|rewrite where_opt_other by exact Li; apply Hs].
        apply is_lit_eq in Li. injection Li as ->. rewrite Hs. unfold where_opt. rewrite V. reflexivity.
      * rewrite copies_app, <- Hc. cbn [copies Nat.add]. rewrite V, Sp. reflexivity.
  - set (x := (match mget (strs st) s with Some l => l | None => [] end) ++ [length pre]).
    assert (Ex : x = where_ (is_lit s) 0 (pre ++ [TString s])).
    { unfold x. rewrite Hs. unfold where_opt. rewrite V, where_snoc. cbn [is_lit]. rewrite str_eqb_refl.
      destruct (where_ (is_lit s) 0 pre); reflexivity. }
    assert (Hs' : forall s', mget (mset (strs st) s x) s' = where_opt values s' (pre ++ [TString s])).
    { intro s'. rewrite mget_mset. destruct (str_eqb s' s) eqn:Es.
      - apply str_eqb_eq in Es. subst s'. unfold where_opt. rewrite V, <- Ex.
        unfold x. destruct (mget (strs st) s) as [[|]|]; reflexivity.
      - rewrite where_opt_other; [apply Hs|]. cbn [is_lit]. apply str_eqb_neq. apply str_eqb_neq in Es. congruence. }
    assert (Hc' : to_replace st = copies values 0 (pre ++ [TString s])).
    { rewrite copies_app, <- Hc. cbn [copies]. rewrite V. cbn [app]. rewrite app_nil_r. reflexivity. }
    destruct (Nat.ltb 1 (length x) && match mget (validated st) s with Some _ => false | None => true end
      && worth_variable (length x) (blen s) (blen (namegen_show (var_gen st)))) eqn:W.
    + apply andb_prop in W. destruct W as [W W3]. apply andb_prop in W. destruct W as [W1 W2].
      destruct (mget (validated st) s) eqn:Mv; [discriminate|]. apply Nat.ltb_lt in W1.
      destruct Hg as (i & Gi & Gu & Gt & Gv). rewrite Gi in *.
      change (namegen_next (nth_gen g0 i)) with (nth_gen g0 (S i)).
      destruct (fresh_spec used (S i)) as (j & Lj & -> & Nj & Tj). cbn [obind].
      apply GO. rewrite (mset_absent _ _ _ _ Mv).
      assert (IN : forall s' x', In (s', x') (validated st ++ [(s, namegen_show (nth_gen g0 i))]) ->
         In (s', x') (validated st) \/ (s' = s /\ x' = namegen_show (nth_gen g0 i))).
      { intros s' x' I. apply in_app_or in I. destruct I as [I|[I|[]]]; [auto|]. injection I as <- <-. auto. }
      assert (TK : forall k, taken used (validated st) k -> taken used (validated st ++ [(s, namegen_show (nth_gen g0 i))]) k).
      { intros k [T|T]; [now left|right]. rewrite map_app. apply in_or_app. now left. }
      constructor; cbn [strs validated var_gen to_replace]; [exact Hs'| | | | | |exact Hc'].
      * rewrite map_app. cbn [map fst]. apply NoDup_rev in Hk. rewrite <- (rev_involutive (map fst (validated st) ++ [s])).
        apply NoDup_rev. rewrite rev_app_distr. cbn [rev app]. constructor; [|exact Hk].
        rewrite <- in_rev. now apply mget_none.
      * rewrite map_app. cbn [map snd]. apply NoDup_rev in Hn.
        rewrite <- (rev_involutive (map snd (validated st) ++ [namegen_show (nth_gen g0 i)])).
        apply NoDup_rev. rewrite rev_app_distr. cbn [rev app]. constructor; [|exact Hn].
        rewrite <- in_rev. intro I. apply in_map_iff in I. destruct I as ([s' x'] & E & I). cbn [snd] in E. subst x'.
        destruct (Gv _ _ I) as [(k & Lk & Ek) _]. apply names_distinct in Ek. lia.
      * exists j. split; [reflexivity|]. split; [exact Nj|]. split.
        { intros k Lk. destruct (Nat.lt_trichotomy k i) as [K|[->|K]].
          - apply TK. now apply Gt.
          - right. rewrite map_app. apply in_or_app. right. left. reflexivity.
          - left. apply Tj; lia. }
        intros s' x' I. destruct (IN s' x' I) as [I'|[-> ->]].
        -- destruct (Gv s' x' I') as [(k & Lk & Ek) Nu]. split; [exists k; split; [lia|exact Ek]|exact Nu].
        -- split; [exists i; split; [lia|reflexivity]|exact Gu].
      * intros s' M NI L2. rewrite map_app in NI.
        assert (Ns : is_lit s' (TString s) = false).
        { destruct (is_lit s' (TString s)) eqn:Li; [|reflexivity]. apply is_lit_eq in Li. injection Li as ->.
          exfalso. apply NI. apply in_or_app. right. left. reflexivity. }
        destruct (left_step _ _ _ _ _ Hl s' Ns M) as (q & Q1 & Q2);
          [intro I; apply NI; apply in_or_app; now left|exact L2|].
        exists q. split; [exact Q1|]. intros k K. apply TK. now apply Q2.
      * intros s' x' I. destruct (IN s' x' I) as [I'|[-> ->]].
        -- exact (valid_step _ _ _ _ Hv s' x' I').
        -- rewrite <- Ex. split; [exact V|]. split; [lia|exact W3].
    + apply GO. constructor; cbn [strs validated var_gen to_replace]; [exact Hs'|exact Hk|exact Hn|exact Hg| |now apply valid_step|exact Hc'].
      intros s' M NI L2. destruct (is_lit s' (TString s)) eqn:Li; [|exact (left_step _ _ _ _ _ Hl s' Li M NI L2)].
      apply is_lit_eq in Li. injection Li as <-. destruct Hg as (i & Gi & Gu & Gt & Gv). exists i.
      split; [|exact Gt]. rewrite <- Ex in L2 |- *. apply mget_none in NI. rewrite NI, Gi in W.
      rewrite (proj2 (Nat.ltb_lt _ _)) in W by lia. exact W.
Qed.
