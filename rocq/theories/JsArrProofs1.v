(** Aggregation of strings into an array: the scan. *)
From Coq Require Import String List NArith ZArith Bool Lia ZifyBool ZifyN Arith.
From Verif Require Import Base JsModel JsUtilModel JsUtilSpec JsUtilProofs JsUtilProofs2 JsAggModel
  JsAggProofs1 JsArrSpec.
Import ListNotations.
Open Scope N_scope.

(** ** Contents *)

Lemma content_app : forall a s b, content (a :: s ++ [b]) = s.
Proof. intros. unfold content. cbn [tl]. apply removelast_last. Qed.

Lemma len1 : forall c, len_utf8 c = 1%nat <-> c < 0x80.
Proof.
  intro c. unfold len_utf8. destruct (c <? 0x80) eqn:A; [split; [lia|reflexivity]|].
  destruct (c <? 0x800); [split; lia|]. destruct (c <? 0x10000); split; lia.
Qed.

Lemma blen1 : forall p, blen p = 1%nat -> exists a, p = [a] /\ a < 0x80.
Proof.
  intros [|a [|b p]] H; cbn [blen] in H.
  - discriminate.
  - exists a. split; [reflexivity|]. apply len1. lia.
  - pose proof (len_utf8_pos a). pose proof (len_utf8_pos b). lia.
Qed.

Lemma unquote_ok : forall t, quoted t -> unquote t = Ok (content t).
Proof.
  intros t (a & s & b & -> & A & B). rewrite content_app. unfold unquote, usub.
  apply len1 in A. apply len1 in B. cbn [blen]. rewrite blen_app. cbn [blen].
  rewrite (proj2 (Nat.leb_le _ _)) by lia. cbn [obind].
  rewrite (slice_mid_eq _ [a] s [b]); [reflexivity|reflexivity| |]; cbn [blen]; lia.
Qed.

Lemma unquote_inv : forall t s, unquote t = Ok s -> quoted t /\ s = content t.
Proof.
  intros t s H. unfold unquote, usub in H. destruct (Nat.leb 1 (blen t)) eqn:L; [|discriminate].
  cbn [obind] in H. destruct (slice t 1 (blen t - 1)) as [r|] eqn:E; [|discriminate]. injection H as ->.
  apply slice_inv in E. destruct E as (p & q & -> & P & Q). rewrite !blen_app in Q.
  apply blen1 in P. destruct P as (a & -> & A). cbn [blen] in Q. apply Nat.leb_le in L. rewrite !blen_app in L.
  cbn [blen] in L.
  assert (X : blen q = 1%nat) by lia. apply blen1 in X. destruct X as (b & -> & B).
  split; [exists a, s, b; auto|]. symmetry. apply content_app.
Qed.

(** ** Positions of a content *)
Section Scan.
Variables (all : list token) (filter : list token -> nat -> bool) (ignore : list nat) (name : str).

Definition hit (s : str) (p : nat) (t : token) : bool :=
  match t with
  | TString x => str_eqb (content x) s && negb (existsb (Nat.eqb p) ignore) && filter all p
  | _ => false
  end.

Fixpoint occ (s : str) (p : nat) (ts : list token) : list nat :=
  match ts with
  | [] => []
  | t :: r => (if hit s p t then [p] else []) ++ occ s (S p) r
  end.

Lemma occ_app : forall s a b p, occ s p (a ++ b) = occ s p a ++ occ s (p + length a) b.
Proof.
  induction a as [|t a IH]; intros b p; cbn [app occ length]; [rewrite Nat.add_0_r; reflexivity|].
  rewrite IH, app_assoc. replace (S p + length a)%nat with (p + S (length a))%nat by lia. reflexivity.
Qed.

Lemma occ_snoc : forall s pre t, occ s 0 (pre ++ [t]) = occ s 0 pre ++ (if hit s (length pre) t then [length pre] else []).
Proof. intros. rewrite occ_app. cbn [occ Nat.add]. rewrite app_nil_r. reflexivity. Qed.

Lemma occ_in : forall s ts p i, In i (occ s p ts) <->
  (p <= i)%nat /\ exists t, nth_error ts (i - p) = Some t /\ hit s i t = true.
Proof.
  induction ts as [|t r IH]; intros p i; cbn [occ].
  - split; [intros []|]. intros (_ & t & H & _). destruct (i - p)%nat; discriminate.
  - rewrite in_app_iff, IH. split.
    + intros [H|(A & t' & B & C)].
      * destruct (hit s p t) eqn:E; [|destruct H]. destruct H as [->|[]]. split; [lia|]. exists t.
        rewrite Nat.sub_diag. split; [reflexivity|exact E].
      * split; [lia|]. exists t'. replace (i - p)%nat with (S (i - S p)) by lia. auto.
    + intros (A & t' & B & C). destruct (Nat.eq_dec i p) as [->|Np].
      * left. rewrite Nat.sub_diag in B. injection B as ->. rewrite C. now left.
      * right. split; [lia|]. exists t'. replace (i - p)%nat with (S (i - S p)) in B by lia. auto.
Qed.

(** ** The invariant of the scan *)
Definition pays_b (n : nat) (s : str) (k : nat) : bool := worth_array n (blen s) (blen name) (blen (index_text k)).

Lemma pays_more : forall n s k, pays_b n s k = true -> pays_b (S n) s k = true.
Proof. intros n s k H. unfold pays_b, worth_array in *. apply Nat.ltb_lt in H. apply Nat.ltb_lt. nia. Qed.

Record scanned (v0 olds : list str) (pre : list token) (m : list (str * entry)) (valid : list str) (ap : N)
  (news : list str) : Prop := {
  sc_valid : valid = v0 ++ news;
  sc_news : NoDup news;
  sc_not_old : forall s, In s news -> ~ In s olds;
  sc_next : ap = N.of_nat (length olds + length news);
  sc_old : forall s, In s olds -> exists k, nth_error olds k = Some s
    /\ mget m s = Some {| e_index := N.of_nat k; e_positions := occ s 0 pre; e_create := false |};
  sc_new : forall k s, nth_error news k = Some s ->
    mget m s = Some {| e_index := N.of_nat (length olds + k); e_positions := occ s 0 pre; e_create := true |};
  sc_others : forall s, ~ In s olds -> ~ In s news ->
    mget m s = match occ s 0 pre with [] => None | ps => Some {| e_index := 0; e_positions := ps; e_create := true |} end;
  sc_pays : forall k s, nth_error news k = Some s ->
    (2 <= length (occ s 0 pre))%nat /\ pays_b (length (occ s 0 pre)) s (length olds + k) = true;
  sc_left : forall s, ~ In s olds -> ~ In s news -> (2 <= length (occ s 0 pre))%nat ->
    exists k, (k <= length news)%nat /\ pays_b (length (occ s 0 pre)) s (length olds + k) = false
}.

Lemma scanned_skip : forall v0 olds pre m valid ap news t,
  scanned v0 olds pre m valid ap news -> (forall s, hit s (length pre) t = false) ->
  scanned v0 olds (pre ++ [t]) m valid ap news.
Proof.
  intros v0 olds pre m valid ap news t H N.
  assert (X : forall s, occ s 0 (pre ++ [t]) = occ s 0 pre) by (intro s; rewrite occ_snoc, N, app_nil_r; reflexivity).
  destruct H. constructor; try assumption; intros *; rewrite ?X; auto.
Qed.

Lemma hit_eq : forall s p x, hit s p (TString x) = true -> s = content x.
Proof.
  intros s p x H. cbn [hit] in H. apply andb_prop in H. destruct H as [H _]. apply andb_prop in H. destruct H as [H _].
  apply str_eqb_eq in H. auto.
Qed.

Lemma array_scan_spec : forall v0 olds r pre m valid ap news m' valid',
  (forall s, In s v0 <-> In s olds) ->
  scanned v0 olds pre m valid ap news ->
  array_scan all name filter ignore (length pre) r m valid ap = Ok (m', valid') ->
  exists news' ap', scanned v0 olds (pre ++ r) m' valid' ap' news'.
Proof.
  intros v0 olds. induction r as [|t r IH]; intros pre m valid ap news m' valid' V H E.
  { cbn [array_scan] in E. injection E as <- <-. rewrite app_nil_r. exists news, ap. exact H. }
  assert (GO : forall m1 valid1 ap1 news1, scanned v0 olds (pre ++ [t]) m1 valid1 ap1 news1 ->
    array_scan all name filter ignore (S (length pre)) r m1 valid1 ap1 = Ok (m', valid') ->
    exists news' ap', scanned v0 olds (pre ++ t :: r) m' valid' ap' news').
  { intros m1 valid1 ap1 news1 H1 E1. specialize (IH (pre ++ [t]) m1 valid1 ap1 news1 m' valid' V H1).
    rewrite app_length in IH. cbn [length] in IH. rewrite Nat.add_1_r in IH. rewrite <- app_assoc in IH. auto. }
  cbn [array_scan] in E.
  destruct (existsb (Nat.eqb (length pre)) ignore) eqn:Ig.
  { apply (GO m valid ap news); [|exact E]. apply scanned_skip; [exact H|]. intro s. destruct t; try reflexivity.
    cbn [hit]. rewrite Ig. cbn [negb]. rewrite andb_false_r. reflexivity. }
  destruct (get_string_of t) as [x|] eqn:Gs.
  2:{ apply (GO m valid ap news); [|exact E]. apply scanned_skip; [exact H|]. intro s. destruct t; try reflexivity. discriminate Gs. }
  destruct t; try discriminate Gs. injection Gs as ->.
  destruct (filter all (length pre)) eqn:Fi; cbn [negb] in E.
  2:{ apply (GO m valid ap news); [|exact E]. apply scanned_skip; [exact H|]. intro s. cbn [hit]. rewrite Fi, andb_false_r. reflexivity. }
  destruct (unquote x) as [s| | |] eqn:U; try discriminate E. cbn [obind] in E. apply unquote_inv in U. destruct U as [_ ->].
  set (s := content x) in *.
  assert (HT : hit s (length pre) (TString x) = true).
  { cbn [hit]. fold s. rewrite str_eqb_refl, Ig, Fi. reflexivity. }
  assert (HF : forall s', s' <> s -> hit s' (length pre) (TString x) = false).
  { intros s' Ns. destruct (hit s' (length pre) (TString x)) eqn:Q; [|reflexivity]. apply hit_eq in Q. contradiction. }
  assert (OS : occ s 0 (pre ++ [TString x]) = occ s 0 pre ++ [length pre]) by (rewrite occ_snoc, HT; reflexivity).
  assert (OO : forall s', s' <> s -> occ s' 0 (pre ++ [TString x]) = occ s' 0 pre).
  { intros s' Ns. rewrite occ_snoc, (HF s' Ns), app_nil_r. reflexivity. }
  set (en := match mget m s with Some y => y | None => {| e_index := 0; e_positions := []; e_create := true |} end) in *.
  assert (EP : e_positions en = occ s 0 pre).
  { unfold en. destruct (in_dec str_eq_dec s olds) as [I|I].
    - destruct (sc_old _ _ _ _ _ _ _ H s I) as (k & _ & ->). reflexivity.
    - destruct (in_dec str_eq_dec s news) as [J|J].
      + apply In_nth_error in J. destruct J as (k & J). rewrite (sc_new _ _ _ _ _ _ _ H k s J). reflexivity.
      + rewrite (sc_others _ _ _ _ _ _ _ H s I J). destruct (occ s 0 pre); reflexivity. }
  rewrite EP, <- OS in E.
  assert (MV : mem valid s = true <-> In s olds \/ In s news).
  { rewrite mem_in, (sc_valid _ _ _ _ _ _ _ H), in_app_iff, V. reflexivity. }
  assert (L1 : length (occ s 0 (pre ++ [TString x])) = S (length (occ s 0 pre))).
  { rewrite OS, app_length. cbn. lia. }
  destruct (Nat.ltb 1 (length (occ s 0 (pre ++ [TString x]))) && negb (mem valid s)
            && worth_array (length (occ s 0 (pre ++ [TString x]))) (blen s) (blen name) (blen (number_show ap))) eqn:W.
  - (* a new element *)
    apply andb_prop in W. destruct W as [W W3]. apply andb_prop in W. destruct W as [W1 W2]. apply Nat.ltb_lt in W1.
    assert (I : ~ In s olds) by (intro I; rewrite (proj2 MV) in W2 by auto; discriminate).
    assert (J : ~ In s news) by (intro J; rewrite (proj2 MV) in W2 by auto; discriminate).
    assert (NK : nth_error news (length news) = None) by (apply nth_error_None; lia).
    rewrite (sc_next _ _ _ _ _ _ _ H) in E, W3.
    apply (GO _ _ _ (news ++ [s])) in E; [exact E|].
    assert (SP : forall k s', nth_error (news ++ [s]) k = Some s' ->
      nth_error news k = Some s' /\ s' <> s \/ (k = length news /\ s' = s)).
    { intros k s' Q. destruct (Nat.lt_ge_cases k (length news)) as [Lk|Lk].
      - rewrite nth_error_app1 in Q by exact Lk. left. split; [exact Q|]. intros ->. apply J. eapply nth_error_In; exact Q.
      - rewrite nth_error_app2 in Q by exact Lk. destruct (k - length news)%nat as [|d] eqn:D; cbn [nth_error] in Q.
        + right. injection Q as ->. split; [lia|reflexivity].
        + destruct d; discriminate Q. }
    constructor.
    + rewrite (sc_valid _ _ _ _ _ _ _ H), app_assoc. reflexivity.
    + rewrite <- (rev_involutive (news ++ [s])). apply NoDup_rev. rewrite rev_app_distr. cbn [rev app].
      constructor; [rewrite <- in_rev; exact J|]. apply NoDup_rev. exact (sc_news _ _ _ _ _ _ _ H).
    + intros s' Q. apply in_app_or in Q. destruct Q as [Q|[<-|[]]]; [|exact I]. exact (sc_not_old _ _ _ _ _ _ _ H s' Q).
    + rewrite app_length. cbn [length]. lia.
    + intros s' Q. destruct (sc_old _ _ _ _ _ _ _ H s' Q) as (k & K1 & K2). exists k. split; [exact K1|].
      assert (Ns : s' <> s) by congruence. rewrite mget_mset, (proj2 (str_eqb_neq s' s) Ns), (OO s' Ns). exact K2.
    + intros k s' Q. rewrite mget_mset. destruct (SP k s' Q) as [[Q' Ns]|[-> ->]].
      * rewrite (proj2 (str_eqb_neq s' s) Ns), (OO s' Ns). exact (sc_new _ _ _ _ _ _ _ H k s' Q').
      * rewrite str_eqb_refl. f_equal. f_equal. unfold en. rewrite (sc_others _ _ _ _ _ _ _ H s I J).
        destruct (occ s 0 pre); reflexivity.
    + intros s' I' J'. assert (Ns : s' <> s) by (intros ->; apply J'; apply in_or_app; right; now left).
      rewrite mget_mset, (proj2 (str_eqb_neq s' s) Ns), (OO s' Ns). apply (sc_others _ _ _ _ _ _ _ H s' I').
      intro Q. apply J'. apply in_or_app. now left.
    + intros k s' Q. destruct (SP k s' Q) as [[Q' Ns]|[-> ->]].
      * rewrite (OO s' Ns). exact (sc_pays _ _ _ _ _ _ _ H k s' Q').
      * split; [lia|]. exact W3.
    + intros s' I' J'. assert (Ns : s' <> s) by (intros ->; apply J'; apply in_or_app; right; now left).
      rewrite (OO s' Ns). intro L2. destruct (sc_left _ _ _ _ _ _ _ H s' I') as (k & K1 & K2); [|exact L2|].
      * intro Q. apply J'. apply in_or_app. now left.
      * exists k. rewrite app_length. split; [lia|exact K2].
  - (* nothing new *)
    apply (GO _ _ _ news) in E; [exact E|]. constructor.
    + exact (sc_valid _ _ _ _ _ _ _ H).
    + exact (sc_news _ _ _ _ _ _ _ H).
    + exact (sc_not_old _ _ _ _ _ _ _ H).
    + exact (sc_next _ _ _ _ _ _ _ H).
    + intros s' Q. destruct (sc_old _ _ _ _ _ _ _ H s' Q) as (k & K1 & K2). exists k. split; [exact K1|].
      rewrite mget_mset. destruct (str_eqb s' s) eqn:Es.
      * apply str_eqb_eq in Es. subst s'. f_equal. unfold en. rewrite K2. reflexivity.
      * apply str_eqb_neq in Es. rewrite (OO s' Es). exact K2.
    + intros k s' Q. rewrite mget_mset. pose proof (sc_new _ _ _ _ _ _ _ H k s' Q) as K2. destruct (str_eqb s' s) eqn:Es.
      * apply str_eqb_eq in Es. subst s'. f_equal. unfold en. rewrite K2. reflexivity.
      * apply str_eqb_neq in Es. rewrite (OO s' Es). exact K2.
    + intros s' I' J'. rewrite mget_mset. pose proof (sc_others _ _ _ _ _ _ _ H s' I' J') as K2. destruct (str_eqb s' s) eqn:Es.
      * apply str_eqb_eq in Es. subst s'. unfold en. rewrite K2. rewrite OS. destruct (occ s 0 pre); reflexivity.
      * apply str_eqb_neq in Es. rewrite (OO s' Es). exact K2.
    + intros k s' Q. destruct (sc_pays _ _ _ _ _ _ _ H k s' Q) as [A B]. destruct (str_eqb s' s) eqn:Es.
      * apply str_eqb_eq in Es. subst s'. rewrite L1. split; [lia|]. now apply pays_more.
      * apply str_eqb_neq in Es. rewrite (OO s' Es). auto.
    + intros s' I' J' L2. destruct (str_eqb s' s) eqn:Es.
      * apply str_eqb_eq in Es. subst s'. exists (length news). split; [lia|].
        rewrite (proj2 (Nat.ltb_lt _ _)) in W by lia.
        destruct (mem valid s); [destruct (proj1 MV eq_refl); contradiction|]. cbn [negb andb] in W.
        rewrite (sc_next _ _ _ _ _ _ _ H) in W. exact W.
      * apply str_eqb_neq in Es. rewrite (OO s' Es) in *. exact (sc_left _ _ _ _ _ _ _ H s' I' J' L2).
Qed.

Lemma array_scan_total : forall r m valid ap p, Forall quoted_token r ->
  exists m' valid', array_scan all name filter ignore p r m valid ap = Ok (m', valid').
Proof.
  induction r as [|t r IH]; intros m valid ap p F; cbn [array_scan]; [eauto|]. inversion F; subst.
  destruct (existsb _ ignore); [now apply IH|]. destruct (get_string_of t) as [x|] eqn:Gs; [|now apply IH].
  destruct (negb _); [now apply IH|]. destruct t; try discriminate Gs. injection Gs as ->.
  rewrite (unquote_ok _ (H1 x eq_refl)). cbn [obind].
  match goal with |- context [if ?c then _ else _] => destruct c end; now apply IH.
Qed.

(** ** The elements of the existing array *)
Definition string_at (p : nat) : list str :=
  match nth_error all p with Some (TString t) => [content t] | _ => [] end.

Definition strings_at (l : list nat) : list str := concat (map string_at l).

Definition string_positions (l : list nat) : list nat :=
  List.filter (fun p => match nth_error all p with Some (TString _) => true | _ => false end) l.

End Scan.

Lemma existing_spec : forall all l olds m valid ig ap m' valid' ig' ap',
  NoDup valid -> (forall s, In s valid <-> In s olds) -> ap = N.of_nat (length olds) ->
  (forall s, In s olds -> exists k, nth_error olds k = Some s
    /\ mget m s = Some {| e_index := N.of_nat k; e_positions := []; e_create := false |}) ->
  (forall s, ~ In s olds -> mget m s = None) ->
  existing_loop all l m valid ig ap = Ok (m', valid', ig', ap') ->
  let olds' := olds ++ strings_at all l in
  ig' = ig ++ string_positions all l /\ NoDup valid' /\ (forall s, In s valid' <-> In s olds')
  /\ ap' = N.of_nat (length olds')
  /\ (forall s, In s olds' -> exists k, nth_error olds' k = Some s
    /\ mget m' s = Some {| e_index := N.of_nat k; e_positions := []; e_create := false |})
  /\ (forall s, ~ In s olds' -> mget m' s = None).
Proof.
  intros all. induction l as [|p l IH]; intros olds m valid ig ap m' valid' ig' ap' Nv V Ap O NO E; cbn [existing_loop] in E.
  { injection E as <- <- <- <-. unfold strings_at, string_positions. cbn. rewrite !app_nil_r. repeat (split; [assumption|]).
    split; [reflexivity|]. auto. }
  destruct (index all p) as [t| | |] eqn:Ix; try discriminate E. cbn [obind] in E.
  assert (Np : nth_error all p = Some t).
  { unfold index in Ix. destruct (nth_error all p); [|discriminate]. now injection Ix as ->. }
  destruct (get_string_of t) as [x|] eqn:Gs.
  - destruct t; try discriminate Gs. injection Gs as ->.
    destruct (unquote x) as [s| | |] eqn:U; try discriminate E. cbn [obind] in E. apply unquote_inv in U. destruct U as [_ ->].
    set (s := content x) in *.
    apply (IH (olds ++ [s])) in E.
    + cbv zeta in E. rewrite <- app_assoc in E. unfold strings_at, string_positions in *. cbn [map concat List.filter].
      assert (Sa : string_at all p = [s]) by (unfold string_at; rewrite Np; reflexivity). rewrite Sa, Np. cbn [app] in *.
      rewrite <- app_assoc in E. exact E.
    + destruct (mem valid s) eqn:M; [exact Nv|]. rewrite <- (rev_involutive (valid ++ [s])). apply NoDup_rev.
      rewrite rev_app_distr. cbn [rev app]. constructor; [|now apply NoDup_rev]. rewrite <- in_rev. intro I.
      apply mem_in in I. congruence.
    + intro s'. destruct (mem valid s) eqn:M.
      * rewrite V, in_app_iff. apply mem_in, V in M. split; [auto|]. intros [I|[<-|[]]]; auto.
      * rewrite !in_app_iff, V. reflexivity.
    + rewrite app_length. cbn [length]. lia.
    + intros s' I. rewrite mget_mset. destruct (str_eqb s' s) eqn:Es.
      * apply str_eqb_eq in Es. subst s'. exists (length olds). split.
        -- rewrite nth_error_app2, Nat.sub_diag by lia. reflexivity.
        -- rewrite Ap. reflexivity.
      * apply str_eqb_neq in Es. apply in_app_or in I. destruct I as [I|[I|[]]]; [|congruence].
        destruct (O s' I) as (k & K1 & K2). exists k. split; [|exact K2]. rewrite nth_error_app1; [exact K1|].
        apply nth_error_Some. congruence.
    + intros s' I. rewrite in_app_iff in I. rewrite mget_mset.
      rewrite (proj2 (str_eqb_neq s' s)); [|intros ->; apply I; right; now left]. apply NO. tauto.
  - apply (IH olds) in E; try assumption.
    unfold strings_at, string_positions in *. cbn [map concat List.filter].
    assert (Sa : string_at all p = []) by (unfold string_at; rewrite Np; destruct t; try reflexivity; discriminate Gs).
    rewrite Sa, Np. cbn [app]. destruct t; try exact E. discriminate Gs.
Qed.

Lemma existing_total : forall all l m valid ig ap, Forall quoted_token all ->
  Forall (fun p => (p < length all)%nat) l ->
  exists r, existing_loop all l m valid ig ap = Ok r.
Proof.
  intros all. induction l as [|p l IH]; intros m valid ig ap F B; cbn [existing_loop]; [eauto|]. inversion B; subst.
  unfold index. destruct (nth_error all p) as [t|] eqn:Np; [|apply nth_error_None in Np; lia]. cbn [obind].
  destruct (get_string_of t) as [x|] eqn:Gs; [|now apply IH].
  destruct t; try discriminate Gs. injection Gs as ->.
  rewrite Forall_forall in F. rewrite (unquote_ok _ (F _ (nth_error_In _ _ Np) x eq_refl)). cbn [obind].
  apply IH; [|assumption]. now apply Forall_forall.
Qed.
