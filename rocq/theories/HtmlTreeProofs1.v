(** Proofs about HtmlTreeSpec, first part: how a tree looks, open elements, and documents without the
    tags that may be left out. *)
From Coq Require Import String List NArith Bool Arith Lia.
From Verif Require Import Base HtmlSpec HtmlSyntaxSpec HtmlTreeSpec.
Import ListNotations.
Open Scope N_scope.

(** ** How a tree looks *)

Definition eqv (a b : list event) : Prop := forall e w, look e w a = look e w b.

Lemma eqv_refl : forall a, eqv a a.
Proof. intros a e w. reflexivity. Qed.

Lemma eqv_trans : forall a b c, eqv a b -> eqv b c -> eqv a c.
Proof. intros a b c H K e w. now rewrite H. Qed.

Lemma eqv_app : forall x a b, eqv a b -> eqv (x ++ a) (x ++ b).
Proof.
  intros x a b H. induction x as [|t x IH]; [exact H|]. intros e w. cbn [app look].
  destruct t as [c|s|n l|n]; repeat match goal with |- context[if ?b then _ else _] => destruct b end; now rewrite ?IH.
Qed.

Lemma look_blank : forall c a e w, html_blank c = true -> look e w (Text c :: a) = look e true a.
Proof. intros c a e w H. cbn [look]. now rewrite H. Qed.

Lemma look_edge_gap : forall a w w', look true w a = look true w' a.
Proof.
  intros a w w'. destruct a as [|t a]; cbn [look]; [now rewrite !andb_false_r|].
  destruct t; repeat match goal with |- context[if ?b then _ else _] => destruct b eqn:? end; try reflexivity;
    cbn in *; rewrite ?andb_false_r in *; discriminate.
Qed.

Lemma look_edges : forall l a e w, l <> [] -> Forall (fun x => edge x = true) l ->
  look e w (l ++ a) = map plain_event l ++ look true false a.
Proof.
  intros l a e w N F. destruct F as [|x l Hx F]; [contradiction|]. clear N. revert x Hx e w.
  induction F as [|y l Hy F IH]; intros x Hx e w.
  - cbn [app map]. destruct x; cbn [look]; rewrite ?Hx; reflexivity || discriminate Hx.
  - change ((x :: y :: l) ++ a) with (x :: (y :: l) ++ a). cbn [map]. change ((plain_event x :: ?r) ++ ?s) with (plain_event x :: r ++ s).
    destruct x; cbn [look]; rewrite ?Hx; try discriminate Hx; cbn [app]; f_equal; apply (IH y Hy).
Qed.

(** White space on the two sides of a run of edges. *)
Lemma eqv_blank : forall l x y c a b, Forall (fun x => edge x = true) l -> html_blank c = true ->
  (x = [] \/ x = [Text c]) -> (y = [] \/ y = [Text c]) -> (l = [] -> x = y) ->
  eqv a (l ++ b) -> eqv (x ++ a) (l ++ y ++ b).
Proof.
  intros l x y c a b F Hc Hx Hy H E. destruct l as [|t l].
  - rewrite (H eq_refl). cbn [app] in *. now apply eqv_app.
  - intros e w. rewrite (look_edges (t :: l) (y ++ b)) by (discriminate || assumption).
    assert (Ey : look true false (y ++ b) = look true false b).
    { destruct Hy as [-> | ->]; [reflexivity|]. cbn [app]. rewrite look_blank by exact Hc. apply look_edge_gap. }
    rewrite Ey, <- (look_edges (t :: l) b e true) by (discriminate || assumption).
    destruct Hx as [-> | ->]; cbn [app] in *; [rewrite (E e w) | rewrite look_blank by exact Hc; apply (E e true)].
    change (t :: l ++ b) with ((t :: l) ++ b). now rewrite !look_edges by (discriminate || assumption).
Qed.

Lemma look_plain : forall a b, map plain_event a = map plain_event b -> eqv a b.
Proof.
  induction a as [|x a IH]; intros [|y b] H; try discriminate; [apply eqv_refl|].
  cbn [map] in H. injection H as Hx H. specialize (IH b H). intros e w.
  destruct x as [c|s|n l|n], y as [c'|s'|n' l'|n']; try discriminate Hx; cbn [plain_event] in Hx.
  - injection Hx as ->. cbn [look]. destruct (html_blank c'); now rewrite IH.
  - cbn [look edge plain_event]. now rewrite Hx, IH.
  - injection Hx as -> Hl. cbn [look edge plain_event]. rewrite Hl. destruct (_ || _); now rewrite IH.
  - injection Hx as ->. cbn [look edge plain_event]. destruct (_ || _); now rewrite IH.
Qed.

(** ** Open elements *)

Lemma pop_app : forall p stk a b, pop p stk = (a, b) -> stk = a ++ b /\ Forall (fun x => p x = true) a.
Proof.
  intros p. induction stk as [|x r IH]; intros a b E; cbn [pop] in E; [injection E as <- <-; auto|].
  destruct (p x) eqn:Ex; [|injection E as <- <-; auto]. destruct (pop p r) as [a' b'].
  injection E as <- <-. destruct (IH a' b' eq_refl) as [-> F]. split; [reflexivity | now constructor].
Qed.

Lemma pop_more : forall p c stk a b, Forall (fun x => p x = true) c -> pop p stk = (a, b) -> pop p (c ++ stk) = (c ++ a, b).
Proof. intros p c stk a b F E. induction F as [|x c Hx F IH]; [exact E|]. cbn [app pop]. now rewrite Hx, IH. Qed.

(** Every element that needs it is in one it may be in. *)
Definition placed (k : kind) : bool := loose k || match k with KCaption => true | _ => false end.

(** ... and can be open at all. *)
Definition standing (k : kind) : bool := negb (void k) && match k with KNone => false | _ => true end.

Fixpoint wf (stk : list str) : Prop :=
  match stk with
  | [] => True
  | x :: r => (standing (kind_of x) = true /\ (placed (kind_of x) = true -> child_ok (top r) (kind_of x) = true)) /\ wf r
  end.

Lemma wf_app : forall a b, wf (a ++ b) -> wf b.
Proof. induction a as [|x a IH]; intros b H; [exact H|]. apply IH, H. Qed.

Lemma loose_placed : forall k, loose k = true -> placed k = true.
Proof. intros k H. unfold placed. now rewrite H. Qed.

Definition rank (k : kind) : nat :=
  match k with
  | KLi | KDef | KOption | KCell | KCols => 1
  | KRow | KOptgroup => 2
  | KGroup => 3
  | _ => 4
  end.

Lemma child_rank : forall k x, loose k = true -> child_ok (Some x) k = true -> (rank k < rank x)%nat.
Proof. intros k x H K. destruct k; try discriminate H; destruct x; try discriminate K; cbn; lia. Qed.

Lemma child_some : forall o k, loose k = true -> child_ok o k = true -> exists x, o = Some x.
Proof. intros [x|] k H K; [eauto|]. destruct k; discriminate. Qed.

Lemma chain_rank : forall a x r, wf (a ++ x :: r) -> Forall (fun y => loose (kind_of y) = true) a ->
  Forall (fun y => (rank (kind_of y) < rank (kind_of x))%nat) a.
Proof.
  induction a as [|y a IH]; intros x r W F; [constructor|]. inversion F as [|? ? Hy Fa]; subst.
  destruct W as [[_ W1] W2]. specialize (IH x r W2 Fa). specialize (W1 (loose_placed _ Hy)). constructor; [|exact IH].
  destruct a as [|z a]; cbn [app top] in W1; apply child_rank in W1; try assumption.
  inversion IH; subst. lia.
Qed.

Lemma closes_child : forall k x y, closes k x = true -> loose y = true -> child_ok (Some x) y = true -> closes k y = true.
Proof. intros k x y H L C. destruct y; try discriminate L; destruct x; try discriminate C; destruct k; try discriminate H; reflexivity. Qed.

Lemma chain_closes : forall k a x r, wf (a ++ x :: r) -> Forall (fun y => loose (kind_of y) = true) a ->
  closes k (kind_of x) = true -> Forall (fun y => closes k (kind_of y) = true) a.
Proof.
  induction a as [|y a IH]; intros x r W F H; [constructor|]. inversion F as [|? ? Hy Fa]; subst.
  destruct W as [[_ W1] W2]. specialize (IH x r W2 Fa H). specialize (W1 (loose_placed _ Hy)). constructor; [|exact IH].
  destruct a as [|z a]; cbn [app top] in W1; [exact (closes_child _ _ _ H Hy W1)|].
  inversion IH; subst. eapply closes_child; eassumption.
Qed.

Lemma chain_around : forall a r, a <> [] -> wf (a ++ r) -> Forall (fun y => loose (kind_of y) = true) a -> r <> [].
Proof.
  induction a as [|y a IH]; intros r N W F; [contradiction|]. inversion F as [|? ? Hy Fa]; subst. destruct W as [[_ W1] W2].
  destruct a as [|z a]; [|apply IH; [discriminate | exact W2 | exact Fa]].
  specialize (W1 (loose_placed _ Hy)). destruct (child_some _ _ Hy W1) as (x & Ex). intros ->. discriminate Ex.
Qed.

Lemma allowed_child : forall stk n, allowed stk n = true -> child_ok (top stk) (kind_of n) = true.
Proof. intros stk n H. unfold allowed in H. apply andb_true_iff in H. destruct H as [H _]. apply andb_true_iff in H. tauto. Qed.

(** What [put] does. *)
Lemma put_inv : forall stk n a sl ev s, put stk n a sl = Some (ev, s) -> exists c s1,
  pop (fun x => closes (kind_of n) (kind_of x)) stk = (c, s1) /\
  allowed (between s1 (kind_of n) ++ s1) n = true /\
  ((void (kind_of n) = true /\ s = between s1 (kind_of n) ++ s1 /\
    ev = map Close c ++ map (fun x => Open x []) (between s1 (kind_of n)) ++ [Open n a; Close n]) \/
   (void (kind_of n) = false /\ sl = false /\ s = n :: between s1 (kind_of n) ++ s1 /\
    ev = map Close c ++ map (fun x => Open x []) (between s1 (kind_of n)) ++ [Open n a])).
Proof.
  intros stk n a sl ev s H. unfold put in H. destruct (pop _ stk) as [c s1]. exists c, s1. split; [reflexivity|].
  destruct (allowed _ n); [|discriminate]. split; [reflexivity|]. destruct (void (kind_of n)).
  - injection H as <- <-. left. auto.
  - destruct sl; [discriminate|]. injection H as <- <-. right. auto.
Qed.

Lemma between_wf : forall s k, wf s -> wf (between s k ++ s).
Proof.
  intros s k W. unfold between. destruct (top s) as [x|] eqn:Et; [|exact W]. destruct x; try exact W.
  destruct k; try exact W; cbn [app wf]; rewrite Et; repeat split; auto.
Qed.

Lemma put_wf : forall stk n a sl ev s, put stk n a sl = Some (ev, s) -> wf stk -> wf s.
Proof.
  intros stk n a sl ev s H W. destruct (put_inv _ _ _ _ _ _ H) as (c & s1 & Ep & Ha & K).
  destruct (pop_app _ _ _ _ Ep) as [-> _]. apply wf_app in W. apply (between_wf _ (kind_of n)) in W.
  destruct K as [(_ & -> & _) | (V & _ & -> & _)]; [exact W|]. apply allowed_child in Ha. split; [|exact W]. split; [|now intros _].
  unfold standing. rewrite V. now destruct (kind_of n).
Qed.

Lemma shut_inv : forall stk n ev s, shut stk n = Some (ev, s) -> exists c,
  stk = c ++ n :: s /\ Forall (fun x => loose (kind_of x) = true) c /\ ev = map Close c ++ [Close n] /\
  pop (fun x => loose (kind_of x) && negb (str_eqb x n)) stk = (c, n :: s).
Proof.
  intros stk n ev s H. unfold shut in H. destruct (pop _ stk) as [c s1] eqn:Ep. destruct (pop_app _ _ _ _ Ep) as [-> F].
  destruct s1 as [|x s2]; [discriminate|]. destruct (str_eqb x n) eqn:Ex; [|discriminate]. apply str_eqb_eq in Ex. subst x.
  injection H as <- <-. exists c. split; [reflexivity|]. split; [|auto]. apply Forall_impl with (2 := F).
  intros x K. apply andb_true_iff in K. tauto.
Qed.

(** Elements that are still open do not change what [put] and [shut] do. *)
Lemma put_more : forall p stk n a sl ev s, put stk n a sl = Some (ev, s) ->
  Forall (fun x => closes (kind_of n) (kind_of x) = true) p -> put (p ++ stk) n a sl = Some (map Close p ++ ev, s).
Proof.
  intros p stk n a sl ev s H F. unfold put in *. destruct (pop _ stk) as [c s1] eqn:Ep.
  rewrite (pop_more _ p stk c s1 F Ep). destruct (allowed _ n); [|discriminate].
  rewrite map_app. destruct (void (kind_of n)); [injection H as <- <-; now rewrite <- app_assoc|].
  destruct sl; [discriminate|]. injection H as <- <-. now rewrite <- app_assoc.
Qed.

Lemma shut_more : forall p stk n ev s, shut stk n = Some (ev, s) -> wf (p ++ stk) ->
  Forall (fun x => loose (kind_of x) = true) p -> shut (p ++ stk) n = Some (map Close p ++ ev, s).
Proof.
  intros p stk n ev s H W F. destruct (shut_inv _ _ _ _ H) as (c & E & Fc & Ev & Ep). unfold shut.
  assert (R : Forall (fun y => (rank (kind_of y) < rank (kind_of n))%nat) (p ++ c)).
  { apply (chain_rank (p ++ c) n s); [now rewrite <- app_assoc, <- E|]. now apply Forall_app. }
  apply Forall_app in R. destruct R as [R _].
  rewrite (pop_more _ p stk c (n :: s)); [|rewrite Forall_forall in *|exact Ep].
  - rewrite str_eqb_refl, map_app, Ev. now rewrite <- app_assoc.
  - intros x I. rewrite (F x I). specialize (R x I). destruct (str_eqb x n) eqn:Ex; [|reflexivity].
    apply str_eqb_eq in Ex. subst x. lia.
Qed.
