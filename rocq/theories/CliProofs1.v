(** Paths: the modelled std::path functions meet CliSpec. *)
From Coq Require Import String List NArith Bool Arith Lia ZifyBool ZifyN.
From Verif Require Import Base Utf8 CliModel CliSpec.
Import ListNotations.
Open Scope N_scope.
Open Scope list_scope.

(** ** Trailing ignored text *)

(** Where skipping stops: at the end of a name or at the start. *)
Definition stopped (r : str) : Prop :=
  match r with
  | [] => True
  | c :: r' => c <> slash /\ (c = dot -> exists d u, r' = d :: u /\ d <> slash)
  end.

Lemma skip_trail_spec : forall r,
  exists t, r = t ++ skip_trail r /\ stopped (skip_trail r) /\
    (skip_trail r <> [] -> ignored (rev t)).
Proof.
  intro r. assert (G : forall n r, (length r <= n)%nat ->
    exists t, r = t ++ skip_trail r /\ stopped (skip_trail r) /\
      (skip_trail r <> [] -> ignored (rev t))).
  2: exact (G (length r) r (le_n _)).
  clear r. induction n as [|n IH]; intros r Hn.
  - destruct r; [|cbn in Hn; lia]. exists []. cbn. repeat split; try tauto; try constructor.
  - destruct r as [|c r']; [exists []; cbn; repeat split; try tauto; try constructor|].
    cbn [length] in Hn. cbn [skip_trail].
    destruct (c =? slash) eqn:Ec.
    + apply N.eqb_eq in Ec. subst c. destruct (IH r' ltac:(lia)) as (t & E & Hs & Hi).
      exists (slash :: t). split; [cbn; congruence|]. split; [exact Hs|].
      intro H. specialize (Hi H). cbn [rev].
      clear - Hi. induction Hi; cbn [app].
      * constructor. constructor.
      * constructor. assumption.
      * constructor; [assumption|]. right. destruct H as [-> | (u & ->)]; cbn; eauto.
    + destruct (c =? dot) eqn:Ed.
      * apply N.eqb_eq in Ed. subst c. destruct r' as [|d r''].
        { exists [dot]. cbn. repeat split; try tauto. }
        destruct (d =? slash) eqn:Ed.
        { apply N.eqb_eq in Ed. subst d. destruct (IH (slash :: r'') ltac:(lia)) as (t & E & Hs & Hi).
          exists (dot :: t). split; [cbn [app]; f_equal; exact E|]. split; [exact Hs|].
          intro H. specialize (Hi H). cbn [rev].
          destruct t as [|x t'].
          { cbn [app] in E. rewrite <- E in Hs. cbn in Hs. destruct Hs as [Hs _]. congruence. }
          cbn [app] in E. injection E as <- E'.
          cbn [rev] in Hi |- *. rewrite <- app_assoc.
          assert (K : forall a, ignored (a ++ [slash]) -> ignored (a ++ [slash] ++ [dot])).
          { assert (K0 : forall b, ignored b -> forall a, b = a ++ [slash] -> ignored (a ++ [slash; dot])).
            { induction 1 as [|b Hb IHb|b Hb IHb Hc]; intros a Ha.
              - destruct a; discriminate Ha.
              - destruct a as [|y a]; [cbn; apply ignored_dot; [constructor|auto]|].
                cbn in Ha. injection Ha as <- Ha. cbn [app]. constructor. apply IHb. exact Ha.
              - destruct a as [|y a]; [discriminate Ha|]. cbn in Ha. injection Ha as <- Ha.
                destruct a as [|z a]; [discriminate Ha|].
                cbn in Ha. injection Ha as <- Ha.
                cbn [app]. apply ignored_dot; [apply IHb; exact Ha|].
                right. destruct Hc as [-> | (u & ->)]; [destruct a; discriminate Ha|].
                destruct a as [|y a]; [cbn; eauto|]. cbn in Ha. injection Ha as <- _. cbn. eauto. }
            intros a Ha. exact (K0 _ Ha a eq_refl). }
          apply K. exact Hi. }
        { exists []. split; [reflexivity|]. split; [|constructor].
          split; [unfold dot, slash; lia|]. intros _. exists d, r''. split; [reflexivity|lia]. }
      * exists []. split; [reflexivity|]. split; [|constructor].
        split; [lia|]. intros ->. discriminate Ed.
Qed.

Lemma ignored_last : forall t, ignored t -> t = [] \/
  (exists u, t = u ++ [slash] /\ ignored u) \/ (exists u, t = u ++ [slash; dot] /\ ignored u).
Proof.
  induction 1 as [|t Ht IH|t Ht IH Hc]; [auto| |]; right.
  - destruct IH as [-> | [(u & -> & Hu)|(u & -> & Hu)]].
    + left. exists []. split; [reflexivity|constructor].
    + left. exists (slash :: u). split; [reflexivity|constructor; assumption].
    + right. exists (slash :: u). split; [reflexivity|constructor; assumption].
  - destruct IH as [-> | [(u & -> & Hu)|(u & -> & Hu)]].
    + right. exists []. split; [reflexivity|constructor].
    + destruct u as [|y u].
      * left. exists [slash; dot]. split; [reflexivity|]. apply ignored_dot; [constructor|auto].
      * left. exists (slash :: dot :: y :: u). split; [reflexivity|]. apply ignored_dot; [assumption|].
        right. destruct Hc as [Hc|(w & Hc)]; [discriminate Hc|]. cbn in Hc. injection Hc as -> _. eauto.
    + destruct u as [|y u].
      * right. exists [slash; dot]. split; [reflexivity|]. apply ignored_dot; [constructor|auto].
      * right. exists (slash :: dot :: y :: u). split; [reflexivity|]. apply ignored_dot; [assumption|].
        right. destruct Hc as [Hc|(w & Hc)]; [discriminate Hc|]. cbn in Hc. injection Hc as -> _. eauto.
Qed.

Lemma skip_trail_stopped : forall a, stopped a -> skip_trail a = a.
Proof.
  intros [|c r] H; [reflexivity|]. cbn [stopped] in H. destruct H as [H1 H2]. cbn [skip_trail].
  replace (c =? slash) with false by lia. destruct (c =? dot) eqn:E; [|reflexivity].
  destruct (H2 ltac:(lia)) as (d & u & -> & Hd). replace (d =? slash) with false by lia. reflexivity.
Qed.

Lemma skip_trail_ignored : forall t, ignored t -> forall a, stopped a ->
  skip_trail (rev t ++ a) = a.
Proof.
  intros t. remember (length t) as n eqn:En. revert t En.
  induction n as [n IH] using lt_wf_ind; intros t -> Ht a Ha.
  destruct (ignored_last t Ht) as [-> | [(u & -> & Hu)|(u & -> & Hu)]].
  - apply skip_trail_stopped. exact Ha.
  - rewrite rev_app_distr. cbn [rev app skip_trail]. rewrite N.eqb_refl.
    eapply IH; [|reflexivity|exact Hu|exact Ha]. rewrite app_length. cbn. lia.
  - rewrite rev_app_distr. cbn [rev app skip_trail].
    replace (dot =? slash) with false by reflexivity. rewrite !N.eqb_refl.
    eapply IH; [|reflexivity|exact Hu|exact Ha]. rewrite app_length. cbn. lia.
Qed.

(** ** The last name *)

Lemma take_name_spec : forall r n p, take_name r = (n, p) ->
  r = n ++ p /\ ~ In slash n /\ (p = [] \/ exists q, p = slash :: q).
Proof.
  induction r as [|c r IH]; intros n p H; cbn [take_name] in H.
  - injection H as <- <-. cbn. tauto.
  - destruct (c =? slash) eqn:E.
    + injection H as <- <-. apply N.eqb_eq in E. subst c. cbn.
      split; [reflexivity|]. split; [tauto|right; eauto].
    + destruct (take_name r) as [a b]. injection H as <- <-.
      destruct (IH a b eq_refl) as (-> & Hn & Hp). split; [reflexivity|]. split; [|exact Hp].
      cbn. intros [->|Hi]; [rewrite N.eqb_refl in E; discriminate|tauto].
Qed.

Lemma take_name_app : forall n p, ~ In slash n -> (p = [] \/ exists q, p = slash :: q) ->
  take_name (n ++ p) = (n, p).
Proof.
  induction n as [|c n IH]; intros p Hn Hp; cbn [app take_name].
  - destruct Hp as [-> | (q & ->)]; [reflexivity|]. cbn [take_name]. rewrite N.eqb_refl. reflexivity.
  - cbn in Hn. replace (c =? slash) with false by (symmetry; apply N.eqb_neq; intuition).
    rewrite IH; [reflexivity|intuition|exact Hp].
Qed.

Lemma rev_eq : forall (A : Type) (a b : list A), rev a = b -> a = rev b.
Proof. intros A a b <-. symmetry. apply rev_involutive. Qed.

Theorem split_path_some : forall p pre name,
  split_path p = Some (pre, name) <-> exists trail, names p pre name trail.
Proof.
  intros p pre name. unfold split_path. split.
  - intro H. destruct (skip_trail_spec (rev p)) as (t & E & Hs & Hi).
    destruct (take_name (skip_trail (rev p))) as [n q] eqn:T.
    destruct (take_name_spec _ _ _ T) as (E2 & Hn & Hq).
    destruct n as [|c n]; [discriminate H|].
    destruct (str_eqb (c :: n) [dot; dot]) eqn:D; [discriminate H|].
    apply str_eqb_neq in D.
    assert (En : name = rev (c :: n)) by (injection H as _ H; symmetry; exact H).
    assert (Ep : pre = rev q) by (injection H as H _; symmetry; exact H).
    clear H. subst name pre.
    rewrite E2 in E, Hs, Hi. specialize (Hi ltac:(discriminate)).
    exists (rev t). unfold names. split; [|split; [|split; [|split; [|split; [|split]]]]].
    + apply rev_eq in E. rewrite E, !rev_app_distr, <- app_assoc. reflexivity.
    + destruct Hq as [-> | (q' & ->)]; [left; reflexivity|right; exists (rev q'); reflexivity].
    + intro K. apply (f_equal (@length _)) in K. rewrite rev_length in K. discriminate K.
    + intro K. apply rev_eq in K. cbn [rev app] in K. injection K as -> ->.
      cbn [app stopped] in Hs. destruct Hs as [_ Hs]. destruct (Hs eq_refl) as (d & u & K & Hd).
      destruct Hq as [-> | (q' & ->)]; [discriminate K|]. injection K as K _. congruence.
    + intro K. apply rev_eq in K. apply D. exact K.
    + rewrite <- in_rev. exact Hn.
    + exact Hi.
  - intros (trail & -> & Hpre & N1 & N2 & N3 & Hs & Ht).
    rewrite !rev_app_distr, <- !app_assoc.
    assert (Hp : rev pre = [] \/ exists q, rev pre = slash :: q).
    { destruct Hpre as [-> | (d & ->)]; [left; reflexivity|right; exists (rev d)].
      rewrite rev_app_distr. reflexivity. }
    assert (Hst : stopped (rev name ++ rev pre)).
    { destruct (rev name) as [|c n] eqn:R.
      - apply rev_eq in R. contradiction.
      - cbn [app stopped]. assert (Hin : ~ In slash (c :: n)) by (rewrite <- R, <- in_rev; exact Hs).
        split; [cbn in Hin; intuition|]. intros ->.
        destruct n as [|d n]; [apply rev_eq in R; contradiction|]. exists d, (n ++ rev pre).
        split; [reflexivity|]. cbn in Hin. intuition. }
    rewrite (skip_trail_ignored trail Ht _ Hst).
    rewrite (take_name_app (rev name) (rev pre)); [|rewrite <- in_rev; exact Hs|exact Hp].
    destruct (rev name) as [|c n] eqn:R; [apply rev_eq in R; contradiction|].
    destruct (str_eqb (c :: n) [dot; dot]) eqn:D.
    + apply str_eqb_eq in D. rewrite D in R. apply rev_eq in R. contradiction.
    + rewrite rev_involutive, <- R, rev_involutive. reflexivity.
Qed.

(** ** Extensions *)

Lemma rsplit_dot_some : forall r b a, rsplit_dot r = Some (b, a) -> r = a ++ dot :: b /\ ~ In dot a.
Proof.
  induction r as [|c r IH]; intros b a H; cbn [rsplit_dot] in H; [discriminate|].
  destruct (c =? dot) eqn:E.
  - apply N.eqb_eq in E. injection H as <- <-. subst c. cbn. tauto.
  - destruct (rsplit_dot r) as [[b' a']|]; [|discriminate]. injection H as <- <-.
    destruct (IH _ _ eq_refl) as (-> & Hn). split; [reflexivity|]. cbn. intros [->|K]; [|tauto].
    rewrite N.eqb_refl in E. discriminate.
Qed.

Lemma rsplit_dot_none : forall r, rsplit_dot r = None -> ~ In dot r.
Proof.
  induction r as [|c r IH]; intro H; cbn [rsplit_dot] in H; [intros []|].
  destruct (c =? dot) eqn:E; [discriminate|].
  destruct (rsplit_dot r) as [[]|]; [discriminate|]. cbn. intros [->|K].
  - rewrite N.eqb_refl in E. discriminate.
  - apply IH; auto.
Qed.

Lemma rsplit_dot_app : forall a b, ~ In dot a -> rsplit_dot (a ++ dot :: b) = Some (b, a).
Proof.
  induction a as [|c a IH]; intros b H; cbn [app rsplit_dot].
  - rewrite N.eqb_refl. reflexivity.
  - cbn in H. replace (c =? dot) with false by (symmetry; apply N.eqb_neq; intuition).
    rewrite IH by intuition. reflexivity.
Qed.

Lemma stem_ext_cases : forall name,
  (exists stem e, dotted name stem e /\ stem_ext name = (stem, Some e)) \/
  (undotted name /\ stem_ext name = (name, None)).
Proof.
  intro name. unfold stem_ext. destruct (rsplit_dot (rev name)) as [[b a]|] eqn:R.
  - apply rsplit_dot_some in R. destruct R as [R Ha]. apply rev_eq in R.
    rewrite rev_app_distr in R. cbn [rev] in R. rewrite <- app_assoc in R. cbn [app] in R.
    destruct b as [|c b].
    + right. split; [|reflexivity]. cbn [rev app] in R. subst name.
      intros x y E. destruct x as [|z x]; [reflexivity|]. cbn in E. injection E as <- E.
      exfalso. apply Ha. rewrite in_rev. rewrite E. apply in_or_app. right. left. reflexivity.
    + left. exists (rev (c :: b)), (rev a). split; [|reflexivity].
      split; [exact R|]. split; [|rewrite <- in_rev; exact Ha].
      intro K. apply (f_equal (@length _)) in K. rewrite rev_length in K. discriminate K.
  - right. split; [|reflexivity]. apply rsplit_dot_none in R. intros x y E. exfalso. apply R.
    rewrite <- in_rev, E. apply in_or_app. right. left. reflexivity.
Qed.

Lemma last_dot : forall (a b c d : str), a ++ dot :: b = c ++ dot :: d ->
  ~ In dot b -> ~ In dot d -> a = c /\ b = d.
Proof.
  induction a as [|x a IH]; intros b [|y c] d E Hb Hd; cbn in E.
  1: { injection E as E. auto. }
  all: injection E as E1 E2; subst.
  - exfalso. apply Hb. apply in_or_app. right. left. reflexivity.
  - exfalso. apply Hd. apply in_or_app. right. left. reflexivity.
  - destruct (IH b c d E2 Hb Hd) as [-> ->]. auto.
Qed.

Lemma dotted_unique : forall name s e s' e',
  dotted name s e -> dotted name s' e' -> s = s' /\ e = e'.
Proof.
  intros name s e s' e' (E & _ & H) (E' & _ & H'). subst name. eapply last_dot; eauto.
Qed.

Lemma dotted_undotted : forall name s e, dotted name s e -> undotted name -> False.
Proof. intros name s e (E & H & _) U. apply H. eapply U. exact E. Qed.

Lemma stem_ext_dotted : forall name stem e, dotted name stem e -> stem_ext name = (stem, Some e).
Proof.
  intros name stem e D. destruct (stem_ext_cases name) as [(s & x & D' & ->)|[U _]].
  - destruct (dotted_unique _ _ _ _ _ D D') as [-> ->]. reflexivity.
  - destruct (dotted_undotted _ _ _ D U).
Qed.

Lemma stem_ext_undotted : forall name, undotted name -> stem_ext name = (name, None).
Proof.
  intros name U. destruct (stem_ext_cases name) as [(s & x & D' & _)|[_ E]]; [|exact E].
  destruct (dotted_undotted _ _ _ D' U).
Qed.

Lemma extension_spec : forall p e,
  extension p = Some e <->
  exists pre name trail stem, names p pre name trail /\ dotted name stem e.
Proof.
  intros p e. unfold extension. split.
  - destruct (split_path p) as [[pre name]|] eqn:E; [|discriminate].
    apply split_path_some in E. destruct E as (trail & Hn). intro H.
    destruct (stem_ext_cases name) as [(s & x & D & E)|[_ E]]; rewrite E in H; [|discriminate].
    cbn in H. injection H as ->. eauto 6.
  - intros (pre & name & trail & stem & Hn & D).
    replace (split_path p) with (Some (pre, name)) by (symmetry; apply split_path_some; eauto).
    rewrite (stem_ext_dotted _ _ _ D). reflexivity.
Qed.

(** ** Renaming *)

Lemma set_extension_renamed : forall p t w o, word t = Some w ->
  renamed p t o -> set_extension p (S_ "min." ++ as_str t) = o.
Proof.
  intros p t w o Hw (w' & pre & name & trail & stem & Hw' & Hn & Hs & ->).
  assert (w' = as_str t) by (destruct t; cbn [word as_str] in *; congruence).
  subst w'. unfold set_extension.
  replace (split_path p) with (Some (pre, name)) by (symmetry; apply split_path_some; eauto).
  destruct Hs as [(e & D)|[U ->]].
  - rewrite (stem_ext_dotted _ _ _ D). reflexivity.
  - rewrite (stem_ext_undotted _ U). reflexivity.
Qed.

Lemma names_renamed : forall p t w pre name trail, word t = Some w -> names p pre name trail ->
  exists o, renamed p t o.
Proof.
  intros p t w pre name trail Hw Hn.
  destruct (stem_ext_cases name) as [(s & e & D & _)|[U _]].
  - eexists. exists w, pre, name, trail, s. eauto 8.
  - eexists. exists w, pre, name, trail, name. eauto 8.
Qed.

Lemma renamed_unique : forall p t o o', renamed p t o -> renamed p t o' -> o = o'.
Proof.
  intros p t o o' H H'. assert (exists w, word t = Some w) as (w & Hw)
    by (destruct H as (w & ? & ? & ? & ? & Hw & _); eauto).
  rewrite <- (set_extension_renamed p t w o Hw H).
  apply (set_extension_renamed p t w o' Hw H').
Qed.

(** ** Joining *)

Lemma push_joined : forall d p q, joined d p q -> push d p = q.
Proof.
  intros d p q H. unfold push. destruct H as [r Hp|d' Ha Hd|Ha Hne Hd].
  - subst p. cbn [is_absolute]. rewrite N.eqb_refl. reflexivity.
  - rewrite Ha. subst d. rewrite rev_app_distr. cbn [rev app]. rewrite N.eqb_refl. reflexivity.
  - rewrite Ha. destruct (rev d) as [|c r] eqn:R; [apply rev_eq in R; contradiction|].
    destruct (c =? slash) eqn:E; [|reflexivity].
    apply N.eqb_eq in E. subst c. apply rev_eq in R. cbn [rev] in R. destruct (Hd (rev r) R).
Qed.

Lemma joined_push : forall d p, d <> [] -> joined d p (push d p).
Proof.
  intros d p Hd. unfold push. destruct (is_absolute p) eqn:Ha.
  - destruct p as [|c r]; [discriminate|]. cbn in Ha. apply N.eqb_eq in Ha. subst c.
    apply joined_absolute with (r := r). reflexivity.
  - destruct (rev d) as [|c r] eqn:R; [apply rev_eq in R; contradiction|].
    apply rev_eq in R. cbn [rev] in R. destruct (c =? slash) eqn:E.
    + apply N.eqb_eq in E. subst c. eapply joined_ended; eauto.
    + apply joined_open; [assumption|assumption|]. intros d' K. rewrite R in K.
      apply app_inj_tail in K. destruct K as [_ ->]. rewrite N.eqb_refl in E. discriminate.
Qed.

(** Joining keeps the last name. *)
Lemma joined_names : forall d p q pre name trail,
  joined d p q -> names p pre name trail -> exists pre', names q pre' name trail.
Proof.
  intros d p q pre name trail H (-> & Hpre & Hr).
  destruct H as [r Hp|d' Ha Hd|Ha Hne Hd].
  - exists pre. split; [reflexivity|]. split; assumption.
  - exists (d ++ pre). split; [rewrite <- app_assoc; reflexivity|]. split; [|exact Hr].
    right. destruct Hpre as [-> | (x & ->)].
    + exists d'. rewrite app_nil_r. exact Hd.
    + exists (d ++ x). rewrite app_assoc. reflexivity.
  - exists (d ++ slash :: pre). split; [rewrite <- app_assoc; reflexivity|]. split; [|exact Hr].
    right. destruct Hpre as [-> | (x & ->)].
    + exists d. reflexivity.
    + exists (d ++ slash :: x). rewrite <- app_assoc. reflexivity.
Qed.
