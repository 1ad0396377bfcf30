(** Tags left out. *)
From Coq Require Import String List NArith Bool Arith Lia ZifyBool ZifyN Relations.
From Verif Require Import Base HtmlModel HtmlSpec HtmlProofs1 HtmlProofs2.
Import ListNotations.
Open Scope N_scope.

(** The list of the model is the list of the specification. *)
Definition spec_tags : list str :=
  map (fun n => S_ "<" ++ n ++ S_ ">") droppable_open ++ map (fun n => S_ "</" ++ n ++ S_ ">") droppable_close.

Lemma spec_tags_iff : forall t, In t spec_tags <-> droppable t.
Proof.
  intro t. unfold spec_tags, droppable. rewrite in_app_iff, !in_map_iff. split.
  - intros [(n & <- & I) | (n & <- & I)]; [left | right]; exists n; auto.
  - intros [(n & I & ->) | (n & I & ->)]; [left | right]; exists n; auto.
Qed.

Definition inb (l : list str) (t : str) : bool := existsb (str_eqb t) l.

Lemma inb_iff : forall l t, inb l t = true <-> In t l.
Proof.
  intros l t. unfold inb. rewrite existsb_exists. split.
  - intros (x & I & E). apply str_eqb_eq in E. subst. exact I.
  - intro I. exists t. split; [exact I | apply str_eqb_refl].
Qed.

Lemma useless_iff : forall t, In t useless_tags <-> droppable t.
Proof.
  intro t. rewrite <- spec_tags_iff.
  assert (A : forallb (inb spec_tags) useless_tags = true) by (vm_compute; reflexivity).
  assert (B : forallb (inb useless_tags) spec_tags = true) by (vm_compute; reflexivity).
  rewrite forallb_forall in A, B. split; intro I; apply inb_iff; auto.
Qed.

(** The shape of such a tag. *)
Lemma droppable_shape : forall t, droppable t -> exists x, t = [lt] ++ x ++ [gt] /\ ~ In lt x /\ ~ In gt x.
Proof.
  intros t D. apply spec_tags_iff in D.
  assert (A : forallb (fun t => match t with
      | c :: r => (c =? lt) && negb (existsb (N.eqb lt) r) && negb (existsb (N.eqb gt) (removelast r)) &&
                  (last r 0 =? gt)
      | [] => false end) spec_tags = true) by (vm_compute; reflexivity).
  rewrite forallb_forall in A. specialize (A _ D). destruct t as [|c r]; [discriminate|].
  rewrite !andb_true_iff, !negb_true_iff in A. destruct A as [[[A1 A2] A3] A4].
  apply N.eqb_eq in A1. apply N.eqb_eq in A4. subst c.
  assert (Hr : r <> []) by (intros ->; discriminate A4).
  assert (H : forall q l, existsb (N.eqb q) l = false -> ~ In q l).
  { intros q l Hq I. assert (existsb (N.eqb q) l = true); [|congruence].
    apply existsb_exists. exists q. split; [exact I | apply N.eqb_refl]. }
  exists (removelast r). pose proof (app_removelast_last 0 Hr) as Er. rewrite A4 in Er. repeat split.
  - cbn. now rewrite <- Er.
  - intro I. apply (H _ _ A2). rewrite Er. apply in_app_iff. now left.
  - apply H. exact A3.
Qed.

Lemma drops_cons : forall c s t, clos_refl_trans str drops s t -> clos_refl_trans str drops (c :: s) (c :: t).
Proof.
  intros c s t H. induction H as [s t H|s|s t u H1 IH1 H2 IH2].
  - apply rt_step. destruct H as [a t b D]. exact (dr (c :: a) t b D).
  - apply rt_refl.
  - eapply rt_trans; eassumption.
Qed.

Lemma replace_drops : forall p s, droppable p -> clos_refl_trans str drops s (str_replace p [] s).
Proof.
  intros p s D.
  assert (Hp : p <> []) by (destruct (droppable_shape _ D) as (x & -> & _); discriminate).
  pose proof (str_replace_rewrites p [] s Hp) as R.
  remember (str_replace p [] s) as t eqn:Et. clear Et.
  induction R as [|c s t Hn R IH|m m' r t Hm Lm Fm R IH].
  - apply rt_refl.
  - apply drops_cons. exact IH.
  - subst m m'. cbn [app]. eapply rt_trans; [|exact IH]. apply rt_step. exact (dr [] p r D).
Qed.

Lemma clean_drops : forall s, clos_refl_trans str drops s (clean_unneeded_tags s).
Proof.
  intro s. unfold clean_unneeded_tags.
  assert (H : forall t, In t useless_tags -> droppable t) by (intros; now apply useless_iff).
  revert s H. induction useless_tags as [|p l IH]; intros s H; [apply rt_refl|]. cbn [fold_left].
  eapply rt_trans; [apply (replace_drops p); apply H; now left|]. apply IH. intros t I. apply H. now right.
Qed.

Lemma str_replace_none : forall p b s, p <> [] -> ~ occurs p s -> str_replace p b s = s.
Proof.
  intros p b s Hp. induction s as [|c s IH]; intro H; rewrite str_replace_eq by exact Hp.
  - destruct (strip p []) as [t|] eqn:E; [|reflexivity]. apply strip_spec in E. destruct p; [contradiction | discriminate].
  - destruct (strip p (c :: s)) as [t|] eqn:E.
    + exfalso. apply H. apply strip_spec in E. exists [], t. exact E.
    + f_equal. apply IH. intros (a & b' & ->). apply H. exists (c :: a), b'. reflexivity.
Qed.

Lemma clean_none : forall s, (forall t, droppable t -> ~ occurs t s) -> clean_unneeded_tags s = s.
Proof.
  intros s H. unfold clean_unneeded_tags.
  assert (H' : forall t, In t useless_tags -> t <> [] /\ ~ occurs t s).
  { intros t I. apply useless_iff in I. split; [|auto].
    destruct (droppable_shape _ I) as (x & -> & _). discriminate. }
  clear H. induction useless_tags as [|p l IH]; [reflexivity|]. cbn [fold_left].
  destruct (H' p (or_introl eq_refl)) as [H1 H2]. rewrite (str_replace_none p [] s H1 H2).
  apply IH. intros t I. apply H'. now right.
Qed.

(** ** Documents in pieces *)

Lemma replace_copy : forall x y s, ~ In lt x ->
  str_replace ([lt] ++ y ++ [gt]) [] (x ++ s) = x ++ str_replace ([lt] ++ y ++ [gt]) [] s.
Proof.
  induction x as [|c x IH]; intros y s H; [reflexivity|].
  rewrite str_replace_eq by discriminate. cbn [app strip].
  destruct (N.eqb_spec lt c) as [<- | Ne]; [exfalso; apply H; now left|].
  f_equal. apply (IH y s). intro I. apply H. now right.
Qed.

Lemma replace_piece : forall p q s, droppable p -> piece q ->
  str_replace p [] (q ++ s) = (if str_eqb q p then [] else q) ++ str_replace p [] s.
Proof.
  intros p q s D Q. destruct (droppable_shape _ D) as (y & -> & Y1 & Y2).
  destruct Q as [q H|x X1 X2].
  - replace (str_eqb q ([lt] ++ y ++ [gt])) with false.
    + apply replace_copy. exact H.
    + symmetry. apply str_eqb_neq. intros ->. apply H. now left.
  - destruct (str_eqb ([lt] ++ x ++ [gt]) ([lt] ++ y ++ [gt])) eqn:E.
    + apply str_eqb_eq in E. rewrite E. rewrite str_replace_eq by discriminate.
      rewrite (proj2 (strip_spec _ _ s) eq_refl). reflexivity.
    + apply str_eqb_neq in E. rewrite str_replace_eq by discriminate.
      destruct (strip ([lt] ++ y ++ [gt]) (([lt] ++ x ++ [gt]) ++ s)) as [t|] eqn:Es.
      * exfalso. apply E. apply strip_spec in Es. rewrite <- !app_assoc in Es. cbn [app] in Es.
        injection Es as Es. apply first_split in Es; [|assumption..]. subst. reflexivity.
      * cbn [app]. f_equal. apply (replace_copy (x ++ [gt]) y s).
        rewrite in_app_iff. intros [I | [I | []]]; [contradiction | discriminate].
Qed.

Lemma replace_pieces : forall p ps, droppable p -> Forall piece ps ->
  str_replace p [] (concat ps) = concat (filter (fun q => negb (str_eqb q p)) ps).
Proof.
  intros p ps D H. induction H as [|q ps Q H IH].
  - rewrite str_replace_eq; [|destruct (droppable_shape _ D) as (x & -> & _); discriminate].
    destruct (droppable_shape _ D) as (x & -> & _). reflexivity.
  - cbn [concat filter]. rewrite (replace_piece p q (concat ps) D Q), IH.
    destruct (str_eqb q p); reflexivity.
Qed.

Lemma kept_filter : forall ps qs, kept ps qs -> qs = filter (fun q => negb (inb useless_tags q)) ps.
Proof.
  intros ps qs K. induction K as [|p ps qs D K IH|p ps qs D K IH]; [reflexivity|..]; cbn [filter].
  - apply useless_iff, inb_iff in D. rewrite D. exact IH.
  - destruct (inb useless_tags p) eqn:E; [|cbn; now rewrite IH].
    exfalso. apply D. apply useless_iff, inb_iff. exact E.
Qed.

Lemma clean_pieces : forall ps qs, Forall piece ps -> kept ps qs ->
  clean_unneeded_tags (concat ps) = concat qs.
Proof.
  intros ps qs H K. rewrite (kept_filter _ _ K). clear qs K. unfold clean_unneeded_tags.
  assert (HD : forall t, In t useless_tags -> droppable t) by (intros; now apply useless_iff).
  revert ps H HD. induction useless_tags as [|p l IH]; intros ps H HD.
  - cbn. f_equal. induction ps as [|q ps IHp]; [reflexivity|]. cbn. inversion H. f_equal. auto.
  - cbn [fold_left]. rewrite (replace_pieces p ps (HD p (or_introl eq_refl)) H).
    rewrite IH; [|apply incl_Forall with ps; [intros q I; now apply filter_In in I | exact H] | intros t I; apply HD; now right].
    f_equal. clear. induction ps as [|q ps IHp]; [reflexivity|]. cbn [filter inb existsb].
    destruct (str_eqb q p) eqn:E; cbn [negb orb]; [exact IHp|]. cbn [filter].
    change (existsb (str_eqb q) l) with (inb l q). destruct (inb l q); cbn [negb]; [exact IHp | now rewrite IHp].
Qed.

(** No tag to drop is left in such a document. *)
Lemma occurs_pieces : forall t ps, Forall piece ps -> droppable t -> occurs t (concat ps) -> In t ps.
Proof.
  intros t ps H D (a & b & E). destruct (droppable_shape _ D) as (y & -> & Y1 & Y2).
  revert a E. induction H as [|q ps Q H IH]; intros a E.
  - destruct a; discriminate.
  - cbn [concat] in E. destruct (Nat.le_gt_cases (length q) (length a)) as [Hl|Hl].
    + right. apply (IH (skipn (length q) a)). apply (f_equal (skipn (length q))) in E.
      rewrite !skipn_app, skipn_all, Nat.sub_diag in E. cbn [app skipn] in E.
      replace (length q - length a)%nat with 0%nat in E by lia. exact E.
    + left. assert (Hq : q = a ++ skipn (length a) q).
      { assert (F : firstn (length a) q = a).
        { apply (f_equal (firstn (length a))) in E. rewrite !firstn_app in E.
          replace (length a - length q)%nat with 0%nat in E by lia.
          rewrite Nat.sub_diag in E. cbn [firstn] in E. rewrite !app_nil_r, firstn_all in E. exact E. }
        rewrite <- F at 1. symmetry. apply firstn_skipn. }
      remember (skipn (length a) q) as d eqn:Ed. clear Ed.
      rewrite Hq in E. rewrite <- !app_assoc in E. apply app_inv_head in E.
      destruct d as [|c d]; [rewrite app_nil_r in Hq; subst; lia|]. injection E as -> E.
      assert (Il : In lt q) by (rewrite Hq; apply in_app_iff; right; now left).
      destruct Q as [q Hn|x X1 X2]; [contradiction|].
      destruct a as [|c a].
      * cbn [app] in Hq. injection Hq as <-. rewrite <- app_assoc in E. cbn [app] in E.
        apply first_split in E; [|assumption..]. now subst.
      * exfalso. injection Hq as _ Hq. assert (I : In lt (x ++ [gt])) by (rewrite Hq; apply in_app_iff; right; now left).
        apply in_app_iff in I. destruct I as [I | [I | []]]; [contradiction | discriminate].
Qed.

Lemma kept_in : forall ps qs, kept ps qs -> forall t, In t qs -> In t ps /\ ~ droppable t.
Proof.
  intros ps qs K. induction K as [|p ps qs D K IH|p ps qs D K IH]; intros t I.
  - contradiction.
  - destruct (IH t I). split; [now right | assumption].
  - destruct I as [<- | I]; [split; [now left | assumption]|]. destruct (IH t I). split; [now right | assumption].
Qed.

Lemma clean_gone : forall ps qs, Forall piece ps -> kept ps qs ->
  forall t, droppable t -> ~ occurs t (concat qs).
Proof.
  intros ps qs H K t D O. assert (Hq : Forall piece qs).
  { rewrite Forall_forall in H |- *. intros q I. apply H. exact (proj1 (kept_in _ _ K q I)). }
  pose proof (occurs_pieces t qs Hq D O) as I. exact (proj2 (kept_in _ _ K t I) D).
Qed.
