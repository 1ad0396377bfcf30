(** Start tags and attributes. *)
From Coq Require Import String List NArith Bool Arith Lia ZifyBool ZifyN.
From Verif Require Import Base HtmlModel HtmlSpec HtmlProofs1 HtmlProofs2 HtmlProofs3 HtmlProofs5.
Import ListNotations.
Open Scope N_scope.

(** ** Skeletons *)

Definition blank_cons (l : str) : str := match l with 0x20 :: _ => l | _ => 0x20 :: l end.

Lemma skeleton_cons : forall c s, skeleton (c :: s) = if is_whitespace c then blank_cons (skeleton s) else c :: skeleton s.
Proof. reflexivity. Qed.

Lemma blank_cons_idem : forall l, blank_cons (blank_cons l) = blank_cons l.
Proof.
  intros [|e u]; [reflexivity|]. destruct e as [|e]; [reflexivity|].
  do 6 (try destruct e as [e|e|]; try reflexivity).
Qed.

Lemma blank_cons_cases : forall l, (exists u, l = 0x20 :: u /\ blank_cons l = l) \/ blank_cons l = 0x20 :: l.
Proof.
  intros [|e u]; [now right|]. destruct (N.eq_dec e 0x20) as [-> | Ne]; [left; eauto|]. right.
  destruct e as [|e]; [reflexivity|].
  do 6 (try destruct e as [e|e|]; try reflexivity). contradiction.
Qed.

Lemma skeleton_blanks_app : forall a b, skeleton (a ++ b) = skeleton (skeleton a ++ b).
Proof.
  induction a as [|c a IH]; intro b; [reflexivity|]. cbn [app]. rewrite !skeleton_cons.
  destruct (is_whitespace c) eqn:Ec.
  - rewrite IH. destruct (blank_cons_cases (skeleton a)) as [(u & Eu & E) | E]; rewrite E.
    + rewrite Eu. cbn [app]. rewrite skeleton_cons. change (is_whitespace 0x20) with true. cbv iota.
      apply blank_cons_idem.
    + cbn [app]. rewrite skeleton_cons. reflexivity.
  - cbn [app]. rewrite skeleton_cons, Ec, IH. reflexivity.
Qed.

Lemma skeleton_app_r : forall a b b', skeleton b = skeleton b' -> skeleton (a ++ b) = skeleton (a ++ b').
Proof.
  induction a as [|c a IH]; intros b b' E; [exact E|]. cbn [app]. rewrite !skeleton_cons, (IH _ _ E). reflexivity.
Qed.

Lemma skeleton_app : forall a a' b b', skeleton a = skeleton a' -> skeleton b = skeleton b' ->
  skeleton (a ++ b) = skeleton (a' ++ b').
Proof.
  intros a a' b b' Ea Eb. rewrite (skeleton_blanks_app a), (skeleton_blanks_app a'), Ea.
  apply skeleton_app_r. exact Eb.
Qed.

Lemma skeleton_two : forall w w', w <> [] -> w' <> [] -> blanks w -> blanks w' -> skeleton w = skeleton w'.
Proof.
  intros w w' H H' W W'. rewrite <- (app_nil_r w), <- (app_nil_r w').
  rewrite !skeleton_run by (assumption || (intros c r E; discriminate E)). reflexivity.
Qed.

(** ** Changes of white space *)

(** [t] is [s] with other white space, not more, and the same when [s] is tidy. *)
Definition respaced (s t : str) : Prop :=
  skeleton t = skeleton s /\ (length t <= length s)%nat /\ (tidy s -> t = s) /\ incl t (0x20 :: s).

Lemma incl_cons2 : forall (c : N) t s, incl t (0x20 :: s) -> incl (c :: t) (0x20 :: c :: s).
Proof. intros c t s H x [-> | I]; [now right; left|]. destruct (H x I) as [K | K]; [now left | now right; right]. Qed.

Lemma incl_app2 : forall p q r t : str, incl q (0x20 :: p) -> incl t (0x20 :: r) -> incl (q ++ t) (0x20 :: p ++ r).
Proof.
  intros p q r t H1 H2 x I. apply in_app_iff in I. destruct I as [I | I]; [apply H1 in I | apply H2 in I];
    (destruct I as [I | I]; [now left | right; apply in_app_iff; tauto]).
Qed.

Lemma incl_self : forall s : str, incl s (0x20 :: s).
Proof. intros s x I. now right. Qed.

Lemma respaced_refl : forall s, respaced s s.
Proof. intro s. repeat split; auto using incl_self. Qed.

Lemma respaced_trans : forall s t u, respaced s t -> respaced t u -> respaced s u.
Proof.
  intros s t u (A1 & A2 & A3 & A4) (B1 & B2 & B3 & B4). repeat split; [congruence | lia| |].
  - intro T. specialize (A3 T). subst t. auto.
  - intros x I. destruct (B4 x I) as [K | K]; [now left | exact (A4 x K)].
Qed.

Lemma tidy_mid : forall a s b, tidy (a ++ s ++ b) -> tidy s.
Proof.
  intros a s b T x c d y -> K. apply (T (a ++ x) c d (y ++ b)); [|exact K].
  rewrite <- !app_assoc. reflexivity.
Qed.

(** Replacing a text by one that differs in white space. *)
Lemma str_replace_respaced : forall p q s, p <> [] -> respaced p q -> respaced s (str_replace p q s).
Proof.
  intros p q s Hp (Q1 & Q2 & Q3 & Q4). pose proof (str_replace_rewrites p q s Hp) as R.
  remember (str_replace p q s) as t eqn:Et. clear Et.
  induction R as [|c s t Hn R (I1 & I2 & I3 & I4)|m m' r t Hm Lm Fm R (I1 & I2 & I3 & I4)].
  - apply respaced_refl.
  - repeat split; [cbn; now rewrite I1 | cbn; lia| | now apply incl_cons2]. intro T. f_equal. apply I3.
    apply (tidy_mid [c] s []). now rewrite app_nil_r.
  - subst m m'. repeat split; [now apply skeleton_app | rewrite !app_length; lia| | now apply incl_app2]. intro T.
    rewrite Q3 by exact (tidy_mid [] p r T). f_equal. apply I3.
    apply (tidy_mid p r []). now rewrite app_nil_r.
Qed.

Lemma blanks_not_tidy : forall m, (2 <= length m)%nat -> blanks m -> forall a b, ~ tidy (a ++ m ++ b).
Proof.
  intros m Hm B a b T. destruct m as [|c [|d m]]; try (cbn in Hm; lia).
  apply (T a c d (m ++ b) eq_refl). inversion B as [|? ? B1 B2]. inversion B2. auto.
Qed.

Lemma extra_match : forall s l t, m_alt re_extra_spaces s = Some (l, t) ->
  concat l <> [] /\ ((2 <= length (concat l))%nat /\ blanks (concat l)).
Proof.
  intros s l t H. apply m_alt_fits in H. destruct H as (a & [<- | [<- | []]] & _ & _ & F).
  - inversion F as [|p c r l' Pc F2| |]; subst. inversion F2 as [| |p n w r l2 P Hn F3|]; subst. inversion F3; subst.
    apply N.eqb_eq in Pc. subst c. cbn [concat app]. rewrite app_nil_r. repeat split.
    + discriminate.
    + cbn. lia.
    + constructor; [reflexivity | exact P].
  - inversion F as [|p c r l' Pc F2| |]; subst. inversion F2 as [| |p n w r l2 P Hn F3|]; subst. inversion F3; subst.
    cbn [concat app]. rewrite app_nil_r. repeat split.
    + discriminate.
    + cbn. lia.
    + constructor; [exact Pc|]. apply Forall_impl with (2 := P). intros d Hd. apply N.eqb_eq in Hd. now subst d.
Qed.

Lemma subst_respaced : forall n s, (length s <= n)%nat ->
  respaced s (subst_loop n re_extra_spaces (S_ " ") s).
Proof.
  induction n as [|n IH]; intros s Hs; [apply respaced_refl|]. cbn [subst_loop].
  destruct (m_alt re_extra_spaces s) as [[l t]|] eqn:E.
  - destruct (extra_match _ _ _ E) as (_ & Hl & B). apply m_alt_fits in E. destruct E as (_ & _ & _ & -> & _).
    rewrite app_length in Hs. destruct (IH t ltac:(lia)) as (I1 & I2 & I3 & I4). repeat split.
    + apply skeleton_app; [|exact I1]. apply skeleton_two; try assumption.
      * discriminate.
      * destruct (concat l); [cbn in Hl; lia | discriminate].
      * repeat constructor.
    + rewrite !app_length. change (length (S_ " ")) with 1%nat. lia.
    + intro T. exfalso. exact (blanks_not_tidy _ Hl B [] t T).
    + apply incl_app2; [|exact I4]. intros x [<- | []]. now left.
  - destruct s as [|c s]; [apply respaced_refl|]. destruct (IH s) as (I1 & I2 & I3 & I4); [cbn in Hs; lia|].
    repeat split; [rewrite !skeleton_cons; now rewrite I1 | cbn [length]; lia| | now apply incl_cons2]. intro T. f_equal. apply I3.
    apply (tidy_mid [c] s []). now rewrite app_nil_r.
Qed.

Lemma extra_respaced : forall s, respaced s (re_subst_all re_extra_spaces (S_ " ") s).
Proof. intro s. apply subst_respaced. reflexivity. Qed.

Lemma spaces_loop_respaced : forall m1 m6 tag,
  Forall (fun m => m <> []) m1 -> Forall (fun m => m <> []) m6 -> respaced tag (spaces_loop m1 m6 tag).
Proof.
  assert (S1 : forall r tag, r <> [] -> respaced tag (str_replace r (re_subst_all re_extra_spaces (S_ " ") r) tag)).
  { intros r tag Hr. apply str_replace_respaced; [exact Hr | apply extra_respaced]. }
  induction m1 as [|a m1 IH]; intros m6 tag H1 H6.
  - destruct m6 as [|b m6]; [apply respaced_refl|]. cbn [spaces_loop].
    inversion H6 as [|? ? Hb H6']; subst. eapply respaced_trans; [apply (S1 b tag Hb)|].
    generalize (str_replace b (re_subst_all re_extra_spaces (S_ " ") b) tag) as u. clear -S1 H6'.
    induction H6' as [|b' m6' Hb H6 IH6]; intro u; [apply respaced_refl|].
    eapply respaced_trans; [apply (S1 b' u Hb) | apply IH6].
  - inversion H1 as [|? ? Ha H1']; subst. destruct m6 as [|b m6]; cbn [spaces_loop].
    + eapply respaced_trans; [apply S1; exact Ha | apply IH; assumption].
    + inversion H6 as [|? ? Hb H6']; subst.
      eapply respaced_trans; [apply S1 | apply IH; assumption].
      intro Z. apply app_eq_nil in Z. destruct Z. contradiction.
Qed.

(** The texts that [find_iter] finds. *)
Lemma find_iter_in : forall r s m, In m (re_find_iter r s) -> exists s' l t, m_alt r s' = Some (l, t) /\ m = concat l.
Proof.
  intros r s m. unfold re_find_iter. generalize (length s) as n. intro n. revert s.
  induction n as [|n IH]; intros s I; [contradiction|]. cbn [find_loop] in I.
  destruct (m_alt r s) as [[l t]|] eqn:E.
  - destruct I as [<- | I]; [exists s, l, t; auto | eauto].
  - destruct s; [contradiction | eauto].
Qed.

Lemma find_iter_nonempty : forall r s,
  (forall a, In a r -> exists p r', a = One p :: r') -> Forall (fun m => m <> []) (re_find_iter r s).
Proof.
  intros r s H. apply Forall_forall. intros m I. destruct (find_iter_in _ _ _ I) as (s' & l & t & E & ->).
  apply m_alt_fits in E. destruct E as (a & Ia & _ & _ & F). destruct (H a Ia) as (p & r' & ->).
  inversion F; subst. discriminate.
Qed.

(** An attribute with more than one white space before it. *)
Lemma attribute_match : forall wu s l t, m_alt (re_extra_spaces2 wu) s = Some (l, t) ->
  exists q w rest, (q = dquote \/ q = squote) /\ (2 <= length w)%nat /\ blanks w /\ concat l = q :: w ++ rest.
Proof.
  intros wu s l t H. apply m_alt_fits in H. destruct H as (a & Ia & _ & _ & F).
  assert (exists q q', (q = dquote \/ q = squote) /\ a = re_attribute wu q q') as (q & q' & Hq & ->).
  { destruct Ia as [<- | [<- | [<- | [<- | []]]]]; repeat eexists; auto. }
  unfold re_attribute in F. cbn [app] in F.
  inversion F as [|p c r l' Pc F2| |]; subst. apply N.eqb_eq in Pc. subst c.
  inversion F2 as [|p c r l2 Pb F3| |]; subst. inversion F3 as [| |p n w r l3 P Hn F4|]; subst.
  exists q, (c :: w), (concat l3). repeat split.
  - exact Hq.
  - cbn. lia.
  - constructor; [exact Pb | exact P].
Qed.

Lemma attributes_loop_respaced : forall wu s ms output, incl ms (re_find_iter (re_extra_spaces2 wu) s) ->
  exists t, attributes_loop ms output = Ok t /\ respaced output t.
Proof.
  intros wu s ms. induction ms as [|m ms IH]; intros output Hi.
  - exists output. split; [reflexivity | apply respaced_refl].
  - destruct (find_iter_in _ _ _ (Hi m (or_introl eq_refl))) as (s' & l & t & E & Em).
    destruct (attribute_match _ _ _ _ E) as (q & w & rest & Hq & Hw & W & El). rewrite El in Em. subst m.
    cbn [attributes_loop].
    assert (Es : slice_from (q :: w ++ rest) 1 = Some (w ++ rest)).
    { destruct Hq as [-> | ->]; cbn; destruct (w ++ rest); reflexivity. }
    rewrite Es. cbn [oslice obind].
    assert (Hq0 : (q =? 0) = false) by (destruct Hq as [-> | ->]; reflexivity). rewrite Hq0.
    rewrite (trim_start_app_blank w rest W). destruct (trim_start_spec rest) as (x & X & Ex & _).
    destruct (IH (str_replace (q :: w ++ rest) ([q] ++ S_ " " ++ trim_start rest) output)) as (t' & Et & Rt).
    { intros y Iy. apply Hi. now right. }
    exists t'. split; [exact Et|]. eapply respaced_trans; [|exact Rt].
    apply str_replace_respaced; [discriminate|]. repeat split.
    + rewrite Ex at 2. rewrite (app_assoc w x). change (q :: (w ++ x) ++ trim_start rest) with ([q] ++ (w ++ x) ++ trim_start rest).
      apply skeleton_app_r. apply skeleton_app; [|reflexivity]. apply skeleton_two.
      * discriminate.
      * destruct w; [cbn in Hw; lia | discriminate].
      * repeat constructor.
      * apply Forall_app. split; assumption.
    + rewrite Ex at 2. cbn [app length S_]. rewrite !app_length. cbn. lia.
    + intro T. exfalso. exact (blanks_not_tidy w Hw W [q] rest T).
    + intros y Iy. cbn [app S_] in Iy. destruct Iy as [<- | [<- | Iy]]; [now right; left | now left|].
      right. right. apply in_app_iff. right. rewrite Ex. apply in_app_iff. now right.
Qed.

(** ** White space before the end of the tag *)

Inductive before_close (q : N) : str -> str -> Prop :=
| bc : forall w r, w <> [] -> blanks w -> before_close q ([q] ++ w ++ [gt]) r.

Lemma close_match : forall q s l t, m_alt [[One (N.eqb q); Greedy is_whitespace 1; One (N.eqb 0x3E)]] s = Some (l, t) ->
  concat l <> [] /\ before_close q (concat l) t.
Proof.
  intros q s l t H. apply m_alt_fits in H. destruct H as (a & [<- | []] & _ & _ & F).
  inversion F as [|p c r l' Pc F2| |]; subst. inversion F2 as [| |p n w r l2 P Hn F3|]; subst.
  inversion F3 as [|p d r l3 Pd F4| |]; subst. inversion F4; subst.
  apply N.eqb_eq in Pc. apply N.eqb_eq in Pd. subst. cbn [concat app]. split; [discriminate|].
  apply (bc c w t); [|exact P]. destruct w; [cbn in Hn; lia | discriminate].
Qed.

Lemma close_found : forall q m t, before_close q m t ->
  m_alt [[One (N.eqb q); Greedy is_whitespace 1; One (N.eqb 0x3E)]] (m ++ t) <> None.
Proof.
  intros q m t H. destruct H as [w r Hw W].
  apply (fits_m_alt [[One (N.eqb q); Greedy is_whitespace 1; One (N.eqb 0x3E)]] [One (N.eqb q); Greedy is_whitespace 1; One (N.eqb 0x3E)] [[q]; w; [gt]] r (or_introl eq_refl)).
  constructor; [apply N.eqb_refl|]. constructor; [exact W | destruct w; [contradiction | cbn; lia]|].
  constructor; [reflexivity | constructor].
Qed.

Lemma blanks_notin : forall w c, blanks w -> is_whitespace c = false -> ~ In c w.
Proof. intros w c W Hc I. apply (proj1 (Forall_forall _ _) W) in I. unfold blank in I. congruence. Qed.

Lemma close_det : forall q m r m' r', before_close q m r -> before_close q m' r' -> m ++ r = m' ++ r' -> m = m'.
Proof.
  intros q m r m' r' H H' E. destruct H as [w r _ W], H' as [w' r' _ W'].
  cbn [app] in E. injection E as E. rewrite <- !app_assoc in E. cbn [app] in E.
  apply first_split in E; [now subst|..]; apply blanks_notin; trivial.
Qed.

Lemma rewrites_copy : forall (L F : str -> str -> Prop) x s t,
  (forall a c b m r, x = a ++ c :: b -> c :: b ++ s = m ++ r -> ~ L m r) ->
  rewrites L F s t -> rewrites L F (x ++ s) (x ++ t).
Proof.
  intros L F x s t. induction x as [|c x IH]; intros H R; [exact R|]. cbn [app]. apply rw_char.
  - intros m r E. exact (H [] c x m r eq_refl E).
  - apply IH; [|exact R]. intros a d b m r Ex E. apply (H (c :: a) d b m r); [now rewrite Ex | exact E].
Qed.

Definition close_q (q : N) (s : str) : str :=
  re_subst_all [[One (N.eqb q); Greedy is_whitespace 1; One (N.eqb 0x3E)]] [q; gt] s.

Lemma close_q_eq : forall q s t, rewrites (before_close q) (fun _ m' => m' = [q; gt]) s t -> close_q q s = t.
Proof.
  intros q s t R. refine (rewrites_det _ _ (close_det q) _ _ _ _ _ R); [intros; congruence|].
  exact (re_subst_all_rewrites _ _ _ (close_match q) (close_found q) s).
Qed.

(** In a text with a single [>], at its end. *)
Lemma close_q_yes : forall q x w, is_whitespace q = false -> ~ In gt (x ++ [q]) -> w <> [] -> blanks w ->
  close_q q (x ++ [q] ++ w ++ [gt]) = x ++ [q; gt].
Proof.
  intros q x w Hq Hg Hw W. apply close_q_eq. apply rewrites_copy.
  - intros a c b m r -> E B. destruct B as [w' r' Hw' W']. cbn [app] in E. injection E as -> E.
    rewrite <- app_assoc in E. cbn [app] in E.
    assert (E2 : (b ++ q :: w) ++ gt :: [] = w' ++ gt :: r') by (rewrite <- app_assoc; exact E).
    apply first_split in E2.
    + subst w'. apply Forall_app in W'. destruct W' as [_ W']. inversion W'. unfold blank in *. congruence.
    + rewrite in_app_iff. intros [I | [-> | I]].
      * apply Hg. rewrite !in_app_iff. left. right. now right.
      * apply Hg. apply in_app_iff. right. now left.
      * exact (blanks_notin w gt W eq_refl I).
    + apply blanks_notin; trivial.
  - replace ([q] ++ w ++ [gt]) with (([q] ++ w ++ [gt]) ++ []) by apply app_nil_r.
    rewrite <- (app_nil_r [q; gt]). apply rw_match; [discriminate | now constructor | reflexivity | constructor].
Qed.

Lemma close_q_no : forall q s, ~ In gt s -> (forall x w, s = x ++ [q] ++ w -> w <> [] -> ~ blanks w) ->
  close_q q (s ++ [gt]) = s ++ [gt].
Proof.
  intros q s Hg Hn. apply close_q_eq. apply rewrites_copy.
  - intros a c b m r Es E B. destruct B as [w' r' Hw' W']. cbn [app] in E. injection E as -> E.
    rewrite <- app_assoc in E. cbn [app] in E. apply first_split in E.
    + subst w'. exact (Hn a b Es Hw' W').
    + intro I. apply Hg. rewrite Es. apply in_app_iff. right. now right.
    + apply blanks_notin; trivial.
  - apply rw_char; [|constructor]. intros m r E B. destruct B as [w' r' Hw' W'].
    cbn [app] in E. injection E as -> E. destruct w'; [contradiction | discriminate].
Qed.

(** The end of a text. *)
Lemma last_split : forall s : str, (s = [] \/ exists x c, s = x ++ [c]).
Proof.
  intro s. destruct (list_eq_dec N.eq_dec s []) as [-> | Ne]; [now left|]. right.
  destruct (exists_last Ne) as (x & c & ->). eauto.
Qed.

Lemma end_run_unique : forall x y w v q q', blanks w -> blanks v -> ~ blank q -> ~ blank q' ->
  x ++ [q] ++ w = y ++ [q'] ++ v -> x = y /\ q = q' /\ w = v.
Proof.
  intros x y w v q q' W V Hq Hq' E.
  apply (f_equal (@rev N)) in E. rewrite !rev_app_distr in E. cbn [rev app] in E. rewrite <- !app_assoc in E.
  cbn [app] in E. apply run_unique in E.
  - destruct E as [E1 E2]. injection E2 as E2 E3. apply (f_equal (@rev N)) in E1. apply (f_equal (@rev N)) in E3.
    rewrite !rev_involutive in E1, E3. auto.
  - now apply blanks_rev.
  - now apply blanks_rev.
  - intros c r Z. injection Z as <- _. exact Hq.
  - intros c r Z. injection Z as <- _. exact Hq'.
Qed.

Lemma closed_model : forall s, ~ In gt s -> closed (s ++ [gt]) (close_q squote (close_q dquote (s ++ [gt]))).
Proof.
  intros s Hg. destruct (trim_end_spec s) as (w & W & Es & He).
  assert (D : (w <> [] /\ exists x q, trim_end s = x ++ [q] /\ (q = dquote \/ q = squote)) \/
              ~ (w <> [] /\ exists x q, trim_end s = x ++ [q] /\ (q = dquote \/ q = squote))).
  { destruct w as [|c w]; [right; tauto|].
    destruct (last_split (trim_end s)) as [E | (x & q & E)]; rewrite E.
    - right. intros (_ & x & q & Z & _). destruct x; discriminate.
    - destruct (N.eq_dec q dquote) as [-> | N1]; [left; split; [discriminate | eauto]|].
      destruct (N.eq_dec q squote) as [-> | N2]; [left; split; [discriminate | eauto]|].
      right. intros (_ & x' & q' & Z & Hq). apply app_inj_tail in Z. destruct Z as [_ ->]. tauto. }
  destruct D as [(Hw & x & q & Ex & Hq) | D].
  - rewrite Ex in Es. rewrite Es in Hg |- *. rewrite <- !app_assoc.
    assert (Hgx : ~ In gt (x ++ [q])) by (intro I; apply Hg; rewrite in_app_iff; now left).
    destruct Hq as [-> | ->].
    + rewrite (close_q_yes dquote x w) by (trivial; reflexivity).
      replace (x ++ [dquote; gt]) with ((x ++ [dquote]) ++ [gt]) by (rewrite <- app_assoc; reflexivity).
      rewrite (close_q_no squote (x ++ [dquote])); [|exact Hgx|].
      * rewrite <- app_assoc. apply cl_double; assumption.
      * intros y v E Hv V. rewrite <- (app_nil_r [dquote]) in E. apply end_run_unique in E; try assumption; try discriminate.
        -- destruct E as (_ & Z & _). discriminate.
        -- constructor.
    + assert (E1 : close_q dquote (x ++ [squote] ++ w ++ [gt]) = x ++ [squote] ++ w ++ [gt]).
      { replace (x ++ [squote] ++ w ++ [gt]) with ((x ++ [squote] ++ w) ++ [gt]) by (rewrite <- !app_assoc; reflexivity).
        apply close_q_no; [rewrite app_assoc; exact Hg|].
        intros y v E Hv V. apply end_run_unique in E; try assumption; try discriminate. destruct E as (_ & Z & _). discriminate. }
      rewrite E1. rewrite (close_q_yes squote x w) by (trivial; reflexivity). apply cl_single; assumption.
  - assert (Hn : forall q, q = dquote \/ q = squote -> forall x v, s = x ++ [q] ++ v -> v <> [] -> ~ blanks v).
    { intros q Hq x v E Hv V. apply D.
      destruct (last_split (trim_end s)) as [E0 | (y & q0 & E0)].
      - exfalso. rewrite E0 in Es. cbn [app] in Es. assert (B : blanks s) by (rewrite Es; exact W).
        rewrite E in B. apply Forall_app in B. destruct B as [_ B]. inversion B as [|? ? B1 _]; subst.
        destruct Hq as [-> | ->]; discriminate B1.
      - rewrite E0, <- app_assoc, E in Es. apply end_run_unique in Es; try assumption.
        + destruct Es as (<- & <- & <-). split; [exact Hv|]. exists x, q. auto.
        + intro K. destruct Hq as [-> | ->]; discriminate K.
        + exact (He q0 y E0). }
    rewrite (close_q_no dquote s Hg (Hn _ (or_introl eq_refl))).
    rewrite (close_q_no squote s Hg (Hn _ (or_intror eq_refl))).
    apply cl_none. intros x q v E Hv V. apply (f_equal (@removelast N)) in E.
    replace (x ++ [q] ++ v ++ [gt]) with ((x ++ [q] ++ v) ++ [gt]) in E by (rewrite <- !app_assoc; reflexivity).
    rewrite !removelast_last in E.
    split; intros ->; [exact (Hn _ (or_introl eq_refl) x v E Hv V) | exact (Hn _ (or_intror eq_refl) x v E Hv V)].
Qed.

Lemma closed_tidy : forall m k, closed m k -> tidy m -> tidy k.
Proof.
  assert (H : forall q x w, ~ blank q -> tidy (x ++ [q] ++ w ++ [gt]) -> tidy (x ++ [q; gt])).
  { intros q x w Hq T a b c d E [B C].
    assert (Hd : exists d', d = d' ++ [q; gt]).
    { destruct d as [|d1 d] using rev_ind; [exfalso | clear IHd].
      - replace (x ++ [q; gt]) with ((x ++ [q]) ++ [gt]) in E by (rewrite <- app_assoc; reflexivity).
        replace (a ++ [b; c] ++ []) with ((a ++ [b]) ++ [c]) in E by (rewrite <- app_assoc; reflexivity).
        apply app_inj_tail in E. destruct E as [_ <-]. discriminate C.
      - replace (x ++ [q; gt]) with ((x ++ [q]) ++ [gt]) in E by (rewrite <- app_assoc; reflexivity).
        rewrite !app_assoc in E. apply app_inj_tail in E. destruct E as [E <-].
        destruct d as [|d2 d] using rev_ind; [exfalso | clear IHd].
        + replace ((a ++ [b; c]) ++ []) with ((a ++ [b]) ++ [c]) in E by (rewrite app_nil_r, <- app_assoc; reflexivity).
          apply app_inj_tail in E. destruct E as [_ <-]. contradiction.
        + rewrite !app_assoc in E. apply app_inj_tail in E. destruct E as [_ <-]. exists d. rewrite <- app_assoc. reflexivity. }
    destruct Hd as [d' ->].
    apply (T a b c (d' ++ [q] ++ w ++ [gt])); [|auto].
    replace (a ++ [b; c] ++ d' ++ [q; gt]) with ((a ++ [b; c] ++ d') ++ [q; gt]) in E by (rewrite <- !app_assoc; reflexivity).
    apply app_inv_tail in E. subst x. rewrite <- !app_assoc. reflexivity. }
  intros m k C T. destruct C as [x w Hw W|x w Hw W|m _]; [..|exact T];
    (apply (H _ x w); [discriminate | exact T]).
Qed.

Lemma closed_det : forall m k k', closed m k -> closed m k' -> k = k'.
Proof.
  assert (H : forall x w y v q q', blanks w -> blanks v -> ~ blank q -> ~ blank q' ->
    x ++ [q] ++ w ++ [gt] = y ++ [q'] ++ v ++ [gt] -> x = y /\ q = q').
  { intros x w y v q q' W V Hq Hq' E.
    replace (x ++ [q] ++ w ++ [gt]) with ((x ++ [q] ++ w) ++ [gt]) in E by (rewrite <- !app_assoc; reflexivity).
    replace (y ++ [q'] ++ v ++ [gt]) with ((y ++ [q'] ++ v) ++ [gt]) in E by (rewrite <- !app_assoc; reflexivity).
    apply app_inv_tail in E. apply end_run_unique in E; tauto. }
  assert (Hd : ~ blank dquote) by discriminate. assert (Hs : ~ blank squote) by discriminate.
  intros m k k' C C'. destruct C as [x w Hw W|x w Hw W|m Hn].
  - inversion C' as [y v Hv V E|y v Hv V E|m' Hn E]; subst.
    + apply H in E; try assumption. destruct E as [-> _]. reflexivity.
    + apply H in E; try assumption. destruct E as [_ Z]. discriminate.
    + exfalso. apply (proj1 (Hn x dquote w eq_refl Hw W)). reflexivity.
  - inversion C' as [y v Hv V E|y v Hv V E|m' Hn E]; subst.
    + apply H in E; try assumption. destruct E as [_ Z]. discriminate.
    + apply H in E; try assumption. destruct E as [-> _]. reflexivity.
    + exfalso. apply (proj2 (Hn x squote w eq_refl Hw W)). reflexivity.
  - inversion C' as [y v Hv V E|y v Hv V E|m' Hn' E]; subst.
    + exfalso. apply (proj1 (Hn y dquote v eq_refl Hv V)). reflexivity.
    + exfalso. apply (proj2 (Hn y squote v eq_refl Hv V)). reflexivity.
    + reflexivity.
Qed.

(** ** Quotation marks *)

Lemma value_iff : forall c, value_char c = true <-> value_letter c.
Proof.
  intro c. unfold value_char, value_letter. rewrite !orb_true_iff, ascii_letter_iff, ascii_digit_iff, !N.eqb_eq. tauto.
Qed.

Lemma quotes_match : forall s l t, m_alt re_quotes s = Some (l, t) ->
  exists name value, l = [name; [0x3D]; [dquote]; value; [dquote]] /\
    name <> [] /\ Forall letter name /\ value <> [] /\ Forall value_letter value.
Proof.
  intros s l t H. apply m_alt_fits in H. destruct H as (a & [<- | []] & _ & _ & F).
  inversion F as [| |p n name r l1 P1 Hn1 F1|]; subst. inversion F1 as [|p c r l2 P2 F2| |]; subst.
  inversion F2 as [|p d r l3 P3 F3| |]; subst. inversion F3 as [| |p n value r l4 P4 Hn4 F4|]; subst.
  inversion F4 as [|p e r l5 P5 F5| |]; subst. inversion F5; subst.
  apply N.eqb_eq in P2. apply N.eqb_eq in P3. apply N.eqb_eq in P5. subst.
  exists name, value. repeat split.
  - destruct name; [cbn in Hn1; lia | discriminate].
  - apply Forall_impl with (2 := P1). intro x. apply ascii_letter_iff.
  - destruct value; [cbn in Hn4; lia | discriminate].
  - apply Forall_impl with (2 := P4). intro x. apply value_iff.
Qed.

Lemma attribute_match2 : forall s l t, m_alt re_quotes s = Some (l, t) ->
  concat l <> [] /\ simple_attribute (concat l) t.
Proof.
  intros s l t H. destruct (quotes_match _ _ _ H) as (name & value & -> & H1 & H2 & H3 & H4).
  cbn [concat app]. split; [destruct name; [contradiction | discriminate]|].
  exact (an_attribute name value t H1 H2 H3 H4).
Qed.

Lemma attribute_found : forall m t, simple_attribute m t -> m_alt re_quotes (m ++ t) <> None.
Proof.
  intros m t H. destruct H as [name value r H1 H2 H3 H4].
  apply (fits_m_alt re_quotes _ [name; [0x3D]; [dquote]; value; [dquote]] r (or_introl eq_refl)).
  constructor; [apply Forall_impl with (2 := H2); intro; apply ascii_letter_iff | destruct name; [contradiction | cbn; lia]|].
  constructor; [reflexivity|]. constructor; [reflexivity|].
  constructor; [apply Forall_impl with (2 := H4); intro; apply value_iff | destruct value; [contradiction | cbn; lia]|].
  constructor; [reflexivity | constructor].
Qed.

Lemma letters_noteq : forall name, Forall letter name -> ~ In 0x3D name.
Proof.
  intros name H I. apply (proj1 (Forall_forall _ _) H) in I. unfold letter in I. lia.
Qed.

Lemma attribute_det : forall m r m' r', simple_attribute m r -> simple_attribute m' r' -> m ++ r = m' ++ r' -> m = m'.
Proof.
  intros m r m' r' H H' E. destruct H as [name value r _ H2 _ H4], H' as [name' value' r' _ H2' _ H4'].
  rewrite <- !app_assoc in E. cbn [app S_] in E.
  pose proof E as E0. apply first_split in E0; [|apply letters_noteq; assumption..]. subst name'.
  apply app_inv_head in E. injection E as E.
  apply first_split in E; [now subst|..]; intro I.
  - apply (proj1 (Forall_forall _ _) H4) in I. unfold value_letter, letter, digit, dquote in I. lia.
  - apply (proj1 (Forall_forall _ _) H4') in I. unfold value_letter, letter, digit, dquote in I. lia.
Qed.

Lemma attribute_out_det : forall m a b, attribute_out m a -> attribute_out m b -> a = b.
Proof.
  assert (Hw : forall name, In name [S_ "width"; S_ "height"] -> ~ In 0x3D name).
  { intros name [<- | [<- | []]]; cbn; intuition discriminate. }
  assert (HE : forall name value name' value', ~ In 0x3D name -> ~ In 0x3D name' ->
    name ++ S_ "=" ++ [dquote] ++ value ++ [dquote] = name' ++ S_ "=" ++ [dquote] ++ value' ++ [dquote] ->
    name = name' /\ value = value').
  { intros name value name' value' N1 N2 E. cbn [app S_] in E. pose proof E as E0. apply first_split in E0; try assumption.
    subst name'. split; [reflexivity|]. apply app_inv_head in E. injection E as E. cbn [app] in E.
    apply app_inv_tail in E. exact E. }
  intros m a b A B. destruct A as [name value I|name value H NI].
  - inversion B as [name' value' I' E|name' value' H' NI' E]; subst; apply HE in E; auto using letters_noteq.
    + destruct E as [-> ->]. reflexivity.
    + destruct E as [-> ->]. contradiction.
  - inversion B as [name' value' I' E|name' value' H' NI' E]; subst; apply HE in E; auto using letters_noteq.
    + destruct E as [-> ->]. contradiction.
    + destruct E as [-> ->]. reflexivity.
Qed.

Lemma unquoted_det : forall s t t', unquoted s t -> unquoted s t' -> t = t'.
Proof. intros s t t' R R'. exact (rewrites_det _ _ attribute_det attribute_out_det _ _ R _ R'). Qed.

Lemma unquote_quotes : forall s, exists t, re_replace_all re_quotes unquote_one s = Ok t /\ unquoted s t.
Proof.
  intro s. unfold unquoted.
  apply (re_replace_all_rewrites re_quotes simple_attribute attribute_out unquote_one attribute_match2 attribute_found).
  intros u l t H. destruct (quotes_match _ _ _ H) as (name & value & -> & H1 & H2 & H3 & H4).
  eexists. split; [reflexivity|]. cbn [nth]. 
  change (concat [name; [0x3D]; [dquote]; value; [dquote]]) with (name ++ S_ "=" ++ [dquote] ++ value ++ [dquote]).
  destruct (str_eqb name (S_ "width") || str_eqb name (S_ "height")) eqn:E.
  - apply at_bare. rewrite orb_true_iff, !str_eqb_eq in E. destruct E as [-> | ->]; [now left | right; now left].
  - apply at_same; [exact H2|]. rewrite orb_false_iff, !str_eqb_neq in E. intros [<- | [<- | []]]; tauto.
Qed.

(** ** Start tags *)
Section Tags.
Variables (wu du : N -> bool).

Lemma tag_match : forall s l t, m_alt (re_any_tag wu) s = Some (l, t) -> concat l <> [] /\ start_tag wu (concat l) t.
Proof.
  intros s l t H. apply m_alt_fits in H. destruct H as (a & [<- | []] & E & _ & _).
  cbn [m_seq] in E. destruct s as [|c s]; [discriminate|]. destruct (0x3C =? c) eqn:Ec; [|discriminate].
  apply N.eqb_eq in Ec. subst c. destruct s as [|x s]; [discriminate|]. destruct (is_word wu x) eqn:Ex; [|discriminate].
  change ((_ : nat -> str -> option (list str * str)) 0%nat s) with (m_seq [Lazy dot 0; One (N.eqb 0x3E)] s) in E.
  destruct (m_seq [Lazy dot 0; One (N.eqb 0x3E)] s) as [[l2 t2]|] eqn:E3; [|discriminate].
  injection E as <- ->. destruct (lazy_to _ _ _ _ E3) as (body & -> & -> & B1 & B2).
  cbn [concat app]. split; [discriminate|]. apply (a_start_tag wu x body t); try assumption. now apply is_word_iff.
Qed.

Lemma tag_found : forall m t, start_tag wu m t -> m_alt (re_any_tag wu) (m ++ t) <> None.
Proof.
  intros m t H. destruct H as [x body r Hx B1 B2].
  apply (fits_m_alt (re_any_tag wu) _ [[lt]; [x]; body; [gt]] r (or_introl eq_refl)).
  constructor; [reflexivity|]. constructor; [now apply is_word_iff|].
  constructor; [now apply dot_forall | auto with arith|]. constructor; [reflexivity | constructor].
Qed.

Lemma tag_det : forall m r m' r', start_tag wu m r -> start_tag wu m' r' -> m ++ r = m' ++ r' -> m = m'.
Proof.
  intros m r m' r' H H' E. destruct H as [x body r _ B _], H' as [x' body' r' _ B' _].
  cbn [app] in E. injection E as <- E. rewrite <- !app_assoc in E. cbn [app] in E.
  apply first_split in E; [now subst | assumption..].
Qed.

Lemma unquote_tag_spec : forall m r, start_tag wu m r ->
  exists t, unquote_tag wu du m = Ok t /\ tag_out m t /\ (tidy m -> tidy_tag_out m t).
Proof.
  intros m r H. unfold unquote_tag.
  assert (Hs : starts (S_ "<!") m = false).
  { destruct H as [x body r Hx _ _]. destruct (starts (S_ "<!") ([lt; x] ++ body ++ [gt])) eqn:E; [|reflexivity].
    apply starts_spec in E. destruct E as [u E]. injection E as -> _.
    destruct Hx as [[_ [Hx | [Hx | Hx]]] | [Hx _]]; unfold letter, digit in Hx; lia. }
  rewrite Hs. cbn [orb]. destruct (contains (S_ "</") m) eqn:Ec.
  - apply contains_spec in Ec. exists m. split; [reflexivity|]. split; [now apply to_same | intros _; now apply tt_same].
  - assert (No : ~ occurs (S_ "</") m) by (intro K; apply contains_spec in K; congruence).
    assert (exists s, m = s ++ [gt] /\ ~ In gt s) as (s & Em & Hg).
    { destruct H as [x body r Hx B _]. exists ([lt; x] ++ body). split; [now rewrite app_assoc|].
      cbn. intros [K | [K | K]]; [discriminate | | contradiction]. subst x.
      destruct Hx as [[_ [Hx | [Hx | Hx]]] | [Hx _]]; unfold letter, digit, gt in Hx; lia. }
    pose proof (closed_model s Hg) as C. rewrite <- Em in C.
    change (re_subst_all re_before_close (quote ++ S_ ">") m) with (close_q dquote m).
    change (re_subst_all re_before_close2 (S_ "'>") (close_q dquote m)) with (close_q squote (close_q dquote m)).
    set (k := close_q squote (close_q dquote m)) in *.
    assert (R1 : respaced k (spaces_loop (re_find_iter (re_between_words wu) k) (re_find_iter (re_extra_spaces3 du) k) k)).
    { apply spaces_loop_respaced; apply find_iter_nonempty; intros a [<- | []]; eauto. }
    set (k1 := spaces_loop _ _ k) in *.
    destruct (attributes_loop_respaced wu k1 (re_find_iter (re_extra_spaces2 wu) k1) k1 (fun x Hx => Hx)) as (k2 & E2 & R2).
    rewrite E2. cbn [obind]. destruct (unquote_quotes k2) as (t & Et & Ut). rewrite Et. cbn [obind].
    exists t. split.
    { destruct (str_eqb m t) eqn:Emt; [|reflexivity]. apply str_eqb_eq in Emt. now rewrite Emt. }
    destruct (respaced_trans _ _ _ R1 R2) as (S1 & S2 & S3 & S4). split.
    + exact (to_change m k k2 t No C S1 S2 S3 S4 Ut).
    + intro T. apply (tt_change m k t No C). rewrite <- (S3 (closed_tidy _ _ C T)). exact Ut.
Qed.

Lemma rewrites_impl : forall (L F G : str -> str -> Prop) s t,
  (forall a m m' b, s = a ++ m ++ b -> F m m' -> G m m') -> rewrites L F s t -> rewrites L G s t.
Proof.
  intros L F G s t H R. induction R as [|c s t Hn R IH|m m' r t Hm Lm Fm R IH].
  - constructor.
  - constructor; [exact Hn|]. apply IH. intros a m m' b -> Hf. exact (H (c :: a) m m' b eq_refl Hf).
  - constructor; try assumption.
    + exact (H [] m m' r eq_refl Fm).
    + apply IH. intros a m2 m2' b -> Hf. apply (H (m ++ a) m2 m2' b); [now rewrite app_assoc | exact Hf].
Qed.

Lemma tidy_tag_out_det : forall m a b, tidy_tag_out m a -> tidy_tag_out m b -> a = b.
Proof.
  intros m a b A B. destruct A as [m O|m k a O C U].
  - inversion B; subst; [reflexivity | contradiction].
  - inversion B as [|m' k' b' O' C' U']; subst; [contradiction|].
    rewrite (closed_det _ _ _ C C') in U. exact (unquoted_det _ _ _ U U').
Qed.

Lemma unquote_spec : forall s, exists u, unquote_attributes wu du s = Ok (trim u) /\
  rewrites (start_tag wu) tag_out s u /\
  (tidy s -> forall u', rewrites (start_tag wu) tidy_tag_out s u' <-> u' = u).
Proof.
  intro s. unfold unquote_attributes.
  destruct (re_replace_all_rewrites (re_any_tag wu) (start_tag wu)
    (fun m t => tag_out m t /\ (tidy m -> tidy_tag_out m t))
    (fun caps => unquote_tag wu du (concat caps)) tag_match tag_found) with (s := s) as (u & E & R).
  - intros s' l t H. destruct (tag_match _ _ _ H) as [_ T]. destruct (unquote_tag_spec _ _ T) as (m' & Em & Hm & Ht).
    exists m'. auto.
  - exists u. rewrite E. split; [reflexivity|]. split.
    + refine (rewrites_impl _ _ _ _ _ _ R). tauto.
    + intros T u'.
      assert (R2 : rewrites (start_tag wu) tidy_tag_out s u).
      { refine (rewrites_impl _ _ _ _ _ _ R). intros a m m' b -> [_ K]. apply K. exact (tidy_mid a m b T). }
      split; [|intros ->; exact R2]. intro R'. symmetry.
      exact (rewrites_det _ _ tag_det tidy_tag_out_det _ _ R2 _ R').
Qed.

End Tags.
