(** The type attribute of style and script. *)
From Coq Require Import String List NArith Bool Arith Lia ZifyBool ZifyN.
From Verif Require Import Base HtmlModel HtmlSpec HtmlProofs1 HtmlProofs2.
Import ListNotations.
Open Scope N_scope.

Lemma ascii_letter_iff : forall c, ascii_letter c = true <-> letter c.
Proof. intro c. unfold ascii_letter, letter. lia. Qed.

Lemma ascii_digit_iff : forall c, ascii_digit c = true <-> digit c.
Proof. intro c. unfold ascii_digit, digit. lia. Qed.

Lemma is_word_iff : forall wu c, is_word wu c = true <-> word_char wu c.
Proof.
  intros wu c. unfold is_word, word_char. destruct (N.ltb_spec c 0x80) as [H|H].
  - rewrite !orb_true_iff, ascii_letter_iff, ascii_digit_iff, N.eqb_eq. split.
    + intros [[A|A]|A]; left; tauto.
    + intros [[_ A]|[A _]]; [tauto | lia].
  - split; [intro A; right; split; [lia | exact A]|]. intros [[A _]|[_ A]]; [lia | exact A].
Qed.

Lemma word_bar_iff : forall wu c, word_bar_space wu c = true <-> word_bar_blank wu c.
Proof.
  intros wu c. unfold word_bar_space, word_bar_blank, blank.
  rewrite !orb_true_iff, is_word_iff, N.eqb_eq. tauto.
Qed.

Lemma dot_forall : forall s, Forall (fun c => dot c = true) s <-> ~ In line_end s.
Proof.
  intro s. rewrite Forall_forall. unfold dot, line_end. split.
  - intros H I. specialize (H _ I). discriminate.
  - intros H c I. destruct (N.eqb_spec c 0xA) as [-> | Ne]; [contradiction | reflexivity].
Qed.

(** A lazy run on one line up to the character [q]. *)
Lemma lazy_to : forall q s l t, m_seq [Lazy dot 0; One (N.eqb q)] s = Some (l, t) ->
  exists body, l = [body; [q]] /\ s = body ++ [q] ++ t /\ ~ In q body /\ ~ In line_end body.
Proof.
  intros q s l t H. destruct (m_seq_fits _ _ _ _ H) as [Es F]. inversion F as [| | |p n x r l' P Hn F2]; subst.
  inversion F2 as [|p c r l2 Pc F3| |]; subst. inversion F3; subst. apply N.eqb_eq in Pc. subst c.
  destruct (lazy_first _ _ _ _ _ _ H) as [_ Hmin].
  exists x. repeat split.
  - cbn. rewrite <- app_assoc. reflexivity.
  - intro I. apply in_split in I. destruct I as (a & b & ->).
    specialize (Hmin a (q :: b) eq_refl ltac:(discriminate)). cbn in Hmin. rewrite N.eqb_refl in Hmin. discriminate.
  - apply dot_forall. exact P.
Qed.

Section Types.
Variable wu : N -> bool.

Lemma script_tag_match : forall s l t, m_alt (re_style_script wu) s = Some (l, t) ->
  concat l <> [] /\ script_tag wu (concat l) t.
Proof.
  intros s l t H. apply m_alt_fits in H. destruct H as (a & I & E & _ & _).
  assert (exists name, In name [S_ "<style"; S_ "<script"] /\
            m_seq (lit name ++ [One (word_bar_space wu); Lazy dot 0; One (N.eqb 0x3E)]) s = Some (l, t)) as (name & In_ & E2).
  { destruct I as [<- | [<- | []]]; [exists (S_ "<style") | exists (S_ "<script")]; split; auto; [now left | right; now left]. }
  apply m_seq_lit_inv in E2. destruct E2 as (l1 & v & -> & -> & E2).
  cbn [m_seq] in E2. destruct v as [|x v]; [discriminate|].
  destruct (word_bar_space wu x) eqn:Ex; [|discriminate].
  change ((_ : nat -> str -> option (list str * str)) 0%nat v) with (m_seq [Lazy dot 0; One (N.eqb 0x3E)] v) in E2.
  destruct (m_seq [Lazy dot 0; One (N.eqb 0x3E)] v) as [[l2 t2]|] eqn:E3; [|discriminate].
  injection E2 as <- ->. destruct (lazy_to _ _ _ _ E3) as (body & -> & -> & B1 & B2).
  rewrite concat_app, concat_singles. cbn [concat app]. split.
  - destruct In_ as [<- | [<- | []]]; discriminate.
  - apply a_script_tag; try assumption. apply word_bar_iff. exact Ex.
Qed.

Lemma script_tag_found : forall m t, script_tag wu m t -> m_alt (re_style_script wu) (m ++ t) <> None.
Proof.
  intros m t H. destruct H as [name x body r I Hx B1 B2].
  pose (l := map (fun c => [c]) name ++ [[x]; body; [gt]]).
  replace (name ++ x :: body ++ [gt]) with (concat l).
  - apply (fits_m_alt _ (lit name ++ [One (word_bar_space wu); Lazy dot 0; One (N.eqb 0x3E)]) l r).
    + destruct I as [<- | [<- | []]]; [now left | right; now left].
    + apply lit_fits. constructor; [now apply word_bar_iff|]. constructor; [now apply dot_forall | auto with arith|].
      constructor; [reflexivity | constructor].
  - unfold l. rewrite concat_app, concat_singles. cbn [concat app]. reflexivity.
Qed.

Lemma script_tag_det : forall m r m' r', script_tag wu m r -> script_tag wu m' r' -> m ++ r = m' ++ r' -> m = m'.
Proof.
  intros m r m' r' H H' E. destruct H as [name x body r I _ B _], H' as [name' x' body' r' I' _ B' _].
  assert (name = name') as <-.
  { destruct I as [<- | [<- | []]], I' as [<- | [<- | []]]; try reflexivity; discriminate E. }
  rewrite <- !app_assoc in E. apply app_inv_head in E. injection E as <- E.
  rewrite <- !app_assoc in E. apply first_split in E; [|assumption..]. subst. reflexivity.
Qed.

Lemma type_match : forall s l t, m_alt (re_type wu) s = Some (l, t) ->
  concat l <> [] /\ type_attribute wu (concat l) t.
Proof.
  intros s l t H. apply m_alt_fits in H. destruct H as (a & I & E & _ & F).
  destruct I as [<- | []]. cbn [app] in E, F. inversion F as [| | |p n w r l' P Hn F2 Ea]; subst.
  destruct (lazy_first _ _ _ _ _ _ E) as [E1 _]. clear E F F2.
  apply m_seq_lit_inv in E1. destruct E1 as (l1 & v & -> & _ & E2).
  cbn [m_seq] in E2. destruct v as [|x v]; [discriminate|].
  destruct (word_bar_space wu x) eqn:Ex; [|discriminate].
  change ((_ : nat -> str -> option (list str * str)) 0%nat v) with (m_seq [Lazy dot 0; One (N.eqb 0x22)] v) in E2.
  destruct (m_seq [Lazy dot 0; One (N.eqb 0x22)] v) as [[l2 t2]|] eqn:E3; [|discriminate].
  injection E2 as <- ->. destruct (lazy_to _ _ _ _ E3) as (body & -> & -> & B1 & B2).
  cbn [concat]. rewrite concat_app, concat_singles. cbn [concat app]. split.
  - intro Z. apply app_eq_nil in Z. destruct Z as [_ Z]. discriminate.
  - rewrite <- app_assoc. cbn [app]. apply (a_type wu w x body t); try assumption. apply word_bar_iff. exact Ex.
Qed.

Lemma type_found : forall m t, type_attribute wu m t -> m_alt (re_type wu) (m ++ t) <> None.
Proof.
  intros m t H. destruct H as [w x body r W Hx B1 B2].
  pose (l := [w] ++ map (fun c => [c]) (S_ "type=" ++ [dquote]) ++ [[x]; body; [dquote]]).
  replace (w ++ S_ "type=" ++ [dquote] ++ x :: body ++ [dquote]) with (concat l).
  - apply (fits_m_alt _ ([Lazy is_whitespace 0] ++ lit (S_ "type=" ++ quote) ++ [One (word_bar_space wu); Lazy dot 0; One (N.eqb 0x22)]) l r).
    + now left.
    + constructor; [exact W | auto with arith|]. apply lit_fits.
      constructor; [now apply word_bar_iff|]. constructor; [now apply dot_forall | auto with arith|].
      constructor; [reflexivity | constructor].
  - unfold l. rewrite !concat_app, concat_singles. cbn [concat]. rewrite app_nil_r. reflexivity.
Qed.

Lemma type_det : forall m r m' r', type_attribute wu m r -> type_attribute wu m' r' -> m ++ r = m' ++ r' -> m = m'.
Proof.
  intros m r m' r' H H' E. destruct H as [w x body r W _ B _], H' as [w' x' body' r' W' _ B' _].
  rewrite <- !app_assoc in E.
  pose proof E as E0. apply blank_front in E0; try assumption.
  - rewrite E0 in E. apply app_inv_tail in E. subst w'.
    apply app_inv_head in E0. apply app_inv_head in E0. injection E0 as <- E1. rewrite <- !app_assoc in E1.
    apply first_split in E1; [|assumption..]. subst body'. reflexivity.
  - intros c u Hc. injection Hc as <- _. discriminate.
  - intros c u Hc. injection Hc as <- _. discriminate.
Qed.

Lemma condense_spec : forall s, exists t, condense wu s = Ok t /\ forall t', untyped wu s t' <-> t' = t.
Proof.
  intro s. unfold condense, untyped.
  destruct (re_replace_all_rewrites (re_style_script wu) (script_tag wu)
    (rewrites (type_attribute wu) (fun _ m' => m' = []))
    (fun caps => Ok (re_subst_all (re_type wu) [] (concat caps))) script_tag_match script_tag_found) with (s := s)
    as (t & E & R).
  - intros u l t H. eexists. split; [reflexivity|].
    apply re_subst_all_rewrites; [exact type_match | exact type_found].
  - exists t. split; [exact E|]. intro t'. split.
    + intro R'. symmetry. refine (rewrites_det _ _ script_tag_det _ _ _ R _ R').
      intros m a b A B. refine (rewrites_det _ _ type_det _ _ _ A _ B). intros; congruence.
    + intros ->. exact R.
Qed.

End Types.
