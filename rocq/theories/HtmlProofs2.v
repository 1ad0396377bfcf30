(** Comments, the type attribute, trimming. *)
From Coq Require Import String List NArith Bool Arith Lia ZifyBool ZifyN.
From Verif Require Import Base HtmlModel HtmlSpec HtmlProofs1.
Import ListNotations.
Open Scope N_scope.

(** ** Trimming *)

Lemma trim_start_spec : forall s, exists w, blanks w /\ s = w ++ trim_start s /\
  forall c r, trim_start s = c :: r -> ~ blank c.
Proof.
  induction s as [|c s (w & W & E & N1)].
  - exists []. repeat split; [constructor | intros; discriminate].
  - cbn [trim_start]. destruct (is_whitespace c) eqn:Ec.
    + exists (c :: w). repeat split; [constructor; assumption | cbn; now rewrite <- E | exact N1].
    + exists []. repeat split; [constructor|]. intros c' r H. injection H as -> _. unfold blank. congruence.
Qed.

Lemma blanks_rev : forall w, blanks w -> blanks (rev w).
Proof. intros w H. apply Forall_rev. exact H. Qed.

Lemma trim_end_spec : forall s, exists w, blanks w /\ s = trim_end s ++ w /\
  forall c r, trim_end s = r ++ [c] -> ~ blank c.
Proof.
  intro s. unfold trim_end. destruct (trim_start_spec (rev s)) as (w & W & E & H).
  exists (rev w). repeat split.
  - apply blanks_rev. exact W.
  - rewrite <- rev_app_distr, <- E, rev_involutive. reflexivity.
  - intros c r E2. apply (H c (rev r)). apply (f_equal (@rev N)) in E2.
    rewrite rev_involutive, rev_app_distr in E2. exact E2.
Qed.

Lemma trim_trims : forall s, trims s (trim s).
Proof.
  intro s. unfold trim. destruct (trim_end_spec s) as (b & B & E & HE).
  destruct (trim_start_spec (trim_end s)) as (a & A & E2 & HS). split.
  - split; [exact HS|]. intros c r E3. apply (HE c (a ++ r)). rewrite E2, E3, app_assoc. reflexivity.
  - exists a, b. repeat split; try assumption. rewrite app_assoc, <- E2. exact E.
Qed.

(** Trimming is unique. *)
Lemma blank_front : forall w t w' t', blanks w -> blanks w' ->
  (forall c r, t = c :: r -> ~ blank c) -> (forall c r, t' = c :: r -> ~ blank c) ->
  w ++ t = w' ++ t' -> t = t'.
Proof.
  intros w t w' t' W. revert w' t'. induction W as [|c w Hc W IH]; intros w' t' W' Ht Ht' E.
  - destruct W' as [|c' w' Hc' W']; [exact E|]. exfalso. exact (Ht c' _ E Hc').
  - destruct W' as [|c' w' Hc' W'].
    + exfalso. cbn in E. exact (Ht' c _ (eq_sym E) Hc).
    + injection E as _ E. exact (IH _ _ W' Ht Ht' E).
Qed.

Lemma trims_det : forall s t t', trims s t -> trims s t' -> t = t'.
Proof.
  intros s t t' [[H1 H2] (a & b & A & B & E)] [[H1' H2'] (a' & b' & A' & B' & E')].
  destruct t as [|c t].
  - destruct t' as [|c' t']; [reflexivity|]. exfalso. cbn in E.
    apply (H1' c' t' eq_refl).
    assert (F : blanks s) by (rewrite E; apply Forall_app; split; assumption).
    rewrite E' in F. apply Forall_app in F. destruct F as [_ F]. inversion F; assumption.
  - destruct t' as [|c' t'].
    { exfalso. cbn in E'. apply (H1 c t eq_refl).
      assert (F : blanks s) by (rewrite E'; apply Forall_app; split; assumption).
      rewrite E in F. apply Forall_app in F. destruct F as [_ F]. inversion F; assumption. }
    assert (E1 : (c :: t) ++ b = (c' :: t') ++ b').
    { apply (blank_front a _ a' _ A A').
      - intros d r Hd. injection Hd as <- _. exact (H1 _ _ eq_refl).
      - intros d r Hd. injection Hd as <- _. exact (H1' _ _ eq_refl).
      - rewrite <- E, <- E'. reflexivity. }
    apply (f_equal (@rev N)) in E1. rewrite !rev_app_distr in E1.
    assert (E2 : rev (c :: t) = rev (c' :: t')).
    { apply (blank_front (rev b) _ (rev b') _); try (apply blanks_rev; assumption); try assumption.
      - intros d r Hd. apply (H2 d (rev r)). apply (f_equal (@rev N)) in Hd.
        rewrite rev_involutive in Hd. exact Hd.
      - intros d r Hd. apply (H2' d (rev r)). apply (f_equal (@rev N)) in Hd.
        rewrite rev_involutive in Hd. exact Hd. }
    apply (f_equal (@rev N)) in E2. rewrite !rev_involutive in E2. exact E2.
Qed.

Lemma trim_start_app_blank : forall w s, blanks w -> trim_start (w ++ s) = trim_start s.
Proof.
  intros w s W. induction W as [|c w Hc W IH]; [reflexivity|]. cbn. unfold blank in Hc. rewrite Hc. exact IH.
Qed.

Lemma trim_start_nonblank : forall c s, ~ blank c -> trim_start (c :: s) = c :: s.
Proof. intros c s H. cbn. destruct (is_whitespace c) eqn:E; [contradiction | reflexivity]. Qed.

(** Whether the trimmed text starts with a given character only depends on its start. *)
Lemma starts_trim : forall c s, ~ blank c -> starts [c] (trim s) = starts [c] (trim_start s).
Proof.
  intros c s Hc. apply eq_true_iff_eq. rewrite !starts_spec. unfold trim.
  destruct (trim_end_spec s) as (b & B & E & HE).
  destruct (trim_start_spec (trim_end s)) as (a & A & E2 & HS). split.
  - intros [u Hu]. exists (u ++ b). rewrite Hu in E2. rewrite E, E2, <- app_assoc, (trim_start_app_blank a _ A).
    cbn. destruct (is_whitespace c) eqn:Ec; [contradiction | reflexivity].
  - intros [u Hu]. destruct (trim_start (trim_end s)) as [|d v] eqn:Ed.
    + exfalso. rewrite app_nil_r in E2. rewrite E, E2 in Hu.
      rewrite (trim_start_app_blank a _ A) in Hu.
      destruct (trim_start_spec b) as (w & W & Ew & _). rewrite Ew in B. apply Forall_app in B. destruct B as [_ B].
      rewrite Hu in B. inversion B; contradiction.
    + exists v. rewrite E, E2, <- app_assoc, (trim_start_app_blank a _ A) in Hu. cbn [app] in Hu.
      rewrite trim_start_nonblank in Hu by exact (HS _ _ eq_refl). injection Hu as -> _. reflexivity.
Qed.

(** ** [str::replace] *)

Lemma str_replace_loop_fuel : forall p b n m s, p <> [] -> (length s <= n)%nat -> (length s <= m)%nat ->
  str_replace_loop n p b s = str_replace_loop m p b s.
Proof.
  intros p b n m s Hp. revert m s. induction n as [|n IH]; intros m s Hn Hm.
  - destruct s; [|cbn in Hn; lia]. destruct m; [reflexivity|]. cbn. destruct p; [contradiction | reflexivity].
  - destruct m as [|m].
    + destruct s; [|cbn in Hm; lia]. cbn. destruct p; [contradiction | reflexivity].
    + cbn [str_replace_loop]. destruct (strip p s) as [t|] eqn:E.
      * apply strip_spec in E. subst s. rewrite app_length in Hn, Hm.
        destruct p; [contradiction|]. cbn in Hn, Hm. f_equal. apply IH; lia.
      * destruct s; [reflexivity|]. cbn in Hn, Hm. f_equal. apply IH; lia.
Qed.

Lemma str_replace_eq : forall p b s, p <> [] -> str_replace p b s =
  match strip p s with
  | Some t => b ++ str_replace p b t
  | None => match s with [] => [] | c :: s' => c :: str_replace p b s' end
  end.
Proof.
  intros p b s Hp. unfold str_replace.
  rewrite (str_replace_loop_fuel p b (length s) (S (length s)) s) by (auto with arith).
  cbn [str_replace_loop]. destruct (strip p s) as [t|] eqn:E.
  - apply strip_spec in E. f_equal. apply str_replace_loop_fuel; [exact Hp | | reflexivity].
    subst s. rewrite app_length. lia.
  - destruct s; [reflexivity|]. f_equal. apply str_replace_loop_fuel; [exact Hp | cbn; lia | reflexivity].
Qed.

Lemma str_replace_rewrites : forall p b s, p <> [] ->
  rewrites (fun m _ => m = p) (fun _ m' => m' = b) s (str_replace p b s).
Proof.
  intros p b s Hp. remember (length s) as n eqn:En. assert (Hn : (length s <= n)%nat) by lia. clear En.
  revert s Hn. induction n as [|n IH]; intros s Hn; rewrite str_replace_eq by exact Hp.
  - destruct s; [|cbn in Hn; lia]. destruct (strip p []) as [t|] eqn:E; [|constructor].
    apply strip_spec in E. destruct p; [contradiction | discriminate].
  - destruct (strip p s) as [t|] eqn:E.
    + apply strip_spec in E. subst s. constructor; try (exact Hp || reflexivity).
      apply IH. rewrite app_length in Hn. destruct p; [contradiction | cbn in Hn; lia].
    + destruct s as [|c s]; [constructor|]. constructor; [|apply IH; cbn in Hn; lia].
      intros m r Em ->. apply (f_equal (strip p)) in Em. rewrite E in Em.
      symmetry in Em. rewrite (proj2 (strip_spec p (p ++ r) r) eq_refl) in Em. discriminate.
Qed.

(** ** Comments *)

Lemma comment_match : forall s l t, m_alt re_comment s = Some (l, t) -> concat l <> [] /\ comment (concat l) t.
Proof.
  intros s l t H. unfold re_comment, m_alt in H.
  destruct (m_seq (lit (S_ "<!--") ++ [Lazy any 0] ++ lit (S_ "-->")) s) as [[l0 t0]|] eqn:E; [|discriminate].
  injection H as -> ->. apply m_seq_lit_inv in E. destruct E as (l1 & v & -> & -> & E).
  pose proof (m_seq_fits _ _ _ _ E) as [Ev F]. cbn [app] in F, E. inversion F; subst.
  destruct (lazy_first _ _ _ _ _ _ E) as [E1 Hmin].
  rewrite <- (app_nil_r (lit (S_ "-->"))) in E1. apply m_seq_lit_inv in E1.
  destruct E1 as (l2 & v2 & -> & E2 & E3). injection E3 as <- ->.
  rewrite concat_app, concat_singles. cbn [concat]. rewrite app_nil_r, concat_singles.
  split; [discriminate|]. constructor. intros a y Ey.
  destruct y as [|c y]; [reflexivity|]. exfalso.
  assert (Hlen : (length a < length x)%nat).
  { apply (f_equal (@length N)) in Ey. rewrite !app_length in Ey. cbn in Ey. lia. }
  assert (exists d, x = a ++ d /\ d <> [] /\ d ++ S_ "-->" = S_ "-->" ++ c :: y) as (d & Hd & Hne & Hd2).
  { exists (skipn (length a) x).
    assert (Ha : firstn (length a) x = a).
    { apply (f_equal (firstn (length a))) in Ey. rewrite !firstn_app in Ey.
      replace (length a - length x)%nat with 0%nat in Ey by lia.
      replace (length a - length a)%nat with 0%nat in Ey by lia. cbn [firstn] in Ey.
      rewrite !app_nil_r, firstn_all in Ey. exact Ey. }
    assert (Hx : x = a ++ skipn (length a) x) by (rewrite <- Ha at 1; symmetry; apply firstn_skipn).
    repeat split; [exact Hx | |].
    - intro Z. rewrite Z, app_nil_r in Hx. subst. lia.
    - rewrite Hx, <- app_assoc in Ey. apply app_inv_head in Ey. exact Ey. }
  specialize (Hmin a d Hd Hne).
  rewrite app_nil_r, concat_singles in Hmin. rewrite app_assoc, Hd2, <- app_assoc in Hmin.
  rewrite <- (app_nil_r (lit (S_ "-->"))) in Hmin. rewrite m_seq_lit in Hmin. discriminate.
Qed.

Lemma comment_found : forall m t, comment m t -> m_alt re_comment (m ++ t) <> None.
Proof.
  intros m t H. destruct H as [c r H].
  pose (l := map (fun c => [c]) (S_ "<!--") ++ [c] ++ map (fun c => [c]) (S_ "-->")).
  replace (S_ "<!--" ++ c ++ S_ "-->") with (concat l).
  - apply (fits_m_alt re_comment (lit (S_ "<!--") ++ [Lazy any 0] ++ lit (S_ "-->")) l r); [now left|].
    unfold l. apply lit_fits. cbn [app]. constructor; [|auto with arith|].
    + apply Forall_forall. reflexivity.
    + rewrite <- (app_nil_r (lit (S_ "-->"))), <- (app_nil_r (map _ (S_ "-->"))). apply lit_fits. constructor.
  - unfold l. rewrite !concat_app, !concat_singles. cbn [concat]. rewrite app_nil_r. reflexivity.
Qed.

Lemma comment_det : forall m r m' r', comment m r -> comment m' r' -> m ++ r = m' ++ r' -> m = m'.
Proof.
  assert (W : forall c c' (r r' : str), (length c <= length c')%nat ->
    (forall x y, c' ++ S_ "-->" = x ++ S_ "-->" ++ y -> y = []) ->
    c ++ S_ "-->" ++ r = c' ++ S_ "-->" ++ r' -> c = c').
  { intros c c' r r' Hl H E.
    assert (Hc : firstn (length c) c' = c).
    { apply (f_equal (firstn (length c))) in E. rewrite !firstn_app in E.
      replace (length c - length c)%nat with 0%nat in E by lia.
      replace (length c - length c')%nat with 0%nat in E by lia. cbn [firstn] in E.
      rewrite !app_nil_r, firstn_all in E. now symmetry. }
    assert (Hc' : c' = c ++ skipn (length c) c') by (rewrite <- Hc at 1; symmetry; apply firstn_skipn).
    remember (skipn (length c) c') as d eqn:Ed. clear Ed. subst c'.
    rewrite <- app_assoc in E. apply app_inv_head in E.
    assert (Hd : d ++ S_ "-->" = S_ "-->" ++ firstn (length d) r).
    { apply (f_equal (firstn (length d + 3))) in E.
      replace (firstn (length d + 3) (d ++ S_ "-->" ++ r')) with (d ++ S_ "-->") in E.
      - rewrite <- E. rewrite Nat.add_comm. reflexivity.
      - rewrite app_assoc, firstn_app.
        replace (length d + 3 - length (d ++ S_ "-->"))%nat with 0%nat by (rewrite app_length; cbn; lia).
        replace (length d + 3)%nat with (length (d ++ S_ "-->")) by (rewrite app_length; cbn; lia).
        rewrite firstn_all. cbn [firstn]. now rewrite app_nil_r. }
    specialize (H c (firstn (length d) r)). rewrite <- app_assoc, Hd in H. specialize (H eq_refl).
    rewrite H in Hd. apply (f_equal (@length N)) in Hd. rewrite app_length in Hd. cbn in Hd.
    destruct d; [now rewrite app_nil_r | cbn in Hd; lia]. }
  intros m r m' r' H H' E. destruct H as [c r H], H' as [c' r' H'].
  rewrite <- !app_assoc in E. apply app_inv_head in E.
  assert (c = c') as <-; [|reflexivity].
  destruct (Nat.le_ge_cases (length c) (length c')) as [Hl|Hl].
  - exact (W c c' r r' Hl H' E).
  - symmetry. exact (W c' c r' r Hl H (eq_sym E)).
Qed.

Lemma conditional_iff : forall c,
  starts (S_ "[") (trim (str_replace (S_ "<!--") (S_ " ") (S_ "<!--" ++ c ++ S_ "-->"))) = true <-> conditional c.
Proof.
  intro c. change (S_ "[") with [0x5B].
  rewrite starts_trim by (unfold blank; discriminate).
  rewrite str_replace_eq by discriminate.
  rewrite (proj2 (strip_spec (S_ "<!--") (S_ "<!--" ++ c ++ S_ "-->") _) eq_refl).
  rewrite trim_start_app_blank by (repeat constructor).
  remember (length c) as n eqn:En. assert (Hn : (length c <= n)%nat) by lia. clear En.
  revert c Hn. induction n as [|n IH]; intros c Hn.
  - destruct c; [|cbn in Hn; lia]. vm_compute (starts _ _). split; [discriminate | inversion 1].
  - destruct c as [|x c]; [vm_compute (starts _ _); split; [discriminate | inversion 1]|].
    rewrite str_replace_eq by discriminate.
    destruct (strip (S_ "<!--") ((x :: c) ++ S_ "-->")) as [t|] eqn:E.
    + apply strip_spec in E. rewrite trim_start_app_blank by (repeat constructor).
      assert (C : (exists c2, x :: c = S_ "<!--" ++ c2) \/ x :: c = S_ "<!" \/ x :: c = S_ "<!-").
      { clear -E. destruct c as [|c1 [|c2 [|c3 c4]]]; cbn in E.
        - discriminate.
        - injection E as -> -> E. right; left; reflexivity.
        - injection E as -> -> -> E. right; right; reflexivity.
        - injection E as -> -> -> -> E. left. exists c4. reflexivity. }
      destruct C as [(c2 & C) | [C | C]].
      * rewrite C in E |- *. rewrite <- app_assoc in E. apply app_inv_head in E. subst t.
        assert (Hl : (length c2 <= n)%nat) by (rewrite C in Hn; cbn in Hn; lia).
        rewrite (IH c2 Hl). split; [apply co_open|]. intro K.
        cbn in K. inversion K as [? Z|b c3 Hb K2 Z|c3 K2 Z]; subst; [discriminate Hb | exact K2].
      * rewrite C in E |- *. assert (t = S_ ">") as -> by (cbn in E; injection E as E; symmetry; exact E).
        vm_compute (starts _ _). split; [discriminate|]. intro K. cbn in K.
        inversion K as [? Z|b c3 Hb K2 Z|c3 K2 Z]; subst; discriminate Hb.
      * rewrite C in E |- *. assert (t = S_ "->") as -> by (cbn in E; injection E as E; symmetry; exact E).
        vm_compute (starts _ _). split; [discriminate|]. intro K. cbn in K.
        inversion K as [? Z|b c3 Hb K2 Z|c3 K2 Z]; subst; discriminate Hb.
    + cbn [app]. change (trim_start (x :: ?u)) with (if is_whitespace x then trim_start u else x :: u).
      destruct (is_whitespace x) eqn:Ex.
      * assert (Hl : (length c <= n)%nat) by (cbn in Hn; lia). rewrite (IH c Hl).
        split; [intro K; now apply co_blank|]. intro K.
        inversion K as [? Z|b c3 Hb K2 Z|c3 K2 Z]; subst; [discriminate Ex | exact K2 | discriminate Ex].
      * rewrite starts_spec. split.
        -- intros [u Hu]. injection Hu as -> _. apply (co_here c).
        -- intro K. inversion K as [? Z|b c3 Hb K2 Z|c3 K2 Z]; subst.
           ++ eexists. reflexivity.
           ++ unfold blank in Hb. congruence.
           ++ exfalso. clear -E. cbn in E. discriminate.
Qed.

Lemma comment_out_det : forall m a b, comment_out m a -> comment_out m b -> a = b.
Proof.
  intros m a b H H'. destruct H as [c H|c H]; inversion H' as [c' K Z|c' K Z]; subst;
    try reflexivity; apply app_inv_tail in Z; subst; (reflexivity || contradiction).
Qed.

Lemma remove_comments_spec : forall s, exists t, remove_comments s = Ok t /\ forall t', uncommented s t' <-> t' = t.
Proof.
  intro s. unfold remove_comments, uncommented.
  destruct (re_replace_all_rewrites re_comment comment comment_out
    (fun caps => if starts (S_ "[") (trim (str_replace (S_ "<!--") (S_ " ") (concat caps)))
                 then Ok (concat caps) else Ok (S_ " ")) comment_match comment_found) with (s := s)
    as (t & E & R).
  - intros u l t H.
    destruct (comment_match _ _ _ H) as [_ C].
    remember (concat l) as m eqn:Em. clear Em H. destruct C as [c r Hc].
    destruct (starts (S_ "[") _) eqn:Es.
    + eexists. split; [reflexivity|]. apply cm_keep. apply conditional_iff. exact Es.
    + eexists. split; [reflexivity|]. apply cm_drop. intro K.
      apply conditional_iff in K. congruence.
  - exists t. split; [exact E|]. intro t'. split.
    + intro R'. symmetry. exact (rewrites_det _ _ comment_det comment_out_det _ _ R _ R').
    + intros ->. exact R.
Qed.
