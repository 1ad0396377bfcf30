(** The whole of the HTML minifier. *)
From Coq Require Import String List NArith Bool Arith Lia ZifyBool ZifyN Relations.
From Verif Require Import Base HtmlModel HtmlSpec HtmlProofs1 HtmlProofs2 HtmlProofs3 HtmlProofs4 HtmlProofs5 HtmlProofs6.
Import ListNotations.
Open Scope N_scope.

(** ** Removing comments twice *)

Lemma no_close_same : forall s t, ~ occurs (S_ "-->") s -> uncommented s t -> t = s.
Proof.
  intros s t H R. induction R as [|c s t Hn R IH|m m' r t Hm Lm Fm R IH].
  - reflexivity.
  - f_equal. apply IH. intros (a & b & ->). apply H. exists (c :: a), b. reflexivity.
  - exfalso. apply H. destruct Lm as [c r _]. exists (S_ "<!--" ++ c), r. rewrite <- !app_assoc. reflexivity.
Qed.

Lemma copied_head : forall s t c t', uncommented s t -> t = c :: t' -> c <> 0x20 -> c <> lt ->
  exists s', s = c :: s' /\ uncommented s' t'.
Proof.
  intros s t c t' R E N1 N2. destruct R as [|d s t Hn R|m m' r t Hm Lm Fm R].
  - discriminate.
  - injection E as -> ->. eauto.
  - exfalso. destruct Fm as [x K|x K]; injection E as <- _; [apply N2; reflexivity | apply N1; reflexivity].
Qed.

(** Where a comment closes in a text, one closes first. *)
Lemma first_close : forall n a b, (length a <= n)%nat ->
  exists c r, a ++ S_ "-->" ++ b = c ++ S_ "-->" ++ r /\ forall x y, c ++ S_ "-->" = x ++ S_ "-->" ++ y -> y = [].
Proof.
  induction n as [|n IH]; intros a b Hn.
  - destruct a; [|cbn in Hn; lia]. exists [], b. split; [reflexivity|]. intros x y E.
    apply (f_equal (@length N)) in E. rewrite !app_length in E. cbn in E. destruct y; [reflexivity | cbn in E; lia].
  - assert (D : (exists x y, y <> [] /\ a ++ S_ "-->" = x ++ S_ "-->" ++ y) \/
                (forall x y, a ++ S_ "-->" = x ++ S_ "-->" ++ y -> y = [])).
    { assert (G : forall u : str, (exists x y, y <> [] /\ u = x ++ S_ "-->" ++ y) \/
                            (forall x y, u = x ++ S_ "-->" ++ y -> y = [])).
      { induction u as [|c u IHu].
        - right. intros x y E. destruct x; discriminate.
        - destruct IHu as [(x & y & Hy & ->) | Hu]; [left; exists (c :: x), y; auto|].
          destruct (strip (S_ "-->") (c :: u)) as [t|] eqn:E.
          + apply strip_spec in E. destruct t as [|e t].
            * right. intros [|d x] y E2; [rewrite E in E2; change ([] ++ S_ "-->" ++ y) with (S_ "-->" ++ y) in E2; apply app_inv_head in E2; auto|].
              injection E2 as <- E2. exact (Hu x y E2).
            * left. exists [], (e :: t). split; [discriminate | exact E].
          + right. intros [|d x] y E2; [change ([] ++ S_ "-->" ++ y) with (S_ "-->" ++ y) in E2; apply strip_spec in E2; congruence|].
            injection E2 as <- E2. exact (Hu x y E2). }
      apply G. }
    destruct D as [(x & y & Hy & E) | D]; [|exists a, b; split; [reflexivity | exact D]].
    destruct (IH x (y ++ b)) as (c & r & Ec & Hc).
    { apply (f_equal (@length N)) in E. rewrite !app_length in E. destruct y; [contradiction | cbn in E; lia]. }
    exists c, r. split; [|exact Hc]. rewrite <- Ec, app_assoc, E, <- !app_assoc. reflexivity.
Qed.

Lemma uncommented_idem : forall s t, uncommented s t -> uncommented t t.
Proof.
  intros s t R. induction R as [|c s t Hn R IH|m m' r t Hm Lm Fm R IH].
  - constructor.
  - apply rw_char; [|exact IH]. intros m r E L. destruct L as [x r Hx].
    assert (Hx2 : exists u, t = S_ "!--" ++ u /\ c = lt /\ u = x ++ S_ "-->" ++ r).
    { rewrite <- !app_assoc in E. injection E as -> E. eexists. split; [exact E | auto]. }
    destruct Hx2 as (u & Et & -> & Eu).
    destruct (copied_head _ _ _ _ R Et ltac:(discriminate) ltac:(discriminate)) as (s1 & -> & R1).
    destruct (copied_head _ _ _ _ R1 eq_refl ltac:(discriminate) ltac:(discriminate)) as (s2 & -> & R2).
    destruct (copied_head _ _ _ _ R2 eq_refl ltac:(discriminate) ltac:(discriminate)) as (s3 & -> & R3).
    assert (No : ~ occurs (S_ "-->") s3).
    { intros (a & b & ->). destruct (first_close _ a b (le_n _)) as (c & r' & Ec & Hc).
      apply (Hn (S_ "<!--" ++ c ++ S_ "-->") r').
      - rewrite <- !app_assoc. rewrite <- Ec. reflexivity.
      - constructor. exact Hc. }
    apply no_close_same in R3; [|exact No]. apply No. exists x, r. rewrite <- R3. exact Eu.
  - destruct Lm as [c r Hc]. inversion Fm as [c' K Z|c' K Z]; subst.
    + apply app_inv_tail in Z. subst c'.
      change ([60; 33; 45; 45] ++ c ++ [45; 45; 62]) with (S_ "<!--" ++ c ++ S_ "-->").
      change (uncommented ((S_ "<!--" ++ c ++ S_ "-->") ++ t) ((S_ "<!--" ++ c ++ S_ "-->") ++ t)).
      apply rw_match; [discriminate | now constructor | now constructor | exact IH].
    + cbn [app]. apply rw_char; [|exact IH]. intros m r' E L. destruct L. discriminate.
Qed.

(** ** Tags keep their ends *)

Lemma attribute_last : forall m r, simple_attribute m r -> exists z, m = z ++ [dquote].
Proof.
  intros m r H. destruct H as [name value r _ _ _ _]. exists (name ++ S_ "=" ++ [dquote] ++ value).
  rewrite <- !app_assoc. reflexivity.
Qed.

Lemma unquoted_ends : forall s t, unquoted s t -> forall x, s = x ++ [gt] -> exists y, t = y ++ [gt].
Proof.
  intros s t R. induction R as [|c s t Hn R IH|m m' r t Hm Lm Fm R IH]; intros x E.
  - destruct x; discriminate.
  - destruct x as [|d x].
    + injection E as -> ->. inversion R as [|? ? ? ? ? Z|m m' r u Hm Lm Fm R2 Z]; subst.
      * exists []. reflexivity.
      * destruct m; [congruence | discriminate].
    + injection E as -> ->. destruct (IH x eq_refl) as (y & ->). exists (d :: y). reflexivity.
  - destruct r as [|d r] using rev_ind.
    + exfalso. rewrite app_nil_r in E. destruct (attribute_last _ _ Lm) as (z & ->).
      apply app_inj_tail in E. destruct E as [_ E]. discriminate.
    + clear IHr. rewrite app_assoc in E. apply app_inj_tail in E. destruct E as [_ ->].
      destruct (IH r eq_refl) as (y & ->). exists (m' ++ y). now rewrite app_assoc.
Qed.

Definition tidy_lines (s : str) : Prop := tidy s /\ ~ In 0xD s /\ ~ In line_end s.

Lemma tidy_nil : tidy [].
Proof. intros [|? a] b c d E; discriminate. Qed.

Lemma tidy_app : forall a b, tidy a -> tidy b ->
  (forall x c d y, a = x ++ [c] -> b = d :: y -> ~ (blank c /\ blank d)) -> tidy (a ++ b).
Proof.
  induction a as [|c a IH]; intros b A B H; [exact B|]. cbn [app].
  intros [|x u] p q v E K.
  - injection E as -> E. destruct a as [|d a].
    + cbn in E. exact (H [] p q v eq_refl E K).
    + injection E as -> E. apply (A [] p q a eq_refl K).
  - injection E as -> E. refine (IH b _ B _ u p q v E K).
    + apply (tidy_mid [x] a []). now rewrite app_nil_r.
    + intros y e f z -> Eb. exact (H (x :: y) e f z eq_refl Eb).
Qed.

Lemma tidy_tail : forall c s, tidy (c :: s) -> tidy s.
Proof. intros c s T. apply (tidy_mid [c] s []). now rewrite app_nil_r. Qed.

(** Dropping quotation marks keeps the text tidy. *)
Lemma unquoted_tidy : forall s t, unquoted s t -> tidy s -> tidy t /\
  (forall d y, t = d :: y -> blank d -> exists y', s = d :: y').
Proof.
  intros s t R. induction R as [|c s t Hn R IH|m m' r t Hm Lm Fm R IH]; intro T.
  - split; [exact T | intros; discriminate].
  - destruct (IH (tidy_tail _ _ T)) as [T' H]. split.
    + apply tidy_cons; [|exact T']. destruct (is_whitespace c) eqn:Ec; [right | left; unfold blank; congruence].
      intros d y -> Bd. destruct (H d y eq_refl Bd) as (y' & ->).
      exact (T [] c d y' eq_refl (conj Ec Bd)).
    + intros d y E Bd. injection E as -> ->. eauto.
  - destruct Lm as [name value r N1 N2 V1 V2].
    assert (Tr : tidy r).
    { apply (tidy_mid (name ++ S_ "=" ++ [dquote] ++ value ++ [dquote]) r []). now rewrite app_nil_r. }
    destruct (IH Tr) as [T' H].
    assert (NB : Forall (fun c => ~ blank c) m').
    { assert (L1 : Forall (fun c => ~ blank c) name).
      { apply Forall_impl with (2 := N2). intros c Hc K. unfold letter in Hc. unfold blank, is_whitespace in K. lia. }
      assert (L2 : Forall (fun c => ~ blank c) value).
      { apply Forall_impl with (2 := V2). intros c Hc K. unfold value_letter, letter, digit in Hc.
        unfold blank, is_whitespace in K. lia. }
      assert (Q : ~ blank dquote) by discriminate. assert (Q2 : ~ blank 0x3D) by discriminate.
      inversion Fm as [name' value' I Z|name' value' H1 NI Z]; subst.
      - assert (name' = name /\ value' = value) as [-> ->].
        { cbn [app] in Z. pose proof Z as Z0. apply first_split in Z0.
          - subst name'. split; [reflexivity|]. apply app_inv_head in Z. injection Z as Z. now apply app_inv_tail in Z.
          - destruct I as [<- | [<- | []]]; cbn; intuition discriminate.
          - now apply letters_noteq. }
        apply Forall_app. split; [exact L1|]. cbn [app]. constructor; assumption.
      - match goal with |- Forall _ ?g => change g with (name' ++ 61 :: dquote :: value' ++ [dquote]) end. rewrite Z. apply Forall_app. split; [exact L1|]. cbn [app]. constructor; [exact Q2|]. constructor; [exact Q|].
        apply Forall_app. split; [exact L2|]. constructor; [exact Q | constructor]. }
    split.
    + apply tidy_app; [| exact T'|].
      * intros a b c d -> [B _]. apply Forall_app in NB. destruct NB as [_ NB]. inversion NB. contradiction.
      * intros x c d y -> _ [B _]. apply Forall_app in NB. destruct NB as [_ NB]. inversion NB. contradiction.
    + intros d y E Bd. exfalso. destruct m' as [|e m'].
      * inversion Fm as [name' value' I Z1 Z|name' value' H1 NI Z1 Z].
        -- destruct name'; discriminate.
        -- destruct name'; discriminate.
      * injection E as -> _. inversion NB. contradiction.
Qed.

Lemma incl_chars : forall (c : N) s t, unquoted s t -> In c t -> In c s.
Proof.
  intros c s t R. induction R as [|d s t Hn R IH|m m' r t Hm Lm Fm R IH]; intro I.
  - exact I.
  - destruct I as [-> | I]; [now left | right; auto].
  - apply in_app_iff in I. apply in_app_iff. destruct I as [I|I]; [left | right; auto].
    destruct Fm as [name value _|name value _ _]; [|exact I].
    apply in_app_iff in I. apply in_app_iff. destruct I as [I|I]; [left; exact I|]. right.
    destruct I as [I|I]; [left; exact I|]. right. right. change (In c (value ++ [dquote])).
    apply in_app_iff. left. exact I.
Qed.

Lemma tidy_tag_out_tidy : forall wu m r t, start_tag wu m r -> tidy_tag_out m t -> tidy m ->
  tidy t /\ (forall c, In c t -> In c m) /\ exists x, t = x ++ [gt].
Proof.
  intros wu m r t S H T. assert (exists x, m = x ++ [gt]) as (x & Ex).
  { destruct S as [y body r _ _ _]. exists ([lt; y] ++ body). now rewrite app_assoc. }
  destruct H as [m O|m k t O C U].
  - split; [exact T|]. split; [auto | eauto].
  - destruct (unquoted_tidy _ _ U (closed_tidy _ _ C T)) as [T' _]. split; [exact T'|]. split.
    + intros c I. apply (incl_chars c _ _ U) in I. destruct C as [y w _ _|y w _ _|m _]; [..|exact I];
        rewrite !in_app_iff in *; cbn in *; tauto.
    + assert (exists y, k = y ++ [gt]) as (y & Ey).
      { destruct C as [y w _ _|y w _ _|m _]; [..|eauto].
        - exists (y ++ [dquote]). now rewrite <- app_assoc.
        - exists (y ++ [squote]). now rewrite <- app_assoc. }
      exact (unquoted_ends _ _ U _ Ey).
Qed.

Lemma unquoted_first : forall s t c, unquoted (c :: s) t -> ~ letter c -> exists t', t = c :: t'.
Proof.
  intros s t c R Hc. inversion R as [|? ? u Hn R2|m m' r u Hm Lm Fm R2 E]; subst; [eauto|]. exfalso.
  destruct Lm as [name value r N1 N2 _ _]. destruct name as [|x name]; [contradiction|]. injection E as -> _.
  inversion N2. contradiction.
Qed.

Lemma closed_first : forall m k u, closed m k -> m = lt :: u -> exists u', k = lt :: u'.
Proof.
  intros m k u C E. destruct C as [x w _ _|x w _ _|m _]; [..|eauto].
  - destruct x as [|y x]; [discriminate|]. injection E as -> _. eexists. reflexivity.
  - destruct x as [|y x]; [discriminate|]. injection E as -> _. eexists. reflexivity.
Qed.

Lemma tidy_tag_first : forall wu m r t, start_tag wu m r -> tidy_tag_out m t -> exists z, t = lt :: z.
Proof.
  intros wu m r t S H. assert (exists u, m = lt :: u) as (u & Eu) by (destruct S; eexists; reflexivity).
  destruct H as [m O|m k t O C U]; [eauto|].
  destruct (closed_first _ _ _ C Eu) as (u' & ->). refine (unquoted_first _ _ _ U _). unfold letter, lt. lia.
Qed.

Lemma tags_tidy : forall wu s t, rewrites (start_tag wu) tidy_tag_out s t -> tidy_lines s ->
  tidy_lines t /\ (forall d y, t = d :: y -> blank d -> exists y', s = d :: y').
Proof.
  intros wu s t R. induction R as [|c s t Hn R IH|m m' r t Hm Lm Fm R IH]; intros (T & C1 & C2).
  - split; [repeat split; assumption | intros; discriminate].
  - destruct IH as [(T' & D1 & D2) H].
    { split; [exact (tidy_tail _ _ T)|]. split; intro I; [apply C1 | apply C2]; now right. }
    split.
    + repeat split.
      * apply tidy_cons; [|exact T']. destruct (is_whitespace c) eqn:Ec; [right | left; unfold blank; congruence].
        intros d y -> Bd. destruct (H d y eq_refl Bd) as (y' & ->). exact (T [] c d y' eq_refl (conj Ec Bd)).
      * intros [-> | I]; [apply C1; now left | contradiction].
      * intros [-> | I]; [apply C2; now left | contradiction].
    + intros d y E Bd. injection E as -> ->. eauto.
  - assert (Tm : tidy m) by exact (tidy_mid [] m r T).
    assert (Tr : tidy r) by (apply (tidy_mid m r []); now rewrite app_nil_r).
    destruct IH as [(T' & D1 & D2) H].
    { split; [exact Tr|]. split; intro I; [apply C1 | apply C2]; apply in_app_iff; now right. }
    destruct (tidy_tag_out_tidy _ _ _ _ Lm Fm Tm) as (Tt & Inc & x & Ex).
    split.
    + repeat split.
      * apply tidy_app; [exact Tt | exact T'|]. intros u c d y E _ [B _]. rewrite Ex in E. apply app_inj_tail in E.
        destruct E as [_ <-]. discriminate B.
      * rewrite in_app_iff. intros [I | I]; [|contradiction]. apply C1. apply in_app_iff. left. auto.
      * rewrite in_app_iff. intros [I | I]; [|contradiction]. apply C2. apply in_app_iff. left. auto.
    + intros d y E Bd. exfalso.
      destruct (tidy_tag_first _ _ _ _ Lm Fm) as (z & Hz). rewrite Hz in E. injection E as <- _. discriminate Bd.
Qed.

(** ** The stages together *)

Lemma trim_idem : forall s, trim (trim s) = trim s.
Proof.
  intro s. apply (trims_det (trim s)); [apply trim_trims|]. destruct (trim_trims s) as [T _].
  split; [exact T|]. exists [], []. repeat split; try constructor. now rewrite app_nil_r.
Qed.

Lemma tidy_trims : forall s t, trims s t -> tidy_lines s -> tidy_lines t.
Proof.
  intros s t [_ (a & b & _ & _ & ->)] (T & C1 & C2). split; [exact (tidy_mid _ _ _ T)|].
  split; intro I; [apply C1 | apply C2]; rewrite !in_app_iff; tauto.
Qed.

Lemma minify_spec : forall wu du lu s, lower_ok lu ->
  exists a b d e t, minify wu du lu s = Ok t /\
    uncommented s a /\ untyped wu a b /\
    ((preformatted (clean_unneeded_tags b) /\ trims (clean_unneeded_tags b) d /\
      rewrites (start_tag wu) tag_out d e) \/
     (~ preformatted (clean_unneeded_tags b) /\ squeezed None (clean_unneeded_tags b) d /\
      rewrites (start_tag wu) tidy_tag_out d e)) /\
    trims e t.
Proof.
  intros wu du lu s HL. unfold minify.
  destruct (remove_comments_spec s) as (a & Ea & Ha). rewrite Ea. cbn [obind].
  destruct (condense_spec wu a) as (b & Eb & Hb). rewrite Eb. cbn [obind].
  set (c := clean_unneeded_tags b). set (d := condense_whitespace lu c).
  destruct (unquote_spec wu du d) as (e & Ee & He & Ht). rewrite Ee. cbn [obind].
  exists a, b, d, e, (trim (trim e)). split; [reflexivity|]. split; [now apply Ha|]. split; [now apply Hb|]. split.
  - destruct (condense_whitespace_spec lu c HL) as [[P T]|[P Q]]; fold d in T || fold d in Q.
    + left. auto.
    + right. split; [exact P|]. split; [exact Q|]. apply Ht; [|reflexivity]. exact (proj1 (squeezed_tidy _ _ _ Q)).
  - rewrite trim_idem. apply trim_trims.
Qed.

(** ** Sizes *)

Lemma rewrites_length : forall (L F : str -> str -> Prop), (forall m m', F m m' -> (length m' <= length m)%nat) ->
  forall s t, rewrites L F s t -> (length t <= length s)%nat.
Proof.
  intros L F H s t R. induction R as [|c s t Hn R IH|m m' r t Hm Lm Fm R IH].
  - reflexivity.
  - cbn. lia.
  - rewrite !app_length. specialize (H _ _ Fm). lia.
Qed.

Lemma uncommented_length : forall s t, uncommented s t -> (length t <= length s)%nat.
Proof.
  apply rewrites_length. intros m m' H. destruct H as [c _|c _]; [reflexivity|]. rewrite !app_length. cbn. lia.
Qed.

Lemma untyped_length : forall wu s t, untyped wu s t -> (length t <= length s)%nat.
Proof.
  intro wu. apply rewrites_length. apply rewrites_length. intros m m' ->. cbn. lia.
Qed.

Lemma drops_length : forall s t, clos_refl_trans str drops s t -> (length t <= length s)%nat.
Proof.
  intros s t H. induction H as [s t H|s|s t u H1 IH1 H2 IH2]; [|lia|lia].
  destruct H as [a t b _]. rewrite !app_length. lia.
Qed.

Lemma unquoted_length : forall s t, unquoted s t -> (length t <= length s)%nat.
Proof.
  apply rewrites_length. intros m m' H. destruct H as [name value _|name value _ _]; [|reflexivity].
  rewrite !app_length. cbn. lia.
Qed.

Lemma closed_length : forall s t, closed s t -> (length t <= length s)%nat.
Proof.
  intros s t H. destruct H as [x w Hw _|x w Hw _|m _]; [..|reflexivity];
    rewrite !app_length; cbn; destruct w; (contradiction || (cbn; lia)).
Qed.

Lemma tag_out_length : forall m m', tag_out m m' -> (length m' <= length m)%nat.
Proof.
  intros m m' H. destruct H as [m _|m k k' m' _ C _ Hl _ _ U]; [reflexivity|].
  apply closed_length in C. apply unquoted_length in U. lia.
Qed.

Lemma tidy_tag_out_length : forall m m', tidy_tag_out m m' -> (length m' <= length m)%nat.
Proof.
  intros m m' H. destruct H as [m _|m k m' _ C U]; [reflexivity|].
  apply closed_length in C. apply unquoted_length in U. lia.
Qed.

Lemma trims_length : forall s t, trims s t -> (length t <= length s)%nat.
Proof. intros s t [_ (a & b & _ & _ & ->)]. rewrite !app_length. lia. Qed.

Lemma minify_length : forall wu du lu s t, lower_ok lu -> minify wu du lu s = Ok t -> (length t <= length s)%nat.
Proof.
  intros wu du lu s t HL E. destruct (minify_spec wu du lu s HL) as (a & b & d & e & t' & E' & H1 & H2 & H3 & H4).
  rewrite E in E'. injection E' as <-.
  apply uncommented_length in H1. apply untyped_length in H2. apply trims_length in H4.
  pose proof (drops_length _ _ (clean_drops b)) as H5.
  destruct H3 as [(_ & T & R) | (_ & Q & R)].
  - apply trims_length in T. apply (rewrites_length _ _ tag_out_length) in R. lia.
  - apply squeezed_skeleton in Q. apply (rewrites_length _ _ tidy_tag_out_length) in R. lia.
Qed.
