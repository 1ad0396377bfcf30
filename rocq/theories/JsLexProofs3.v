(** The tokenizer follows the lexical specification: comments, regular expressions, the loop. *)
From Coq Require Import String List NArith ZArith Bool Lia ZifyBool ZifyN Arith.
From Verif Require Import Base JsModel JsUtilModel JsUtilSpec JsUtilProofs JsUtilProofs2 JsLexSpec
  JsLexProofs1 JsLexProofs2.
Import ListNotations.
Open Scope N_scope.

(** ** Line comments *)

Lemma rchar_newline : forall c, newline c = true -> rchar_of c = Some Backline.
Proof. intros c H. unfold newline in H. apply orb_true_iff in H. destruct H as [H|H]; apply N.eqb_eq in H; subst; reflexivity. Qed.

Lemma rchar_not_newline : forall c, newline c = false -> rchar_of c <> Some Backline.
Proof.
  intros c H E. apply rchar_of_sound in E. destruct E as [E|[E _]]; subst; discriminate.
Qed.

Lemma line_comment_loop_spec : forall b nl, Forall (fun c => newline c = false) b -> newline nl = true ->
  forall n source p0 mid s it,
  source = p0 ++ mid ++ (b ++ nl :: s) ->
  at_ it (p0 ++ mid) (b ++ nl :: s) -> (length (b ++ nl :: s) < n)%nat ->
  exists it', line_comment_loop n source it (blen p0)
    = Ok (Some (TComment (mid ++ b)), blen (p0 ++ mid ++ b), it')
    /\ at_ it' (p0 ++ mid ++ b ++ [nl]) s.
Proof.
  intros b nl Hb Hnl. induction Hb as [|c b Hc Hb IH]; intros n source p0 mid s it Hs Ha Hn.
  - destruct n as [|n]; [cbn in Hn; lia|]. cbn [app] in *. cbn [line_comment_loop].
    destruct (next_at _ _ _ _ _ Ha) as (it' & -> & Ha').
    rewrite (rchar_newline nl Hnl). rewrite blen_app.
    rewrite (slice_of source p0 mid (nl :: s)) by exact Hs. cbn [obind].
    rewrite !app_nil_r, blen_app. exists it'. split; [reflexivity|]. norm_in Ha'. exact Ha'.
  - destruct n as [|n]; [cbn in Hn; lia|]. cbn [app] in *. cbn [line_comment_loop].
    destruct (next_at _ _ _ _ _ Ha) as (it' & -> & Ha').
    assert (X : exists it'', line_comment_loop n source it' (blen p0)
      = Ok (Some (TComment (mid ++ c :: b)), blen (p0 ++ mid ++ c :: b), it'')
      /\ at_ it'' (p0 ++ mid ++ c :: b ++ [nl]) s).
    { destruct (IH n source p0 (mid ++ [c]) s it') as (it2 & E1 & E2).
      - subst source. norm. reflexivity.
      - norm_in Ha'. exact Ha'.
      - cbn [length] in Hn. lia.
      - norm_in E1. norm_in E2. eauto. }
    pose proof (rchar_not_newline c Hc) as R.
    destruct (rchar_of c) as [[]|]; try exact X. congruence.
Qed.

(** ** Block comments *)

Definition starred (st : bool) (x : str) : str := if st then 0x2A :: x else x.

Lemma has_end_tail : forall c x, has_comment_end (c :: x) = false -> has_comment_end x = false.
Proof.
  intros c [|d x] H; [reflexivity|]. cbn [has_comment_end] in H. apply orb_false_iff in H. apply H.
Qed.

Lemma comment_loop_spec : forall x st prev n p0 s it cur,
  (prev = Star <-> st = true) ->
  (exists y, starred st x = y ++ [0x2A]) -> has_comment_end (starred st x) = false ->
  (2 <= blen (p0 ++ x))%nat ->
  at_ it p0 (x ++ 0x2F :: s) -> (lt (length (x ++ 0x2F :: s)) n) ->
  exists it', comment_loop n it prev cur = Ok ((blen (p0 ++ x) - 2)%nat, it')
    /\ at_ it' (p0 ++ x ++ [0x2F]) s.
Proof.
  induction x as [|c x IH]; intros st prev n p0 s it cur Hp (y & Hy) Hc Hl Ha Hn.
  - destruct st; cbn [starred] in *; [|destruct y; discriminate].
    destruct n as [|n]; [cbn in Hn; lia|]. cbn [app] in *. cbn [comment_loop].
    destruct (next_at _ _ _ _ _ Ha) as (it' & -> & Ha').
    change (rchar_of 0x2F) with (Some Slash). cbn [rchar_eqb].
    destruct Hp as [_ Hp]. rewrite (Hp eq_refl).
    change (rchar_eqb Slash Slash && rchar_eqb Star Star) with true. cbv iota.
    rewrite app_nil_r in *. unfold usub. replace (Nat.leb 2 (blen p0)) with true by (symmetry; now apply Nat.leb_le).
    cbn [obind]. exists it'. auto.
  - destruct n as [|n]; [cbn in Hn; lia|]. cbn [app] in *. cbn [comment_loop].
    destruct (next_at _ _ _ _ _ Ha) as (it' & -> & Ha').
    assert (X : forall k, (k = Star <-> c = 0x2A) -> exists it'', comment_loop n it' k (blen p0)
       = Ok ((blen (p0 ++ c :: x) - 2)%nat, it'') /\ at_ it'' (p0 ++ c :: x ++ [0x2F]) s).
    { intros k Hk. destruct (IH (c =? 0x2A) k n (p0 ++ [c]) s it' (blen p0)) as (it2 & E1 & E2).
      - rewrite Hk. symmetry. apply N.eqb_eq.
      - destruct x as [|d x].
        + assert (C : c = 0x2A).
          { destruct st; cbn [starred] in Hy.
            - change [0x2A; c] with ([0x2A] ++ [c]) in Hy. apply app_inj_tail in Hy. apply Hy.
            - change [c] with ([] ++ [c]) in Hy. apply app_inj_tail in Hy. apply Hy. }
          rewrite (proj2 (N.eqb_eq _ _) C). exists []. reflexivity.
        + destruct (@exists_last _ (d :: x)) as (z & e & Hz); [discriminate|].
          assert (e = 0x2A).
          { destruct st; cbn [starred] in Hy; rewrite Hz in Hy.
            - change (0x2A :: c :: z ++ [e]) with ((0x2A :: c :: z) ++ [e]) in Hy. apply app_inj_tail in Hy. apply Hy.
            - change (c :: z ++ [e]) with ((c :: z) ++ [e]) in Hy. apply app_inj_tail in Hy. apply Hy. }
          subst e. rewrite Hz. destruct (c =? 0x2A); [exists (0x2A :: z)|exists z]; reflexivity.
      - assert (Hc' : has_comment_end (c :: x) = false).
        { destruct st; cbn [starred] in Hc; [exact (has_end_tail _ _ Hc)|exact Hc]. }
        destruct (c =? 0x2A) eqn:C; cbn [starred]; [apply N.eqb_eq in C; subst c; exact Hc'|].
        exact (has_end_tail _ _ Hc').
      - norm. exact Hl.
      - norm_in Ha'. norm. exact Ha'.
      - cbn [length] in Hn. lia.
      - norm_in E1. norm_in E2. eauto. }
    destruct (rchar_of c) as [k|] eqn:R.
    + assert (K : k = Star <-> c = 0x2A).
      { apply rchar_of_sound in R. split.
        - intros ->. destruct R as [<-|[_ R]]; [reflexivity|discriminate].
        - intros ->. destruct R as [R|[R _]]; [|discriminate]. destruct k; try discriminate. reflexivity. }
      replace (rchar_eqb k Slash && rchar_eqb prev Star) with false; [apply X; exact K|].
      symmetry. apply andb_false_iff. destruct (rchar_eqb k Slash) eqn:KS; [right|left; reflexivity].
      apply rchar_eqb_eq in KS. subst k.
      destruct (rchar_eqb prev Star) eqn:P; [|reflexivity]. exfalso. apply rchar_eqb_eq in P.
      apply Hp in P. subst st. cbn [starred has_comment_end] in Hc. apply orb_false_iff in Hc.
      apply rchar_of_sound in R. destruct R as [R|[_ R]]; [|discriminate]. cbn in R. subst c.
      destruct Hc. discriminate.
    + apply X. split; [discriminate|]. intros ->. discriminate R.
Qed.

Lemma get_comment_spec : forall lic b, comment_body b = true -> (lic = false -> hd_error b <> Some 0x21) ->
  forall source p0 s it,
  let open := 0x2F :: 0x2A :: (if lic then [0x21] else []) in
  source = p0 ++ open ++ b ++ 0x2A :: 0x2F :: s ->
  at_ it (p0 ++ [0x2F; 0x2A]) ((if lic then [0x21] else []) ++ b ++ 0x2A :: 0x2F :: s) ->
  exists it', get_comment source it (blen (p0 ++ [0x2F]))
    = Ok (if lic then TLicense b else TComment b, blen (p0 ++ open ++ b ++ [0x2A]), it')
    /\ at_ it' (p0 ++ open ++ b ++ [0x2A; 0x2F]) s.
Proof.
  intros lic b Hb Hh source p0 s it open Hs Ha. unfold comment_body in Hb. apply negb_true_iff in Hb.
  unfold get_comment.
  (* the part after the first character *)
  assert (FIN : forall prev start2 it1 c0 x st,
     start2 = blen (p0 ++ open) ->
     ((if lic then [0x21] else []) ++ b ++ [0x2A]) = c0 :: x ->
     (prev = Star <-> st = true) ->
     (exists y, starred st x = y ++ [0x2A]) -> has_comment_end (starred st x) = false ->
     at_ it1 (p0 ++ [0x2F; 0x2A; c0]) (x ++ 0x2F :: s) ->
     exists it', (let! (cur, it2) := comment_loop (S (left_over it1)) it1 prev start2 in
      let! last := usub (blen source) 1 in
      let cur' := Nat.min cur last in
      let! s := oslice (slice source start2 (S cur')) in
      Ok (if lic then TLicense s else TComment s, (cur' + 2)%nat, it2))
     = Ok (if lic then TLicense b else TComment b, blen (p0 ++ open ++ b ++ [0x2A]), it')
     /\ at_ it' (p0 ++ open ++ b ++ [0x2A; 0x2F]) s).
  { intros prev start2 it1 c0 x st E2 Ex Hp Hy Hc Ha1.
    assert (PX : (p0 ++ [0x2F; 0x2A; c0]) ++ x = p0 ++ open ++ b ++ [0x2A]).
    { unfold open. norm. rewrite <- Ex. destruct lic; reflexivity. }
    assert (BL : blen (p0 ++ open ++ b ++ [0x2A]) = S (blen (p0 ++ open ++ b))).
    { rewrite !blen_app. change (blen [0x2A]) with 1%nat. lia. }
    assert (BO : (2 <= blen (p0 ++ open))%nat).
    { unfold open. rewrite blen_app. cbn [blen]. change (len_utf8 0x2F) with 1%nat. change (len_utf8 0x2A) with 1%nat. lia. }
    destruct (comment_loop_spec x st prev (S (left_over it1)) (p0 ++ [0x2F; 0x2A; c0]) s it1 start2 Hp Hy Hc)
      as (it2 & -> & Ha2); [|exact Ha1| |].
    - rewrite PX, BL. rewrite !blen_app in *. lia.
    - rewrite (at_left _ _ _ _ Ha1). lia.
    - rewrite PX, BL. cbn [obind].
      assert (BS : (S (blen (p0 ++ open ++ b)) < blen source)%nat).
      { subst source. rewrite !blen_app. cbn [blen]. change (len_utf8 0x2F) with 1%nat. change (len_utf8 0x2A) with 1%nat. lia. }
      unfold usub at 1. replace (Nat.leb 1 (blen source)) with true by (symmetry; apply Nat.leb_le; lia).
      cbn [obind]. cbv zeta.
      assert (B1 : (2 <= blen (p0 ++ open ++ b))%nat) by (rewrite !blen_app in *; lia).
      rewrite Nat.min_l by lia.
      replace (S (S (blen (p0 ++ open ++ b)) - 2)) with (blen (p0 ++ open) + blen b)%nat.
      2:{ rewrite !blen_app in *. lia. }
      rewrite E2. rewrite (slice_of source (p0 ++ open) b (0x2A :: 0x2F :: s)).
      2:{ subst source. norm. reflexivity. }
      cbn [obind]. exists it2. split.
      + f_equal. f_equal. f_equal. rewrite !blen_app in *. lia.
      + rewrite app_assoc in Ha2. rewrite PX in Ha2. norm_in Ha2. norm. exact Ha2. }
  assert (LEN : forall q, blen (q ++ [0x2F]) = S (blen q)).
  { intro q. rewrite blen_app. change (blen [0x2F]) with 1%nat. lia. }
  destruct lic; cbn [app] in Ha.
  - destruct (next_at _ _ _ _ _ Ha) as (it1 & -> & Ha1). change (0x21 =? 0x21) with true. cbv iota zeta.
    norm_in Ha1.
    apply (FIN Quote _ it1 0x21 (b ++ [0x2A]) false).
    + unfold open. rewrite LEN, blen_app. cbn [blen]. change (len_utf8 0x2F) with 1%nat.
      change (len_utf8 0x2A) with 1%nat. change (len_utf8 0x21) with 1%nat. lia.
    + reflexivity.
    + split; discriminate.
    + eexists. reflexivity.
    + exact Hb.
    + norm. exact Ha1.
  - specialize (Hh eq_refl). destruct b as [|c b]; cbn [app] in Ha.
    + destruct (next_at _ _ _ _ _ Ha) as (it1 & -> & Ha1). change (0x2A =? 0x21) with false. cbv iota zeta.
      norm_in Ha1. change (rchar_of 0x2A) with (Some Star). cbv iota.
      apply (FIN Star _ it1 0x2A [] true).
      * unfold open. rewrite LEN, blen_app. cbn [blen]. change (len_utf8 0x2F) with 1%nat.
        change (len_utf8 0x2A) with 1%nat. lia.
      * reflexivity.
      * split; auto.
      * exists []. reflexivity.
      * reflexivity.
      * exact Ha1.
    + destruct (next_at _ _ _ _ _ Ha) as (it1 & -> & Ha1).
      replace (c =? 0x21) with false.
      2:{ symmetry. apply N.eqb_neq. intros ->. apply Hh. reflexivity. }
      cbv iota zeta. norm_in Ha1.
      apply (FIN _ _ it1 c (b ++ [0x2A]) (c =? 0x2A)).
      * unfold open. rewrite LEN, blen_app. cbn [blen]. change (len_utf8 0x2F) with 1%nat.
        change (len_utf8 0x2A) with 1%nat. lia.
      * reflexivity.
      * rewrite N.eqb_eq. split.
        -- destruct (rchar_of c) as [k|] eqn:R; [|discriminate]. intros ->.
           apply rchar_of_sound in R. destruct R as [<-|[_ R]]; [reflexivity|discriminate].
        -- intros ->. reflexivity.
      * destruct (c =? 0x2A); cbn [starred]; [exists (0x2A :: b)|exists b]; reflexivity.
      * cbn [app] in Hb. destruct (c =? 0x2A) eqn:C; cbn [starred].
        -- apply N.eqb_eq in C. subst c. exact Hb.
        -- eapply has_end_tail. exact Hb.
      * norm. exact Ha1.
Qed.

(** ** Regular expressions *)

(** The same as [at_] while saving. *)
Definition sav (it : peekable) (pre s : str) : Prop :=
  is_saving it = true /\
  ((peeked it = None /\ ipos it = blen pre /\ irest it = s)
   \/ (exists c r, peeked it = Some (blen pre, c) /\ s = c :: r
       /\ ipos it = (blen pre + len_utf8 c)%nat /\ irest it = r)).

Lemma start_sav : forall it pre s, at_ it pre s -> sav (start_save it) pre s.
Proof.
  intros it pre s H. apply at_iff in H. destruct it as [ip ir sv pk sa].
  destruct H as (A & B & [(C & D & E)|(d & r & C & -> & D & E)]);
    cbn in A, B, C, D, E; subst; unfold sav, start_save, save_peeked; cbn.
  - split; [reflexivity|]. left. auto.
  - split; [reflexivity|]. right. exists d, r. auto.
Qed.

Lemma drop_sav : forall it pre s, sav it pre s -> at_ (drop_save it) pre s.
Proof. intros it pre s (A & B). apply at_iff. cbn. split; [reflexivity|]. split; [reflexivity|]. exact B. Qed.

Lemma next_sav : forall it pre c s, sav it pre (c :: s) ->
  exists it', next it = (Some (blen pre, c), it') /\ sav it' (pre ++ [c]) s.
Proof.
  intros [ip ir sv pk sa] pre c s (B & [(C & D & E)|(d & r & C & X & D & E)]); cbn in B, C, D, E; subst.
  - unfold next. cbn. eexists. split; [reflexivity|]. unfold sav. cbn. split; [reflexivity|]. left.
    rewrite blen_snoc. auto.
  - injection X as <- <-. unfold next. cbn. eexists. split; [reflexivity|]. unfold sav. cbn.
    split; [reflexivity|]. left. rewrite blen_snoc. auto.
Qed.

Lemma peek_sav : forall it pre s, sav it pre s ->
  exists it', peek it = (match s with c :: _ => Some (blen pre, c) | [] => None end, it')
  /\ sav it' pre s.
Proof.
  intros [ip ir sv pk sa] pre s (B & [(C & D & E)|(d & r & C & -> & D & E)]); cbn in B, C, D, E; subst.
  - unfold peek. cbn. destruct s as [|c r]; cbn; eexists; (split; [reflexivity|]); unfold sav; cbn;
      (split; [reflexivity|]); [left; auto|right; exists c, r; auto].
  - unfold peek. cbn. eexists. split; [reflexivity|]. unfold sav. cbn. split; [reflexivity|].
    right. exists d, r. auto.
Qed.

Lemma sav_left : forall it pre s, sav it pre s -> (length s <= left_over it)%nat.
Proof.
  intros it pre s (B & [(C & D & E)|(d & r & C & -> & D & E)]); unfold left_over; rewrite C, E; cbn; lia.
Qed.

Lemma flags_loop_spec : forall f, Forall (fun c => flag c = true) f ->
  forall n pre s it g i add,
  (forall c, hd_error s = Some c -> flag c = false) ->
  sav it pre (f ++ s) -> (length (f ++ s) < n)%nat ->
  exists it', flags_loop n it g i add
    = Ok (g || mem_char 0x67 f, i || mem_char 0x69 f, (add + length f)%nat, it')
    /\ sav it' (pre ++ f) s.
Proof.
  intros f Hf. induction Hf as [|c f Hc Hf IH]; intros n pre s it g i add Hs Ha Hn.
  - destruct n as [|n]; [lia|]. cbn [app] in *. cbn [flags_loop].
    destruct (peek_sav _ _ _ Ha) as (it1 & -> & Ha1).
    rewrite !orb_false_r, app_nil_r, Nat.add_0_r. exists it1. split; [|exact Ha1].
    destruct s as [|c s]; [reflexivity|]. specialize (Hs c eq_refl). unfold flag in Hs.
    apply orb_false_iff in Hs. destruct Hs as [-> ->]. reflexivity.
  - destruct n as [|n]; [lia|]. cbn [app] in *. cbn [flags_loop].
    destruct (peek_sav _ _ _ Ha) as (it1 & -> & Ha1).
    destruct (next_sav _ _ _ _ Ha1) as (it2 & E & Ha2). rewrite E. cbn [snd].
    assert (L : (length (f ++ s) < n)%nat) by (cbn [length] in Hn; lia).
    unfold flag in Hc. apply orb_true_iff in Hc. destruct Hc as [C|C]; apply N.eqb_eq in C; subst c.
    + change (0x67 =? 0x69) with false. change (0x67 =? 0x67) with true. cbv iota.
      destruct (IH n (pre ++ [0x67]) s it2 true i (S add) Hs Ha2 L) as (it3 & E1 & E2).
      exists it3. rewrite E1. norm_in E2. split; [|exact E2]. cbn. rewrite orb_true_r.
      rewrite Nat.add_succ_r. reflexivity.
    + change (0x69 =? 0x69) with true. cbv iota.
      destruct (IH n (pre ++ [0x69]) s it2 g true (S add) Hs Ha2 L) as (it3 & E1 & E2).
      exists it3. rewrite E1. norm_in E2. split; [|exact E2]. cbn. rewrite orb_true_r.
      rewrite Nat.add_succ_r. reflexivity.
Qed.

Lemma flags_blen : forall f, Forall (fun c => flag c = true) f -> blen f = length f.
Proof.
  induction 1 as [|c f Hc Hf IH]; [reflexivity|]. cbn. rewrite IH. unfold flag in Hc.
  apply orb_true_iff in Hc. destruct Hc as [C|C]; apply N.eqb_eq in C; subst c; reflexivity.
Qed.

Lemma regex_loop_spec : forall b, regex_body b ->
  forall f, Forall (fun c => flag c = true) f ->
  forall n source p0 mid s it,
  (forall c, hd_error s = Some c -> flag c = false) ->
  source = p0 ++ (0x2F :: mid) ++ b ++ 0x2F :: f ++ s ->
  sav it (p0 ++ 0x2F :: mid) (b ++ 0x2F :: f ++ s) -> (lt (length (b ++ 0x2F :: f ++ s)) n) ->
  exists it', regex_loop n source it (blen p0)
    = Ok (Some (TRegex (mid ++ b) (mem_char 0x67 f) (mem_char 0x69 f)),
          Nat.add (blen (p0 ++ 0x2F :: mid ++ b)) (length f), it')
    /\ at_ it' (p0 ++ 0x2F :: mid ++ b ++ 0x2F :: f) s.
Proof.
  intros b Hb f Hf. induction Hb as [|c b C1 C2 C3 Hb IH|c b Hb IH]; intros n source p0 mid s it Hs E Ha Hn.
  - destruct n as [|n]; [cbn in Hn; lia|]. cbn [app] in *. cbn [regex_loop].
    destruct (next_sav _ _ _ _ Ha) as (it1 & -> & Ha1).
    change (0x2F =? 0x5C) with false. change (rchar_of 0x2F) with (Some Slash). cbv iota.
    destruct (flags_loop_spec f Hf (S (left_over it1)) _ s it1 false false 0%nat Hs Ha1) as (it2 & -> & Ha2).
    { pose proof (sav_left _ _ _ Ha1). lia. }
    cbn [obind orb]. rewrite app_nil_r.
    assert (B : S (blen p0) = blen (p0 ++ [0x2F])) by (rewrite blen_app; change (blen [0x2F]) with 1%nat; lia).
    rewrite B.
    replace (blen (p0 ++ 0x2F :: mid)) with (Nat.add (blen (p0 ++ [0x2F])) (blen mid)).
    2:{ rewrite <- blen_app. f_equal. norm. reflexivity. }
    rewrite (slice_of source (p0 ++ [0x2F]) mid (0x2F :: f ++ s)).
    2:{ subst source. norm. reflexivity. }
    cbn [obind]. exists (drop_save it2). split; [reflexivity|].
    apply drop_sav in Ha2. norm_in Ha2. exact Ha2.
  - destruct n as [|n]; [cbn in Hn; lia|]. cbn [app] in *. cbn [regex_loop].
    destruct (next_sav _ _ _ _ Ha) as (it1 & -> & Ha1).
    replace (c =? 0x5C) with false by (symmetry; now apply N.eqb_neq).
    assert (X : exists it'', regex_loop n source it1 (blen p0)
      = Ok (Some (TRegex (mid ++ c :: b) (mem_char 0x67 f) (mem_char 0x69 f)),
          Nat.add (blen (p0 ++ 0x2F :: mid ++ c :: b)) (length f), it'')
      /\ at_ it'' (p0 ++ 0x2F :: mid ++ c :: b ++ 0x2F :: f) s).
    { destruct (IH n source p0 (mid ++ [c]) s it1 Hs) as (it2 & E1 & E2).
      - subst source. norm. reflexivity.
      - norm_in Ha1. exact Ha1.
      - cbn [length] in Hn. lia.
      - norm_in E1. norm_in E2. eauto. }
    destruct (rchar_of c) as [k|] eqn:R; [|exact X].
    apply rchar_of_sound in R.
    destruct k; try exact X; exfalso.
    + destruct R as [R|[_ R]]; [|discriminate]. apply C1. symmetry. exact R.
    + destruct R as [R|[R _]]; subst c; discriminate C3.
  - destruct n as [|n]; [cbn in Hn; lia|]. cbn [app] in *. cbn [regex_loop].
    destruct (next_sav _ _ _ _ Ha) as (it1 & -> & Ha1).
    change (0x5C =? 0x5C) with true. cbv iota.
    destruct (next_sav _ _ _ _ Ha1) as (it2 & En & Ha2). rewrite En. cbn [snd].
    destruct (IH n source p0 (mid ++ [0x5C; c]) s it2 Hs) as (it3 & E1 & E2).
    + subst source. norm. reflexivity.
    + norm_in Ha2. exact Ha2.
    + cbn [length] in Hn. lia.
    + norm_in E1. norm_in E2. eauto.
Qed.

Lemma regex_here_allowed : forall v, regex_allowed v = regex_here v.
Proof.
  induction v as [|t v IH]; [reflexivity|]. unfold regex_here in *. cbn [regex_allowed significant].
  destruct t; try exact IH; try reflexivity.
  destruct c; try exact IH; reflexivity.
Qed.

(** *** An expression that is not closed: what was read comes again. *)

Lemma numbered_app : forall a b pos, numbered pos (a ++ b) = numbered pos a ++ numbered (pos + blen a) b.
Proof.
  induction a as [|c a IH]; intros b pos; cbn [app numbered blen]; [rewrite Nat.add_0_r; reflexivity|].
  rewrite IH, Nat.add_assoc. reflexivity.
Qed.

Lemma quiet_newline : forall n, newline n = true -> quiet n = true.
Proof.
  intros n H. unfold newline in H. apply orb_true_iff in H.
  destruct H as [H|H]; apply N.eqb_eq in H; subst n; reflexivity.
Qed.

Lemma regex_open_loop : forall l s, open_line l s ->
  forall n source start pre m ip ir sd pk sa,
  pk = None -> sa = true -> ip = blen (pre ++ m) -> ir = l ++ s -> sd = numbered (blen pre) m ->
  Forall (fun c => quiet c = true) m -> (length (l ++ s) < n)%nat ->
  exists it', regex_loop n source {| ipos := ip; irest := ir; saved := sd; peeked := pk; is_saving := sa |} start
    = Ok (None, start, it')
    /\ near it' pre (m ++ l ++ s).
Proof.
  intros l s (F & Hs). induction F as [|c l (C1 & C2) F IH];
    intros n source start pre m ip ir sd pk sa -> -> -> -> -> Q Hn.
  - cbn [app] in *. destruct n as [|n]; [lia|]. cbn [regex_loop].
    destruct Hs as [->|(nl & r & -> & Hn')].
    + unfold next. cbn. eexists. split; [reflexivity|]. split; [reflexivity|]. exists m, [].
      cbn. split; [reflexivity|]. split; [reflexivity|]. split; [discriminate|]. split; [exact Q|]. left. auto.
    + unfold next. cbn [peeked is_saving negb]. unfold inner_next. cbn [irest ipos saved peeked is_saving set_saved].
      assert (R : rchar_of nl = Some Backline /\ (nl =? 0x5C) = false).
      { unfold newline in Hn'. apply orb_true_iff in Hn'.
        destruct Hn' as [H|H]; apply N.eqb_eq in H; subst nl; split; reflexivity. }
      destruct R as [-> ->]. eexists. split; [reflexivity|]. split; [reflexivity|].
      exists (m ++ [nl]), r. unfold stop_save, save_peeked. cbn.
      split; [rewrite <- app_assoc; reflexivity|].
      split; [rewrite numbered_app, blen_app; reflexivity|]. split; [discriminate|].
      split. { apply Forall_app. split; [exact Q|]. constructor; [apply quiet_newline; exact Hn'|constructor]. }
      left. split; [reflexivity|]. split; [|reflexivity]. rewrite !blen_app. cbn. lia.
  - destruct n as [|n]; [lia|]. cbn [app regex_loop]. unfold next. cbn [peeked is_saving negb].
    unfold inner_next. cbn [irest ipos saved peeked is_saving set_saved].
    unfold mem_char in C2. cbn [existsb] in C2.
    replace (c =? 0x5C) with false by lia.
    destruct (IH n source start pre (m ++ [c]) _ _ (numbered (blen pre) m ++ [(blen (pre ++ m), c)]) None true
                eq_refl eq_refl eq_refl eq_refl) as (it' & E & Ha).
    { rewrite numbered_app, blen_app. reflexivity. }
    { apply Forall_app. split; [exact Q|]. constructor; [|constructor]. unfold quiet, mem_char. cbn [existsb]. lia. }
    { cbn [app length] in Hn. lia. }
    exists it'. rewrite <- app_assoc in Ha. split; [|exact Ha].
    replace (blen (pre ++ m ++ [c])) with (blen (pre ++ m) + len_utf8 c)%nat in E
      by (rewrite !blen_app; cbn; lia).
    destruct (rchar_of c) as [k|] eqn:R; [|exact E].
    apply rchar_of_sound in R.
    destruct k; try exact E; exfalso.
    + destruct R as [R|[_ R]]; [|discriminate]. cbn in R. subst c. discriminate C2.
    + destruct R as [R|[R _]]; subst c; discriminate C1.
Qed.

Lemma open_quiet : forall l s c r, open_line l s -> l ++ s = c :: r ->
  quiet c = true /\ (c =? 0x5C) = false /\ rchar_of c <> Some Slash.
Proof.
  intros l s c r (F & Hs) E.
  assert (X : newline c = true \/ mem_char c [0x2F; 0x2E; 0x60; 0x5C] = false).
  { destruct F as [|a l (C1 & C2) F].
    - cbn in E. destruct Hs as [->|(n & r' & -> & H)]; [discriminate|]. injection E as -> _. auto.
    - injection E as -> _. auto. }
  destruct X as [X|X].
  - unfold newline in X. apply orb_true_iff in X.
    destruct X as [H|H]; apply N.eqb_eq in H; subst c; (split; [reflexivity|split; [reflexivity|discriminate]]).
  - unfold mem_char in X. cbn [existsb] in X. split; [unfold quiet, mem_char; cbn [existsb]; lia|]. split; [lia|].
    intro R. apply rchar_of_sound in R. destruct R as [R|[_ R]]; [|discriminate]. cbn in R. subst c. discriminate.
Qed.

Lemma get_regex_open : forall source it pre l s start v, regex_here v = true -> open_line l s -> l ++ s <> [] ->
  at_ it pre (l ++ s) ->
  exists it', get_regex source it start v = Ok (None, start, it') /\ near it' pre (l ++ s).
Proof.
  intros source it pre l s start v Hr Ho Ne Ha. unfold get_regex. rewrite regex_here_allowed, Hr. cbv zeta.
  apply at_iff in Ha. destruct it as [ip ir sv pk sa].
  destruct Ha as (A & B & [(C & D & E)|(d & r & C & X & D & E)]); cbn in A, B, C, D, E; subst.
  - unfold start_save, save_peeked, set_saving, set_saved. cbn [peeked saved ipos irest is_saving app].
    apply (regex_open_loop l s Ho _ source start pre [] _ _ _ _ _ eq_refl eq_refl); try reflexivity.
    + rewrite app_nil_r. reflexivity.
    + constructor.
    + unfold left_over. cbn. lia.
  - unfold start_save, save_peeked, set_saving, set_saved. cbn [peeked saved ipos irest is_saving app]. unfold left_over. cbn [saved peeked irest length Nat.add].
    match goal with |- context [regex_loop (S ?x)] => remember x as n eqn:En end.
    cbn [regex_loop]. unfold next, set_peeked. cbn [peeked ipos irest saved is_saving].
    destruct (open_quiet _ _ _ _ Ho X) as (Q & B & Sl). rewrite B.
    destruct Ho as (F & Hs). destruct F as [|a l (C1 & C2) F].
    + cbn [app] in X. destruct Hs as [->|(nl & r' & -> & H)]; [discriminate|]. injection X as -> ->.
      assert (R : rchar_of d = Some Backline).
      { unfold newline in H. apply orb_true_iff in H. destruct H as [H|H]; apply N.eqb_eq in H; subst d; reflexivity. }
      rewrite R. eexists. split; [reflexivity|]. split; [reflexivity|]. exists [d], r. cbn.
      split; [reflexivity|]. split; [reflexivity|]. split; [discriminate|]. split; [constructor; [exact Q|constructor]|].
      left. split; [reflexivity|]. split; [|reflexivity]. rewrite blen_app. cbn. lia.
    + cbn [app] in X. injection X as -> <-.
      destruct (regex_open_loop l s (conj F Hs) n source start pre [d]
        (blen pre + len_utf8 d) (l ++ s) [(blen pre, d)] None true) as (it' & E' & Ha'); try reflexivity.
      { rewrite blen_snoc. reflexivity. }
      { constructor; [exact Q|constructor]. }
      { lia. }
      exists it'. cbn [app] in Ha' |- *. split; [|exact Ha'].
      destruct (rchar_of d) as [k|] eqn:R; [|exact E'].
      destruct k; try exact E'; exfalso; [congruence|].
      apply rchar_of_sound in R. destruct R as [R|[R _]]; subst d; discriminate C1.
Qed.

Lemma useful_other : forall v, regex_here v = true ->
  match first_useful v with Some t => is_other t | None => false end = false.
Proof.
  induction v as [|t v IH]; intro H; [reflexivity|]. unfold regex_here in *. cbn [first_useful significant] in *.
  destruct t; try reflexivity; try discriminate H.
  destruct c; try reflexivity; cbn in *; apply IH; exact H.
Qed.

(** ** The loop *)

Lemma fill_other_spec : forall source v p0 w s, source = p0 ++ w ++ s ->
  fill_other source v (blen p0) (blen (p0 ++ w)) = Ok (flush w v).
Proof.
  intros source v p0 w s Hs. unfold fill_other. rewrite blen_app. destruct w as [|c w].
  - cbn [blen]. rewrite Nat.add_0_r, Nat.ltb_irrefl. reflexivity.
  - replace (Nat.ltb (blen p0) (blen p0 + blen (c :: w))) with true.
    + rewrite (slice_of source p0 (c :: w) s Hs). reflexivity.
    + symmetry. apply Nat.ltb_lt. cbn [blen]. unfold len_utf8.
      destruct (c <? 0x80); [lia|]. destruct (c <? 0x800); [lia|]. destruct (c <? 0x10000); lia.
Qed.

(** Which token a following character would be joined to. *)
Definition joins (t : token) (c : N) : bool :=
  match t with
  | TOperation Divide => mem_char c (S_ "/*=")
  | TChar Pipe => c =? 0x7C
  | TChar Ampersand => c =? 0x26
  | _ => (c =? 0x3D) && match equal_sign [t] with Some _ => true | None => false end
  end.

Definition apart (v : list token) (s : str) : Prop :=
  match v, s with
  | t :: _, c :: _ => joins t c = false
  | _, _ => True
  end.

Definition settled (v : list token) (w s : str) : Prop := w <> [] \/ apart v s.

Lemma word_token_shape : forall w,
  (exists k, word_token w = TKeyword k) \/ (exists n, word_token w = TNumber n)
  \/ word_token w = TFloatingNumber w \/ word_token w = TOther w.
Proof.
  intro w. unfold word_token. destruct (keyword_of w); [eauto|]. destruct (u64_of w); [eauto|].
  destruct (f64_ok w); auto.
Qed.

Lemma word_not_joined : forall w c, joins (word_token w) c = false.
Proof.
  intros w c. destruct (word_token_shape w) as [[k ->]|[[n ->]|[-> | ->]]]; cbn; apply andb_false_r.
Qed.

Lemma settled_apart : forall v w s, settled v w s -> apart (flush w v) s.
Proof.
  intros v w s [H|H].
  - destruct w as [|c w]; [congruence|]. cbn [flush]. destruct s as [|d s]; [exact I|]. cbn [apart].
    apply word_not_joined.
  - destruct w as [|c w]; [exact H|]. cbn [flush]. destruct s as [|d s]; [exact I|]. cbn [apart].
    apply word_not_joined.
Qed.

(** One reserved character that is not a dot. *)
Lemma step_reserved : forall m n source v p0 w c k s it,
  source = p0 ++ w ++ c :: s -> at_b m it (p0 ++ w) (c :: s) ->
  rchar_of c = Some k -> k <> Dot ->
  exists it1, at_b (m || negb (quiet c)) it1 (p0 ++ w ++ [c]) s
    /\ tokenize_loop (S n) source v (blen p0) it =
       let! (v3, pos', it3) := reserved_step source (flush w v) (blen (p0 ++ w)) k it1 in
       tokenize_loop n source v3 (S pos') it3.
Proof.
  intros m n source v p0 w c k s it Hs Ha Hk Hd.
  destruct (next_loud _ _ _ _ _ Ha) as (it1 & E & Ha1). exists it1. norm_in Ha1. split; [exact Ha1|].
  cbn [tokenize_loop]. rewrite E, Hk. unfold dot_step.
  replace (rchar_eqb k Dot) with false.
  2:{ symmetry. destruct (rchar_eqb k Dot) eqn:R; [|reflexivity]. apply rchar_eqb_eq in R. congruence. }
  cbn [obind]. rewrite (fill_other_spec source v p0 w (c :: s) Hs). reflexivity.
Qed.

Lemma blen_S : forall p c, len_utf8 c = 1%nat -> S (blen p) = blen (p ++ [c]).
Proof. intros p c H. rewrite blen_snoc. lia. Qed.

Definition pushes (k : rchar) : bool :=
  match k with
  | Quote | DoubleQuote | BackTick | Slash => false
  | _ => true
  end.

(** A reserved character that is not joined to what is before. *)
Lemma reserved_push : forall source v pos c k s it,
  rchar_of c = Some k -> pushes k = true -> apart v (c :: s) ->
  reserved_step source v pos k it = Ok (plain_token k :: v, pos, it).
Proof.
  intros source v pos c k s it Hk Hp Hv. apply rchar_of_sound in Hk.
  assert (E : k = EqualSign -> equal_sign v = None).
  { intros ->. destruct Hk as [Hk|[_ Hk]]; [|discriminate]. subst c. destruct v as [|t v]; [reflexivity|].
    cbn in Hv. destruct t as [|k| | | | | |[]|[]| | | |]; try reflexivity; try discriminate Hv.
    destruct k; try reflexivity; discriminate Hv. }
  assert (D : k = Star -> last_is (eq_operation Divide) v = false).
  { intros ->. destruct Hk as [Hk|[_ Hk]]; [|discriminate]. subst c. destruct v as [|t v]; [reflexivity|].
    cbn in Hv. destruct t as [| | | | | | |[]|[]| | | |]; try reflexivity; discriminate Hv. }
  assert (P : k = Pipe -> last_is (eq_char Pipe) v = false).
  { intros ->. destruct Hk as [Hk|[_ Hk]]; [|discriminate]. subst c. destruct v as [|t v]; [reflexivity|].
    cbn in Hv. destruct t as [|k| | | | | | | | | | |]; try reflexivity.
    destruct k; try reflexivity; discriminate Hv. }
  assert (A : k = Ampersand -> last_is (eq_char Ampersand) v = false).
  { intros ->. destruct Hk as [Hk|[_ Hk]]; [|discriminate]. subst c. destruct v as [|t v]; [reflexivity|].
    cbn in Hv. destruct t as [|k| | | | | | | | | | |]; try reflexivity.
    destruct k; try reflexivity; discriminate Hv. }
  unfold reserved_step. destruct k; try discriminate Hp; cbn [rchar_eqb]; cbv beta iota;
    try reflexivity.
  all: repeat first [rewrite (D eq_refl) | rewrite (P eq_refl) | rewrite (A eq_refl)
                    | rewrite (E eq_refl) | reflexivity].
Qed.

Lemma step_push : forall n source v p0 w c k s it,
  source = p0 ++ w ++ c :: s -> near it (p0 ++ w) (c :: s) ->
  rchar_of c = Some k -> k <> Dot -> pushes k = true -> len_utf8 c = 1%nat ->
  apart (flush w v) (c :: s) ->
  exists it1, near it1 (p0 ++ w ++ [c]) s
    /\ tokenize_loop (S n) source v (blen p0) it =
       tokenize_loop n source (plain_token k :: flush w v) (blen (p0 ++ w ++ [c])) it1.
Proof.
  intros n source v p0 w c k s it Hs Ha Hk Hd Hp Hl Hv.
  destruct (step_reserved _ n source v p0 w c k s it Hs Ha Hk Hd) as (it1 & Ha1 & E).
  exists it1. split; [exact (at_near _ _ _ _ Ha1)|]. rewrite E.
  rewrite (reserved_push source (flush w v) _ c k s it1 Hk Hp Hv). cbn [obind].
  rewrite (blen_S _ c Hl). rewrite <- app_assoc. reflexivity.
Qed.

(** A character joined to the token before it. *)
Definition joined_to (t : token) (c : N) : option token :=
  match t with
  | TChar Pipe => if c =? 0x7C then Some (TCondition Or) else None
  | TChar Ampersand => if c =? 0x26 then Some (TCondition And) else None
  | _ => if c =? 0x3D then equal_sign [t] else None
  end.

Lemma step_join : forall n source v t t' p0 c s it,
  source = p0 ++ c :: s -> near it p0 (c :: s) -> joined_to t c = Some t' ->
  exists it1, near it1 (p0 ++ [c]) s
    /\ tokenize_loop (S n) source (t :: v) (blen p0) it =
       tokenize_loop n source (t' :: v) (blen (p0 ++ [c])) it1.
Proof.
  intros n source v t t' p0 c s it Hs Ha Hj.
  assert (J : (exists k, rchar_of c = Some k /\ k <> Dot /\ len_utf8 c = 1%nat /\
     forall source pos it, reserved_step source (t :: v) pos k it = Ok (t' :: v, pos, it))).
  { destruct t as [|k| | | | | |[]|[]| | | |]; cbn in Hj;
      try (revert Hj; destruct (c =? 0x3D) eqn:C; intro Hj; [|discriminate Hj]; apply N.eqb_eq in C; subst c;
           first [discriminate Hj | injection Hj as <-; exists EqualSign;
           split; [reflexivity|]; split; [discriminate|]; split; [reflexivity|]; reflexivity]).
    destruct k; cbn in Hj;
      try (revert Hj; destruct (c =? 0x3D) eqn:C; intro Hj; [|discriminate Hj]; apply N.eqb_eq in C; subst c;
           first [discriminate Hj | injection Hj as <-; exists EqualSign;
           split; [reflexivity|]; split; [discriminate|]; split; [reflexivity|]; reflexivity]).
    - revert Hj; destruct (c =? 0x7C) eqn:C; intro Hj; [|discriminate Hj]; apply N.eqb_eq in C; subst c.
      injection Hj as <-. exists Pipe. split; [reflexivity|]; split; [discriminate|]; split; reflexivity.
    - revert Hj; destruct (c =? 0x26) eqn:C; intro Hj; [|discriminate Hj]; apply N.eqb_eq in C; subst c.
      injection Hj as <-. exists Ampersand. split; [reflexivity|]; split; [discriminate|]; split; reflexivity. }
  destruct J as (k & Hk & Hd & Hl & R).
  destruct (step_reserved false n source (t :: v) p0 [] c k s it) as (it1 & Ha1 & E); auto.
  { rewrite app_nil_r. exact Ha. }
  exists it1. split; [exact (at_near _ _ _ _ Ha1)|]. rewrite E. cbn [flush]. rewrite R. cbn [obind].
  rewrite app_nil_r. rewrite (blen_S _ c Hl). reflexivity.
Qed.

Lemma longest_apart : forall o t s v, In (o, t) operators -> longest o s = true -> apart (t :: v) s.
Proof.
  intros o t s v Ho Hl. destruct s as [|c s]; [exact I|]. cbn [apart].
  unfold longest in Hl. rewrite forallb_forall in Hl.
  assert (X : forall o' t', In (o', t') operators -> (length o < length o')%nat ->
     prefix o' (o ++ c :: s) = false).
  { intros o' t' H L. specialize (Hl _ H). cbn [fst] in Hl. apply negb_true_iff in Hl.
    apply andb_false_iff in Hl. destruct Hl as [Hl|Hl]; [exact Hl|]. apply Nat.ltb_ge in Hl. lia. }
  clear Hl.
  assert (Y : forall o' t', In (o', t') operators -> (length o < length o')%nat ->
     prefix o' (o ++ [c]) = false).
  { intros o' t' H L. specialize (X o' t' H L). clear -X. revert o' X.
    induction o as [|a o IH]; intros [|b o'] X; cbn in *; try congruence.
    - destruct (b =? c); [|reflexivity]. cbn in *. destruct o'; cbn in *; congruence.
    - destruct (b =? a); [|reflexivity]. cbn in *. auto. }
  clear X. unfold operators in Ho. cbn [In] in Ho.
  destruct (joins t c) eqn:J; [exfalso|reflexivity].
  assert (Z : exists o' t', In (o', t') operators /\ (length o < length o')%nat /\ prefix o' (o ++ [c]) = true).
  { clear Y. unfold operators.
    repeat (destruct Ho as [Ho|Ho]; [injection Ho as <- <-; cbn [joins equal_sign] in J;
      first [ rewrite andb_false_r in J; discriminate J | rewrite andb_true_r in J | idtac ];
      apply N.eqb_eq in J; subst c;
      match goal with |- context [?o ++ [?x]] =>
        exists (o ++ [x]); eexists; split;
          [cbn [In]; repeat (first [left; reflexivity | right])
          | split; [cbn; lia|reflexivity]] end
      |]). destruct Ho. }
  destruct Z as (o' & t' & Z1 & Z2 & Z3). rewrite (Y o' t' Z1 Z2) in Z3. discriminate.
Qed.

Lemma operator_run : forall o t, In (o, t) operators ->
  forall n source v p0 w s it,
  source = p0 ++ w ++ o ++ s -> near it (p0 ++ w) (o ++ s) -> apart (flush w v) (o ++ s) ->
  exists it', near it' (p0 ++ w ++ o) s
    /\ tokenize_loop (length o + n) source v (blen p0) it
       = tokenize_loop n source (t :: flush w v) (blen (p0 ++ w ++ o)) it'.
Proof.
  assert (ONE : forall c k, rchar_of c = Some k -> k <> Dot -> pushes k = true -> len_utf8 c = 1%nat ->
    forall n source v p0 w s it,
    source = p0 ++ w ++ [c] ++ s -> near it (p0 ++ w) ([c] ++ s) -> apart (flush w v) ([c] ++ s) ->
    exists it', near it' (p0 ++ w ++ [c]) s
    /\ tokenize_loop (1 + n) source v (blen p0) it
       = tokenize_loop n source (plain_token k :: flush w v) (blen (p0 ++ w ++ [c])) it').
  { intros c k A B C D n source v p0 w s it Hs Ha Hv.
    exact (step_push n source v p0 w c k s it Hs Ha A B C D Hv). }
  assert (TWO : forall c k d t', rchar_of c = Some k -> k <> Dot -> pushes k = true -> len_utf8 c = 1%nat ->
    joined_to (plain_token k) d = Some t' ->
    forall n source v p0 w s it,
    source = p0 ++ w ++ [c; d] ++ s -> near it (p0 ++ w) ([c; d] ++ s) -> apart (flush w v) ([c; d] ++ s) ->
    exists it', near it' (p0 ++ w ++ [c; d]) s
    /\ tokenize_loop (2 + n) source v (blen p0) it
       = tokenize_loop n source (t' :: flush w v) (blen (p0 ++ w ++ [c; d])) it').
  { intros c k d t' A B C D J n source v p0 w s it Hs Ha Hv.
    destruct (ONE c k A B C D (S n) source v p0 w (d :: s) it Hs Ha Hv) as (it1 & Ha1 & E1).
    cbn [Nat.add] in E1 |- *. rewrite E1.
    destruct (step_join n source (flush w v) (plain_token k) t' (p0 ++ w ++ [c]) d s it1) as (it2 & Ha2 & E2); auto.
    - subst source. norm. reflexivity.
    - rewrite E2. exists it2. norm_in Ha2. norm. auto. }
  assert (THREE : forall c k d t' e t'', rchar_of c = Some k -> k <> Dot -> pushes k = true -> len_utf8 c = 1%nat ->
    joined_to (plain_token k) d = Some t' -> joined_to t' e = Some t'' ->
    forall n source v p0 w s it,
    source = p0 ++ w ++ [c; d; e] ++ s -> near it (p0 ++ w) ([c; d; e] ++ s) -> apart (flush w v) ([c; d; e] ++ s) ->
    exists it', near it' (p0 ++ w ++ [c; d; e]) s
    /\ tokenize_loop (3 + n) source v (blen p0) it
       = tokenize_loop n source (t'' :: flush w v) (blen (p0 ++ w ++ [c; d; e])) it').
  { intros c k d t' e t'' A B C D J J' n source v p0 w s it Hs Ha Hv.
    destruct (TWO c k d t' A B C D J (S n) source v p0 w (e :: s) it Hs Ha Hv) as (it1 & Ha1 & E1).
    cbn [Nat.add] in E1 |- *. rewrite E1.
    destruct (step_join n source (flush w v) t' t'' (p0 ++ w ++ [c; d]) e s it1) as (it2 & Ha2 & E2); auto.
    - subst source. norm. reflexivity.
    - rewrite E2. exists it2. norm_in Ha2. norm. auto. }
  intros o t Ho. unfold operators in Ho. cbn [In] in Ho.
  repeat (destruct Ho as [Ho|Ho];
    [injection Ho as <- <-;
     match goal with |- context [length ?o] =>
       let o' := eval vm_compute in o in
       change o with o';
       lazymatch o' with
       | [?c] =>
           lazymatch eval vm_compute in (rchar_of c) with
           | Some ?k => refine (ONE c k eq_refl _ eq_refl eq_refl); discriminate
           end
       | [?c; ?d] =>
           lazymatch eval vm_compute in (rchar_of c) with
           | Some ?k =>
               lazymatch eval vm_compute in (joined_to (plain_token k) d) with
               | Some ?t' => refine (TWO c k d t' eq_refl _ eq_refl eq_refl eq_refl); discriminate
               end
           end
       | [?c; ?d; ?e] =>
           lazymatch eval vm_compute in (rchar_of c) with
           | Some ?k =>
               lazymatch eval vm_compute in (joined_to (plain_token k) d) with
               | Some ?t' =>
                   lazymatch eval vm_compute in (joined_to t' e) with
                   | Some ?t'' => refine (THREE c k d t' e t'' eq_refl _ eq_refl eq_refl eq_refl eq_refl); discriminate
                   end
               end
           end
       end
     end|]).
  destruct Ho.
Qed.

Lemma punct_push : forall c t, simple_punct c = Some t ->
  exists k, rchar_of c = Some k /\ k <> Dot /\ pushes k = true /\ len_utf8 c = 1%nat /\ plain_token k = t
    /\ mem_char c (S_ "/*=|&") = false /\ (forall d, joins t d = false).
Proof.
  intros c t. unfold simple_punct, newline.
  assert (J : forall k d, equal_sign [TChar k] = None -> k <> Pipe -> k <> Ampersand -> joins (TChar k) d = false).
  { intros k d E P A. unfold joins. rewrite E. destruct k; try congruence; apply andb_false_r. }
  repeat match goal with |- context [c =? ?x] =>
    let E := fresh "E" in destruct (c =? x) eqn:E;
    [apply N.eqb_eq in E; subst c; cbn [orb]; cbv iota; intro H; injection H as <-;
     eexists; split; [reflexivity|]; split; [discriminate|];
     split; [reflexivity|]; split; [reflexivity|]; split; [reflexivity|]; split; [reflexivity|];
     intro d; apply J; [reflexivity|discriminate|discriminate] | clear E] end.
  discriminate.
Qed.

Lemma apart_none : forall t v s, (forall d, joins t d = false) -> apart (t :: v) s.
Proof. intros t v [|c s] H; [exact I|apply H]. Qed.

Lemma apart_other : forall v c s, mem_char c (S_ "/*=|&") = false -> apart v (c :: s).
Proof.
  intros [|t v] c s H; [exact I|]. cbn [apart].
  change (mem_char c (S_ "/*=|&")) with ((c =? 0x2F) || ((c =? 0x2A) || ((c =? 0x3D) || ((c =? 0x7C) || ((c =? 0x26) || false))))) in H.
  apply orb_false_iff in H. destruct H as [H1 H]. apply orb_false_iff in H. destruct H as [H2 H].
  apply orb_false_iff in H. destruct H as [H3 H]. apply orb_false_iff in H. destruct H as [H4 H].
  apply orb_false_iff in H. destruct H as [H5 _].
  unfold joins. rewrite H3, H4, H5.
  change (mem_char c (S_ "/*=")) with ((c =? 0x2F) || ((c =? 0x2A) || ((c =? 0x3D) || false))).
  rewrite H1, H2, H3. destruct t as [|k| | | | | |[]|[]| | | |]; try reflexivity. destruct k; reflexivity.
Qed.

(** A dot. *)
Lemma after_dot_spec : forall c, existsb (fun d => d =? c) after_dot = is_digit c || number_delimiter c.
Proof.
  intro c. unfold number_delimiter, mem_char, is_digit.
  let p := eval vm_compute in after_dot in change after_dot with p.
  let p := eval vm_compute in (S_ ",; <>/*&|{}[]-+=~%^:!") in change (S_ ",; <>/*&|{}[]-+=~%^:!") with p.
  cbn [existsb]. destruct ((48 <=? c) && (c <=? 57)) eqn:D.
  - assert (H : c = 48 \/ c = 49 \/ c = 50 \/ c = 51 \/ c = 52 \/ c = 53 \/ c = 54 \/ c = 55 \/ c = 56 \/ c = 57) by lia.
    repeat (destruct H as [H|H]; [subst c; reflexivity|]). subst c; reflexivity.
  - lia.
Qed.

Lemma dot_step_spec : forall source v p0 w s it,
  source = p0 ++ w ++ 0x2E :: s -> at_ it (p0 ++ w ++ [0x2E]) s ->
  exists it', at_ it' (p0 ++ w ++ [0x2E]) s /\
    if dot_joins w s
    then dot_step source v (blen p0) (blen (p0 ++ w)) Dot it = Ok (None, it')
    else exists v1 start, dot_step source v (blen p0) (blen (p0 ++ w)) Dot it = Ok (Some (v1, start), it')
         /\ fill_other source v1 start (blen (p0 ++ w)) = Ok (flush w v).
Proof.
  intros source v p0 w s it Hs Ha. unfold dot_step. change (rchar_eqb Dot Dot) with true. cbv iota.
  unfold check_if_number.
  pose proof (fill_other_spec source v p0 w (0x2E :: s) Hs) as F.
  assert (F0 : forall v1, fill_other source v1 (blen (p0 ++ w)) (blen (p0 ++ w)) = Ok v1).
  { intro v1. unfold fill_other. rewrite Nat.ltb_irrefl. reflexivity. }
  rewrite blen_app in F, F0 |- *. rewrite (slice_of source p0 w (0x2E :: s) Hs). cbn [obind].
  unfold dot_joins, mem_char.
  replace (existsb (fun c => c =? 0x2E) w) with (existsb (N.eqb 0x2E) w).
  2:{ clear. induction w as [|a w IH]; [reflexivity|]. cbn [existsb]. rewrite IH, N.eqb_sym. reflexivity. }
  destruct (existsb (N.eqb 0x2E) w); cbn [negb andb obind].
  { exists it. split; [exact Ha|]. eexists _, _. split; [reflexivity|]. exact F. }
  unfold integer. destruct (u64_of w) as [n|]; cbn [obind andb].
  - destruct (peek_at _ _ _ Ha) as (it1 & -> & Ha1). exists it1. split; [exact Ha1|].
    destruct s as [|c s]; [reflexivity|].
    rewrite after_dot_spec. destruct (is_digit c || number_delimiter c); [reflexivity|].
    rewrite F. cbn [obind]. eexists _, _. split; [reflexivity|].
    apply F0.
  - destruct (peek_at _ _ _ Ha) as (it1 & -> & Ha1).
    destruct s as [|c s].
    { cbn [obind]. exists it1. split; [exact Ha1|]. eexists _, _. split; [reflexivity|]. exact F. }
    rewrite orb_false_r. cbn [obind].
    destruct (is_digit c) eqn:D.
    + assert (M : c mod 256 = c). { unfold is_digit in D. apply N.mod_small. lia. }
      rewrite M. unfold is_digit in D. rewrite D.
      destruct (peek_at _ _ _ Ha1) as (it2 & -> & Ha2). exists it2. split; [exact Ha2|].
      rewrite after_dot_spec. unfold is_digit. rewrite D. reflexivity.
    + destruct ((0x30 <=? c mod 256) && (c mod 256 <=? 0x39)) eqn:M.
      * destruct (peek_at _ _ _ Ha1) as (it2 & -> & Ha2). exists it2. split; [exact Ha2|].
        rewrite after_dot_spec, D.
        replace (number_delimiter c) with false.
        -- cbn [orb]. rewrite F. cbn [obind]. eexists _, _. split; [reflexivity|].
           apply F0.
        -- symmetry. destruct (number_delimiter c) eqn:Nd; [|reflexivity]. exfalso.
           assert (c < 256).
           { unfold number_delimiter, mem_char in Nd.
             let p := eval vm_compute in (S_ ",; <>/*&|{}[]-+=~%^:!") in change (S_ ",; <>/*&|{}[]-+=~%^:!") with p in Nd.
             cbn [existsb] in Nd. lia. }
           rewrite N.mod_small in M by assumption. unfold is_digit in D. lia.
      * exists it1. split; [exact Ha1|]. eexists _, _. split; [reflexivity|]. exact F.
Qed.

(** ** The tokenizer on lexable sources *)

Lemma apart_divide : forall v c s, apart v (c :: s) -> c = 0x2F ->
  last_is (eq_operation Divide) v = false.
Proof.
  intros [|t v] c s A ->; [reflexivity|]. cbn in A.
  destruct t as [|k| | | | | |[]|[]| | | |]; try reflexivity; discriminate A.
Qed.

(** The slash of a comment is first taken for a division. *)
Lemma slash_pushed : forall n source v p0 w c s it,
  source = p0 ++ w ++ 0x2F :: c :: s -> near it (p0 ++ w) (0x2F :: c :: s) ->
  apart (flush w v) (0x2F :: c :: s) -> (c =? 0x2F) || (c =? 0x2A) = true ->
  exists it2, at_ it2 (p0 ++ w ++ [0x2F]) (c :: s) /\
    tokenize_loop (S n) source v (blen p0) it
    = tokenize_loop n source (TOperation Divide :: flush w v) (blen (p0 ++ w ++ [0x2F])) it2.
Proof.
  intros n source v p0 w c s it Hs Ha A Hc.
  destruct (step_reserved _ n source v p0 w 0x2F Slash _ it Hs Ha eq_refl) as (it1 & Ha1 & ->); [discriminate|].
  cbn [reserved_step]. rewrite (apart_divide _ _ _ A eq_refl).
  destruct (peek_at _ _ _ Ha1) as (it2 & -> & Ha2).
  assert (E : negb (c =? 0x2F) && negb (c =? 0x2A) = false).
  { apply orb_true_iff in Hc. destruct Hc as [Hc|Hc]; rewrite Hc; [reflexivity|apply andb_false_r]. }
  rewrite E. cbn [andb].
  change (rchar_eqb Slash EqualSign) with false. cbv iota. change (plain_token Slash) with (TOperation Divide).
  cbn [obind]. rewrite (blen_S _ 0x2F eq_refl). norm. eauto.
Qed.

(** Where the loop stands. *)
Definition stands (n : nat) (source p0 : str) (it : peekable) (v : list token) (w s : str) : Prop :=
  source = p0 ++ w ++ s /\ near it (p0 ++ w) s /\ settled v w s /\ (length s < n)%nat.

Ltac finish := eexists _, _, _; split; [reflexivity|]; split; [|split; [|split]].

Theorem reads_token_loop : forall v w s v' w' s', reads_token v w s v' w' s' ->
  forall n source p0 it,
  source = p0 ++ w ++ s -> near it (p0 ++ w) s -> settled v w s -> (length s < n)%nat ->
  exists n' p1 it',
    tokenize_loop n source v (blen p0) it = tokenize_loop n' source v' (blen p1) it'
    /\ source = p1 ++ w' ++ s' /\ near it' (p1 ++ w') s' /\ settled v' w' s' /\ (length s' < n')%nat.
Proof.
  intros v w s v' w' s' H. destruct H as
    [v w c s Hc
    |v w s Hd
    |v w s Hd
    |v w c t s Hc
    |v w o t s Ho Hl
    |v w s Hr Hh
    |v w s Hr
    |v w q b s Hq Hb
    |v w b s Hb
    |v w b nl s Hb Hnl
    |v w b s Hb Hh
    |v w b s Hb
    |v w b f s Hr Hb Hh Hf Hs'
    |v w l s Hr Ho Hh
    |v w l s Hr Ho]; intros n source p0 it Hs Ha Hst Hn.
  - destruct n as [|n]; [cbn in Hn; lia|]. cbn [tokenize_loop].
    destruct (next_at _ _ _ _ _ Ha) as (it1 & -> & Ha1). rewrite (word_char_none c Hc).
    finish.
    + subst source. norm. reflexivity.
    + norm_in Ha1. exact (at_near _ _ _ _ Ha1).
    + left. destruct w; discriminate.
    + cbn [length] in Hn. lia.
  - destruct n as [|n]; [cbn in Hn; lia|]. cbn [tokenize_loop].
    destruct (next_loud _ _ _ _ _ Ha) as (it1 & -> & Ha1).
    change (rchar_of 0x2E) with (Some Dot). norm_in Ha1.
    destruct (dot_step_spec source v p0 w s it1 Hs Ha1) as (it2 & Ha2 & E). rewrite Hd in E.
    rewrite E. cbn [obind]. finish.
    + subst source. norm. reflexivity.
    + exact (at_near _ _ _ _ Ha2).
    + left. destruct w; discriminate.
    + cbn [length] in Hn. lia.
  - destruct n as [|n]; [cbn in Hn; lia|]. cbn [tokenize_loop].
    destruct (next_loud _ _ _ _ _ Ha) as (it1 & -> & Ha1).
    change (rchar_of 0x2E) with (Some Dot). norm_in Ha1.
    destruct (dot_step_spec source v p0 w s it1 Hs Ha1) as (it2 & Ha2 & E). rewrite Hd in E.
    destruct E as (v1 & st & -> & F). cbn [obind]. rewrite F. cbn [obind].
    rewrite (reserved_push source (flush w v) _ 0x2E Dot s it2 eq_refl eq_refl) by (apply apart_other; reflexivity).
    cbn [obind]. rewrite (blen_S _ 0x2E eq_refl). change (plain_token Dot) with (TChar Dot).
    finish.
    + subst source. norm. reflexivity.
    + norm. exact (at_near _ _ _ _ Ha2).
    + right. apply apart_none. intro d. cbn. apply andb_false_r.
    + cbn [length] in Hn. lia.
  - destruct n as [|n]; [cbn in Hn; lia|].
    destruct (punct_push c t Hc) as (k & K1 & K2 & K3 & K4 & K5 & K6 & K7).
    destruct (step_push n source v p0 w c k s it Hs Ha K1 K2 K3 K4) as (it1 & Ha1 & ->).
    { apply apart_other. exact K6. }
    rewrite K5. finish.
    + subst source. norm. reflexivity.
    + norm. exact (at_near _ _ _ _ Ha1).
    + right. apply apart_none. exact K7.
    + cbn [length] in Hn. lia.
  - pose proof (settled_apart _ _ _ Hst) as A. rewrite app_length in Hn.
    destruct (operator_run o t Ho (n - length o) source v p0 w s it Hs Ha A) as (it1 & Ha1 & E).
    replace (length o + (n - length o))%nat with n in E by lia. rewrite E.
    finish.
    + subst source. norm. reflexivity.
    + rewrite app_nil_r. exact (at_near _ _ _ _ Ha1).
    + right. eapply longest_apart; eauto.
    + lia.
  - destruct n as [|n]; [cbn in Hn; lia|]. pose proof (settled_apart _ _ _ Hst) as A.
    destruct (step_reserved _ n source v p0 w 0x2F Slash s it Hs Ha eq_refl) as (it1 & Ha1 & ->); [discriminate|].
    cbn [reserved_step].
    assert (D : last_is (eq_operation Divide) (flush w v) = false).
    { destruct (flush w v) as [|t r]; [reflexivity|]. cbn in A.
      destruct t as [|k| | | | | |[]|[]| | | |]; try reflexivity; discriminate A. }
    rewrite D.
    destruct (peek_at _ _ _ Ha1) as (it2 & -> & Ha2).
    assert (G : forall it3, at_ it3 (p0 ++ w ++ [0x2F]) s ->
       exists n' p1 it', (let! (v3, pos', it3) := Ok (TOperation Divide :: flush w v, blen (p0 ++ w), it3) in
        tokenize_loop n source v3 (S pos') it3) = tokenize_loop n' source (TOperation Divide :: flush w v) (blen p1) it'
        /\ source = p1 ++ [] ++ s /\ near it' (p1 ++ []) s /\ settled (TOperation Divide :: flush w v) [] s /\ (length s < n')%nat).
    { intros it3 Ha3. cbn [obind]. rewrite (blen_S _ 0x2F eq_refl). finish.
      - subst source. norm. reflexivity.
      - norm. exact (at_near _ _ _ _ Ha3).
      - right. destruct s as [|c s]; [exact I|]. cbn [apart joins]. apply Hh. reflexivity.
      - cbn [length] in Hn. lia. }
    destruct s as [|c s].
    + change (rchar_eqb Slash EqualSign) with false. cbv iota. change (plain_token Slash) with (TOperation Divide).
      apply G. exact Ha2.
    + destruct Hr as [Hr|Hr]; [discriminate|].
      destruct (negb (c =? 0x2F) && negb (c =? 0x2A)
                && negb match first_useful (flush w v) with Some t => is_other t | None => false end).
      * unfold get_regex. rewrite regex_here_allowed, Hr. cbn [obind]. apply G. exact Ha2.
      * change (rchar_eqb Slash EqualSign) with false. cbv iota. change (plain_token Slash) with (TOperation Divide).
        apply G. exact Ha2.
  - destruct n as [|n]; [cbn in Hn; lia|]. pose proof (settled_apart _ _ _ Hst) as A.
    destruct (step_reserved _ n source v p0 w 0x2F Slash (0x3D :: s) it Hs Ha eq_refl) as (it1 & Ha1 & ->); [discriminate|].
    cbn [reserved_step].
    assert (D : last_is (eq_operation Divide) (flush w v) = false).
    { destruct (flush w v) as [|t r]; [reflexivity|]. cbn in A.
      destruct t as [|k| | | | | |[]|[]| | | |]; try reflexivity; discriminate A. }
    rewrite D.
    destruct (peek_at _ _ _ Ha1) as (it2 & -> & Ha2).
    assert (G : forall it3, at_ it3 (p0 ++ w ++ [0x2F]) (0x3D :: s) ->
       exists n' p1 it', (let! (v3, pos', it3) := Ok (TOperation Divide :: flush w v, blen (p0 ++ w), it3) in
        tokenize_loop n source v3 (S pos') it3) = tokenize_loop n' source (TOperation DivideEqual :: flush w v) (blen p1) it'
        /\ source = p1 ++ [] ++ s /\ near it' (p1 ++ []) s /\ settled (TOperation DivideEqual :: flush w v) [] s /\ (length s < n')%nat).
    { intros it3 Ha3. cbn [obind]. rewrite (blen_S _ 0x2F eq_refl). norm.
      cbn [length] in Hn. destruct n as [|n]; [lia|].
      destruct (step_join n source (flush w v) (TOperation Divide) (TOperation DivideEqual)
        (p0 ++ w ++ [0x2F]) 0x3D s it3) as (it4 & Ha4 & ->).
      - subst source. norm. reflexivity.
      - exact (at_near _ _ _ _ Ha3).
      - reflexivity.
      - finish.
        + subst source. norm. reflexivity.
        + norm. norm_in Ha4. exact (at_near _ _ _ _ Ha4).
        + right. apply apart_none. intro d. cbn. apply andb_false_r.
        + lia. }
    destruct (negb (0x3D =? 0x2F) && negb (0x3D =? 0x2A)
                && negb match first_useful (flush w v) with Some t => is_other t | None => false end).
    + unfold get_regex. rewrite regex_here_allowed, Hr. cbn [obind]. apply G. exact Ha2.
    + change (rchar_eqb Slash EqualSign) with false. cbv iota. change (plain_token Slash) with (TOperation Divide).
      apply G. exact Ha2.
  - destruct n as [|n]; [cbn in Hn; lia|].
    assert (R : rchar_of q = Some (quote_of q)) by (destruct Hq; subst q; reflexivity).
    destruct (step_reserved _ n source v p0 w q _ (b ++ q :: s) it Hs Ha R) as (it1 & Ha1 & ->).
    { destruct Hq; subst q; discriminate. }
    assert (E : forall pos, reserved_step source (flush w v) pos (quote_of q) it1
       = let! (o, pos', it') := get_string source it1 pos (quote_of q) in Ok (push_opt o (flush w v), pos', it')).
    { intro pos. destruct Hq; subst q; reflexivity. }
    rewrite E. unfold get_string.
    destruct (string_loop_spec q Hq b Hb false (S (left_over it1)) source (p0 ++ w) [] s it1) as (it2 & -> & Ha2).
    + subst source. norm. reflexivity.
    + norm. exact (at_near _ _ _ _ Ha1).
    + rewrite (at_left _ _ _ _ Ha1). lia.
    + cbn [obind push_opt app]. 
      rewrite (blen_S _ q) by (destruct Hq; subst q; reflexivity).
      finish.
      * subst source. norm. reflexivity.
      * norm. norm_in Ha2. exact (at_near _ _ _ _ Ha2).
      * right. apply apart_none. intro d. cbn. apply andb_false_r.
      * cbn [length] in Hn. rewrite app_length in Hn. cbn [length] in Hn. lia.
  - destruct n as [|n]; [cbn in Hn; lia|].
    destruct (step_reserved _ n source v p0 w 0x60 BackTick (b ++ 0x60 :: s) it Hs Ha eq_refl) as (it1 & Ha1 & ->);
      [discriminate|].
    cbn [reserved_step]. unfold get_backtick_string.
    destruct (proj1 template_loops 0 b Hb (S (left_over it1)) source (p0 ++ w) [] s it1) as (it2 & -> & Ha2).
    + subst source. norm. reflexivity.
    + norm. exact Ha1.
    + rewrite (at_left _ _ _ _ Ha1). lia.
    + cbn [obind push_opt app]. rewrite (blen_S _ 0x60 eq_refl). finish.
      * subst source. norm. reflexivity.
      * norm. norm_in Ha2. exact (at_near _ _ _ _ Ha2).
      * right. apply apart_none. intro d. cbn. apply andb_false_r.
      * cbn [length] in Hn. rewrite app_length in Hn. cbn [length] in Hn. lia.
  - (* line comment *)
    pose proof (settled_apart _ _ _ Hst) as A.
    destruct n as [|[|n]]; [cbn in Hn; lia|cbn in Hn; lia|].
    destruct (slash_pushed (S n) source v p0 w 0x2F (b ++ nl :: s) it Hs Ha A eq_refl) as (it2 & Ha2 & ->).
    destruct (step_reserved true n source (TOperation Divide :: flush w v) (p0 ++ w ++ [0x2F]) [] 0x2F Slash
      (b ++ nl :: s) it2) as (it3 & Ha3 & ->); [| |reflexivity|discriminate|].
    { subst source. norm. reflexivity. }
    { rewrite app_nil_r. exact Ha2. }
    cbn [flush]. rewrite app_nil_r in *. cbn [app] in Ha3.
    assert (E : reserved_step source (TOperation Divide :: flush w v) (blen (p0 ++ w ++ [0x2F])) Slash it3
       = let! (o, pos', it') := get_line_comment source it3 (blen (p0 ++ w ++ [0x2F])) in Ok (push_opt o (flush w v), pos', it'))
      by reflexivity.
    rewrite E. unfold get_line_comment. rewrite (blen_S _ 0x2F eq_refl). norm. norm_in Ha3.
    destruct (line_comment_loop_spec b nl Hb Hnl (S (left_over it3)) source (p0 ++ w ++ [0x2F; 0x2F]) [] s it3)
      as (it4 & -> & Ha4).
    + subst source. norm. reflexivity.
    + rewrite app_nil_r. exact Ha3.
    + rewrite (at_left _ _ _ _ Ha3). lia.
    + cbn [obind push_opt app]. rewrite (blen_S _ nl).
      2:{ unfold newline in Hnl. apply orb_true_iff in Hnl. destruct Hnl as [Hnl|Hnl]; apply N.eqb_eq in Hnl; subst nl; reflexivity. }
      finish.
      * subst source. norm. reflexivity.
      * norm. norm_in Ha4. exact (at_near _ _ _ _ Ha4).
      * right. apply apart_none. intro d. cbn. apply andb_false_r.
      * cbn [length] in Hn. rewrite app_length in Hn. cbn [length] in Hn. lia.
  - (* comment *)
    pose proof (settled_apart _ _ _ Hst) as A.
    destruct n as [|[|n]]; [cbn in Hn; lia|cbn in Hn; lia|].
    destruct (slash_pushed (S n) source v p0 w 0x2A _ it Hs Ha A eq_refl) as (it2 & Ha2 & ->).
    destruct (step_reserved true n source (TOperation Divide :: flush w v) (p0 ++ w ++ [0x2F]) [] 0x2A Star
      (b ++ 0x2A :: 0x2F :: s) it2) as (it3 & Ha3 & ->); [| |reflexivity|discriminate|].
    { subst source. norm. reflexivity. }
    { rewrite app_nil_r. exact Ha2. }
    cbn [flush]. rewrite app_nil_r in *. cbn [app] in Ha3.
    assert (E : reserved_step source (TOperation Divide :: flush w v) (blen (p0 ++ w ++ [0x2F])) Star it3
       = let! (t, pos', it') := get_comment source it3 (blen (p0 ++ w ++ [0x2F])) in Ok (t :: flush w v, pos', it'))
      by reflexivity.
    rewrite E. norm_in Ha3.
    pose proof (get_comment_spec false b Hb (fun _ => Hh) source (p0 ++ w) s it3) as G. cbv zeta in G.
    norm_in G. destruct G as (it4 & -> & Ha4).
    + subst source. norm. reflexivity.
    + exact Ha3.
    + cbn [obind]. rewrite (blen_S _ 0x2F eq_refl). finish.
      * subst source. norm. reflexivity.
      * norm. norm_in Ha4. exact (at_near _ _ _ _ Ha4).
      * right. apply apart_none. intro d. cbn. apply andb_false_r.
      * cbn [length] in Hn. rewrite app_length in Hn. cbn [length] in Hn. lia.
  - (* licence *)
    pose proof (settled_apart _ _ _ Hst) as A.
    destruct n as [|[|n]]; [cbn in Hn; lia|cbn in Hn; lia|].
    destruct (slash_pushed (S n) source v p0 w 0x2A _ it Hs Ha A eq_refl) as (it2 & Ha2 & ->).
    destruct (step_reserved true n source (TOperation Divide :: flush w v) (p0 ++ w ++ [0x2F]) [] 0x2A Star
      (0x21 :: b ++ 0x2A :: 0x2F :: s) it2) as (it3 & Ha3 & ->); [| |reflexivity|discriminate|].
    { subst source. norm. reflexivity. }
    { rewrite app_nil_r. exact Ha2. }
    cbn [flush]. rewrite app_nil_r in *. cbn [app] in Ha3.
    assert (E : reserved_step source (TOperation Divide :: flush w v) (blen (p0 ++ w ++ [0x2F])) Star it3
       = let! (t, pos', it') := get_comment source it3 (blen (p0 ++ w ++ [0x2F])) in Ok (t :: flush w v, pos', it'))
      by reflexivity.
    rewrite E. norm_in Ha3.
    pose proof (get_comment_spec true b Hb (fun X => False_ind _ (diff_true_false X)) source (p0 ++ w) s it3) as G.
    cbv zeta in G.
    norm_in G. destruct G as (it4 & -> & Ha4).
    + subst source. norm. reflexivity.
    + exact Ha3.
    + cbn [obind]. rewrite (blen_S _ 0x2F eq_refl). finish.
      * subst source. norm. reflexivity.
      * norm. norm_in Ha4. exact (at_near _ _ _ _ Ha4).
      * right. apply apart_none. intro d. cbn. apply andb_false_r.
      * cbn [length] in Hn. rewrite app_length in Hn. cbn [length] in Hn. lia.
  - (* regular expression *)
    destruct n as [|n]; [cbn in Hn; lia|]. pose proof (settled_apart _ _ _ Hst) as A.
    destruct (step_reserved _ n source v p0 w 0x2F Slash _ it Hs Ha eq_refl) as (it1 & Ha1 & ->); [discriminate|].
    cbn [reserved_step]. rewrite (apart_divide _ _ _ A) by reflexivity.
    destruct (peek_at _ _ _ Ha1) as (it2 & -> & Ha2).
    destruct Hh as (c & Hc & Hm). destruct b as [|c' b]; [discriminate|]. injection Hc as ->.
    cbn [app] in *.
    change (mem_char c (S_ "/*")) with ((c =? 0x2F) || ((c =? 0x2A) || false)) in Hm.
    apply orb_false_iff in Hm. destruct Hm as [M1 Hm]. apply orb_false_iff in Hm. destruct Hm as [M2 _].
    rewrite M1, M2, (useful_other _ Hr). cbn [negb andb].
    unfold get_regex. rewrite regex_here_allowed, Hr. cbv zeta.
    pose proof (start_sav _ _ _ Ha2) as Hv.
    destruct (regex_loop_spec (c :: b) Hb f Hf (S (left_over (start_save it2))) source (p0 ++ w) [] s (start_save it2) Hs')
      as (it3 & -> & Ha3).
    + subst source. norm. reflexivity.
    + norm. exact Hv.
    + pose proof (sav_left _ _ _ Hv). cbn [app]. lia.
    + cbn [obind app]. 
      replace (S (Nat.add (blen ((p0 ++ w) ++ 0x2F :: c :: b)) (length f)))
        with (blen ((p0 ++ w) ++ 0x2F :: c :: b ++ 0x2F :: f)).
      2:{ rewrite <- (flags_blen f Hf). rewrite !blen_app. cbn [blen]. rewrite !blen_app. cbn [blen].
          change (len_utf8 0x2F) with 1%nat. lia. }
      finish.
      * subst source. norm. reflexivity.
      * rewrite app_nil_r. norm. norm_in Ha3. exact (at_near _ _ _ _ Ha3).
      * right. apply apart_none. intro d. cbn. apply andb_false_r.
      * cbn [length] in Hn. rewrite app_length in Hn. cbn [length] in Hn. rewrite app_length in Hn. lia.
  - (* a slash that begins a regular expression which is not closed *)
    destruct n as [|n]; [cbn in Hn; lia|]. pose proof (settled_apart _ _ _ Hst) as A.
    destruct (step_reserved _ n source v p0 w 0x2F Slash _ it Hs Ha eq_refl) as (it1 & Ha1 & ->); [discriminate|].
    cbn [reserved_step]. rewrite (apart_divide _ _ _ A) by reflexivity.
    destruct (peek_at _ _ _ Ha1) as (it2 & -> & Ha2).
    destruct Hh as (c & Hc & Hm). destruct (l ++ s) as [|c' r] eqn:El; [discriminate|]. injection Hc as ->.
    assert (M : (c =? 0x2F) = false /\ (c =? 0x2A) = false).
    { change (mem_char c (S_ "/*=")) with ((c =? 0x2F) || ((c =? 0x2A) || ((c =? 0x3D) || false))) in Hm. lia. }
    destruct M as [M1 M2].
    rewrite M1, M2, (useful_other _ Hr). cbn [negb andb].
    rewrite <- El in Ha2.
    destruct (get_regex_open source it2 (p0 ++ w ++ [0x2F]) l s (blen (p0 ++ w)) (flush w v) Hr Ho) with (2 := Ha2) as (it3 & -> & Ha3);
      [rewrite El; discriminate|].
    rewrite El in Ha3. cbn [obind]. rewrite (blen_S _ 0x2F eq_refl). finish.
    + subst source. norm. reflexivity.
    + norm. exact Ha3.
    + right. cbn [apart joins]. exact Hm.
    + cbn [length] in Hn |- *. lia.
  - destruct n as [|n]; [cbn in Hn; lia|]. pose proof (settled_apart _ _ _ Hst) as A.
    destruct (step_reserved _ n source v p0 w 0x2F Slash _ it Hs Ha eq_refl) as (it1 & Ha1 & ->); [discriminate|].
    cbn [reserved_step]. rewrite (apart_divide _ _ _ A) by reflexivity.
    destruct (peek_at _ _ _ Ha1) as (it2 & -> & Ha2).
    change (negb (0x3D =? 0x2F) && negb (0x3D =? 0x2A)) with true.
    rewrite (useful_other _ Hr). cbn [negb andb].
    assert (Ho' : open_line (0x3D :: l) s).
    { destruct Ho as [F T]. split; [|exact T]. constructor; [split; reflexivity|exact F]. }
    destruct (get_regex_open source it2 (p0 ++ w ++ [0x2F]) (0x3D :: l) s (blen (p0 ++ w)) (flush w v) Hr Ho') with (2 := Ha2)
      as (it3 & -> & Ha3); [discriminate|].
    cbn [obind]. rewrite (blen_S _ 0x2F eq_refl). norm.
    cbn [length] in Hn. destruct n as [|n]; [lia|].
    destruct (step_join n source (flush w v) (TOperation Divide) (TOperation DivideEqual)
        (p0 ++ w ++ [0x2F]) 0x3D (l ++ s) it3) as (it4 & Ha4 & ->).
    + subst source. norm. reflexivity.
    + exact Ha3.
    + reflexivity.
    + finish.
      * subst source. norm. reflexivity.
      * norm. norm_in Ha4. exact Ha4.
      * right. apply apart_none. intro d. cbn. apply andb_false_r.
      * lia.
Qed.

Theorem reads_loop : forall v w s v' w' s', reads v w s v' w' s' ->
  forall n source p0 it, stands n source p0 it v w s ->
  exists n' p1 it',
    tokenize_loop n source v (blen p0) it = tokenize_loop n' source v' (blen p1) it'
    /\ stands n' source p1 it' v' w' s'.
Proof.
  intros v w s v' w' s' H. induction H as [v w s|v w s v1 w1 s1 v2 w2 s2 H _ IH]; intros n source p0 it S.
  - eauto.
  - destruct S as (S1 & S2 & S3 & S4).
    destruct (reads_token_loop _ _ _ _ _ _ H n source p0 it S1 S2 S3 S4) as (n1 & p1 & it1 & E & S').
    destruct (IH n1 source p1 it1 S') as (n2 & p2 & it2 & E2 & S2'). rewrite E, E2. eauto.
Qed.

Lemma stands_new : forall s, stands (S (length s)) s [] (peekable_new s) [] [] s.
Proof.
  intro s. split; [reflexivity|]. split; [apply (at_near true), at_new|]. split; [right; exact I|]. lia.
Qed.

Lemma loop_end : forall n source p0 it v w, stands n source p0 it v w [] ->
  tokenize_loop n source v (blen p0) it = Ok (rev (flush w v)).
Proof.
  intros n source p0 it v w (Hs & Ha & _ & Hn). destruct n as [|n]; [lia|]. cbn [tokenize_loop].
  rewrite (next_at_nil _ _ _ Ha).
  replace (blen source) with (blen (p0 ++ w)) by (subst source; rewrite app_nil_r; reflexivity).
  rewrite (fill_other_spec source v p0 w [] Hs). reflexivity.
Qed.

Theorem lexes_tokenize : forall s ts, lexes s ts -> tokenize s = Ok ts.
Proof.
  intros s ts (v & w & H & ->). unfold tokenize.
  destruct (reads_loop _ _ _ _ _ _ H _ _ _ _ (stands_new s)) as (n & p1 & it & E & S).
  change (blen []) with 0%nat in E. rewrite E. apply loop_end. exact S.
Qed.
