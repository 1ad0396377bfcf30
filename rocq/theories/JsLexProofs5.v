(** Every source is read up to its end, or up to a literal, comment or regular expression that
    is not closed; and what the tokenizer does there. *)
From Coq Require Import String List NArith ZArith Bool Lia ZifyBool ZifyN Arith.
From Verif Require Import Base JsModel JsUtilModel JsUtilSpec JsUtilProofs JsUtilProofs2 JsLexSpec
  JsLexProofs1 JsLexProofs2 JsLexProofs3 JsLexProofs4.
Import ListNotations.
Open Scope N_scope.

(** ** Open strings *)

Lemma string_any : forall q, (q = 0x22 \/ q = 0x27) -> forall m s, (length s <= m)%nat ->
  (exists b s', string_body q b /\ s = b ++ q :: s')
  \/ (forall k n source start pre it, at_b k it pre s -> (length s < n)%nat ->
      exists it', string_loop n source it start (quote_of q) = Ok (None, start, it')
      /\ at_b k it' (pre ++ s) []).
Proof.
  intros q Hq. induction m as [|m IH]; intros s L.
  - destruct s; [|cbn in L; lia]. right. intros k n source start pre it Ha Hn.
    destruct n as [|n]; [lia|]. cbn [string_loop]. rewrite (next_at_nil _ _ _ Ha), app_nil_r. eauto.
  - destruct s as [|c s].
    { right. intros k n source start pre it Ha Hn.
      destruct n as [|n]; [lia|]. cbn [string_loop]. rewrite (next_at_nil _ _ _ Ha), app_nil_r. eauto. }
    destruct (N.eq_dec c q) as [->|Cq].
    { left. exists [], s. split; [constructor|reflexivity]. }
    cbn [length] in L.
    destruct (N.eq_dec c 0x5C) as [->|Cb].
    + destruct s as [|d s].
      * right. intros k n source start pre it Ha Hn. cbn [length] in Hn.
        destruct n as [|[|n]]; [lia|lia|]. cbn [string_loop].
        destruct (next_at _ _ _ _ _ Ha) as (it1 & -> & Ha1).
        change (0x5C =? 0x5C) with true. cbv iota. rewrite (next_at_nil _ _ _ Ha1). cbn [snd].
        rewrite (next_at_nil _ _ _ Ha1). eauto.
      * cbn [length] in L. destruct (IH s) as [(b & s' & Hb & ->)|H]; [lia| |].
        -- left. exists (0x5C :: d :: b), s'. split; [constructor; exact Hb|reflexivity].
        -- right. intros k n source start pre it Ha Hn. cbn [length] in Hn.
           destruct n as [|n]; [lia|]. cbn [string_loop].
           destruct (next_at _ _ _ _ _ Ha) as (it1 & -> & Ha1).
           change (0x5C =? 0x5C) with true. cbv iota.
           destruct (next_at _ _ _ _ _ Ha1) as (it2 & -> & Ha2). cbn [snd].
           destruct (H _ n source start _ it2 Ha2) as (it3 & E & Ha3); [lia|].
           norm_in Ha3. eauto.
    + destruct (IH s) as [(b & s' & Hb & ->)|H]; [lia| |].
      * left. exists (c :: b), s'. split; [constructor; assumption|reflexivity].
      * right. intros k n source start pre it Ha Hn. cbn [length] in Hn.
        destruct n as [|n]; [lia|]. cbn [string_loop].
        destruct (next_at _ _ _ _ _ Ha) as (it1 & -> & Ha1).
        replace (c =? 0x5C) with false by (symmetry; now apply N.eqb_neq).
        pose proof (rchar_quote q c Hq Cq) as R.
        destruct (H _ n source start _ it1 Ha1) as (it2 & E & Ha2); [lia|]. norm_in Ha2.
        exists it2. split; [|exact Ha2]. destruct (rchar_of c); [rewrite R|]; exact E.
Qed.

Lemma string_open : forall q, (q = 0x22 \/ q = 0x27) -> forall s,
  ~ (exists b s', string_body q b /\ s = b ++ q :: s') ->
  forall k n source start pre it, at_b k it pre s -> (length s < n)%nat ->
      exists it', string_loop n source it start (quote_of q) = Ok (None, start, it')
      /\ at_b k it' (pre ++ s) [].
Proof.
  intros q Hq s N. destruct (string_any q Hq (length s) s (le_n _)) as [H|H]; [contradiction|exact H].
Qed.

(** ** Open templates *)

Definition template_result (d : N) (n : nat) (source : str) (start : nat) (it : peekable) : Prop :=
  exists it', backtick_loop n source it start d = Ok (None, start, it') /\ at_ it' source [].

Definition interp_result (d : N) (k : nat) (n : nat) (source : str) (it : peekable) : Prop :=
  exists it', interp_loop n source it d (Z.of_nat k) = Ok (false, it') /\ at_ it' source [].

Lemma backtick_eq : forall n source it start d,
  backtick_loop (S n) source it start d =
      match next it with
      | (None, it') => Ok (None, start, it')
      | (Some (pos, c), it') =>
          if c =? 0x5C then backtick_loop n source (snd (next it')) start d
          else if c =? 0x24 then
            let (p, it2) := peek it' in
            if match p with Some (_, x) => x =? 0x7B | None => false end then
              let! (b, it3) := interp_loop n source it2 d 0%Z in
              if b then backtick_loop n source it3 start d
              else Ok (None, start, it3)
            else backtick_loop n source it2 start d
          else if c =? 0x60 then
            let! s := oslice (slice source start (pos + 1)) in
            Ok (Some (TString s), pos, it')
          else backtick_loop n source it' start d
      end.
Proof. reflexivity. Qed.

Lemma interp_eq : forall n source it d count,
  interp_loop (S n) source it d count =
      match next it with
      | (None, it') => Ok (false, it')
      | (Some (pos, c), it') =>
          if c =? 0x5C then interp_loop n source (snd (next it')) d count
          else if (c =? 0x22) || (c =? 0x27) then
            let! (_, it2) :=
              string_loop n source it' pos (if c =? 0x22 then DoubleQuote else Quote) in
            interp_loop n source it2 d count
          else if c =? 0x60 then
            if max_backtick_nesting <=? d then Err (S_ "Too nested backtick (`) string")
            else
              let! (_, it2) := backtick_loop n source it' pos (d + 1) in
              interp_loop n source it2 d count
          else if c =? 0x7B then interp_loop n source it' d (count + 1)%Z
          else if c =? 0x7D then
            if Z.eqb (count - 1) 0 then Ok (true, it')
            else interp_loop n source it' d (count - 1)%Z
          else interp_loop n source it' d count
      end.
Proof. reflexivity. Qed.

Definition template_open (d : N) (s : str) : Prop :=
  forall n source start pre it, source = pre ++ s -> at_ it pre s -> (length s < n)%nat ->
  template_result d n source start it.

Definition interp_open (d : N) (k : nat) (s : str) : Prop :=
  forall n source pre it, source = pre ++ s -> at_ it pre s -> (length s < n)%nat ->
  interp_result d k n source it.

Lemma template_open_nil : forall d, template_open d [].
Proof.
  intros d n source start pre it Es Ha Hn. destruct n as [|n]; [lia|]. hnf.
  rewrite backtick_eq, (next_at_nil _ _ _ Ha). rewrite app_nil_r in Es. subst source. eauto.
Qed.

Lemma interp_open_nil : forall d k, interp_open d k [].
Proof.
  intros d k n source pre it Es Ha Hn. destruct n as [|n]; [lia|]. hnf.
  rewrite interp_eq, (next_at_nil _ _ _ Ha). rewrite app_nil_r in Es. subst source. eauto.
Qed.

Lemma template_any : forall m,
  (forall d s, (length s <= m)%nat ->
    (exists b s', template_body d b /\ s = b ++ 0x60 :: s') \/ too_deep d s \/ template_open d s)
  /\ (forall d k s, (length s <= m)%nat ->
    (exists i s', interpolation d (S k) i /\ s = i ++ s') \/ too_deep_in d (S k) s \/ interp_open d (S k) s).
Proof.
  induction m as [|m [IHt IHi]].
  - split; intros; right; right; (destruct s; [|cbn in *; lia]); [apply template_open_nil|apply interp_open_nil].
  - split.
    + intros d s L. destruct s as [|c s]; [right; right; apply template_open_nil|]. cbn [length] in L.
      destruct (N.eq_dec c 0x60) as [->|C1].
      { left. exists [], s. split; [constructor|reflexivity]. }
      destruct (N.eq_dec c 0x5C) as [->|C2].
      { destruct s as [|x s].
        - right; right. intros n source start pre it Es Ha Hn. cbn [length] in Hn.
          destruct n as [|[|n]]; [lia|lia|]. hnf. rewrite backtick_eq.
          destruct (next_at _ _ _ _ _ Ha) as (it1 & -> & Ha1).
          change (0x5C =? 0x5C) with true. cbv iota. rewrite (next_at_nil _ _ _ Ha1). cbn [snd].
          rewrite backtick_eq, (next_at_nil _ _ _ Ha1). subst source. eauto.
        - cbn [length] in L. destruct (IHt d s) as [(b & s' & Hb & ->)|[DD|H]]; [lia| |right; left; apply td_escape; exact DD|].
          + left. exists (0x5C :: x :: b), s'. split; [constructor; exact Hb|reflexivity].
          + right; right. intros n source start pre it Es Ha Hn. cbn [length] in Hn.
            destruct n as [|n]; [lia|]. unfold template_result. rewrite backtick_eq.
            destruct (next_at _ _ _ _ _ Ha) as (it1 & -> & Ha1).
            change (0x5C =? 0x5C) with true. cbv iota.
            destruct (next_at _ _ _ _ _ Ha1) as (it2 & -> & Ha2). norm_in Ha2. cbn [snd].
            apply (H n source start (pre ++ [0x5C; x]) it2); [subst source; norm; reflexivity|exact Ha2|lia]. }
      destruct (N.eq_dec c 0x24) as [->|C3].
      { destruct (match s with x :: _ => x =? 0x7B | [] => false end) eqn:B.
        - destruct s as [|x r]; [discriminate|]. apply N.eqb_eq in B. subst x. cbn [length] in L.
          destruct (IHi d 0%nat r) as [(i & s' & Hi & ->)|[DD|H]]; [lia| |right; left; apply td_inside; exact DD|].
          + rewrite app_length in L.
            destruct (IHt d s') as [(b & s'' & Hb & ->)|[DD|H]]; [lia| |right; left; apply td_after; assumption|].
            * left. exists (0x24 :: 0x7B :: i ++ b), s''. split; [constructor; assumption|norm; reflexivity].
            * right; right. intros n source start pre it Es Ha Hn. cbn [length] in Hn. rewrite app_length in Hn.
              destruct n as [|n]; [lia|]. unfold template_result. rewrite backtick_eq.
              destruct (next_at _ _ _ _ _ Ha) as (it1 & -> & Ha1).
              change (0x24 =? 0x5C) with false. change (0x24 =? 0x24) with true. cbv iota.
              destruct (peek_at _ _ _ Ha1) as (it2 & -> & Ha2). cbv iota. change (0x7B =? 0x7B) with true. cbv iota.
              change 0%Z with (Z.of_nat 0).
              destruct (proj2 template_loops d 0%nat (0x7B :: i) (ip_open d 0 i Hi) n source (pre ++ [0x24]) s' it2)
                as (it3 & -> & Ha3).
              -- subst source. norm. reflexivity.
              -- exact Ha2.
              -- cbn [app length]. rewrite app_length. lia.
              -- cbn [obind]. norm_in Ha3.
                 apply (H n source start (pre ++ 0x24 :: 0x7B :: i) it3);
                   [subst source; norm; reflexivity|norm; exact Ha3|lia].
          + right; right. intros n source start pre it Es Ha Hn. cbn [length] in Hn.
            destruct n as [|[|n]]; [lia|lia|]. unfold template_result. rewrite backtick_eq.
            destruct (next_at _ _ _ _ _ Ha) as (it1 & -> & Ha1).
            change (0x24 =? 0x5C) with false. change (0x24 =? 0x24) with true. cbv iota.
            destruct (peek_at _ _ _ Ha1) as (it2 & -> & Ha2). cbv iota. change (0x7B =? 0x7B) with true. cbv iota.
            rewrite interp_eq. destruct (next_at _ _ _ _ _ Ha2) as (it3 & -> & Ha3).
            change (0x7B =? 0x5C) with false. change ((0x7B =? 0x22) || (0x7B =? 0x27)) with false.
            change (0x7B =? 0x60) with false. change (0x7B =? 0x7B) with true. cbv iota.
            change (0 + 1)%Z with (Z.of_nat 1).
            destruct (H n source ((pre ++ [0x24]) ++ [0x7B]) it3) as (it4 & E & Ha4);
              [subst source; norm; reflexivity|exact Ha3|lia|].
            exists it4. rewrite E. auto.
        - destruct (IHt d s) as [(b & s' & Hb & ->)|[DD|H]]; [lia| |right; left; apply td_dollar; [destruct s as [|x s]; [discriminate|]; cbn in *; apply N.eqb_neq in B; congruence|exact DD]|].
          + left. exists (0x24 :: b), s'. split; [|reflexivity]. apply tb_dollar; [|exact Hb].
            destruct b as [|x b]; [discriminate|]. cbn in *. apply N.eqb_neq in B. congruence.
          + right; right. intros n source start pre it Es Ha Hn. cbn [length] in Hn.
            destruct n as [|n]; [lia|]. unfold template_result. rewrite backtick_eq.
            destruct (next_at _ _ _ _ _ Ha) as (it1 & -> & Ha1).
            change (0x24 =? 0x5C) with false. change (0x24 =? 0x24) with true. cbv iota.
            destruct (peek_at _ _ _ Ha1) as (it2 & -> & Ha2).
            replace (match (match s with c :: _ => Some (blen (pre ++ [0x24]), c) | [] => None end) with
              Some (_, x) => x =? 0x7B | None => false end) with false by (destruct s; [reflexivity|symmetry; exact B]).
            apply (H n source start (pre ++ [0x24]) it2); [subst source; norm; reflexivity|exact Ha2|lia]. }
      destruct (IHt d s) as [(b & s' & Hb & ->)|[DD|H]]; [lia| |right; left; apply td_char; assumption|].
      * left. exists (c :: b), s'. split; [constructor; assumption|reflexivity].
      * right; right. intros n source start pre it Es Ha Hn. cbn [length] in Hn.
        destruct n as [|n]; [lia|]. unfold template_result. rewrite backtick_eq.
        destruct (next_at _ _ _ _ _ Ha) as (it1 & -> & Ha1).
        replace (c =? 0x5C) with false by (symmetry; now apply N.eqb_neq).
        replace (c =? 0x24) with false by (symmetry; now apply N.eqb_neq).
        replace (c =? 0x60) with false by (symmetry; now apply N.eqb_neq).
        apply (H n source start (pre ++ [c]) it1); [subst source; norm; reflexivity|exact Ha1|lia].
    + intros d k s L. destruct s as [|c s]; [right; right; apply interp_open_nil|]. cbn [length] in L.
      destruct (N.eq_dec c 0x5C) as [->|C1].
      { destruct s as [|x s].
        - right; right. intros n source pre it Es Ha Hn. cbn [length] in Hn.
          destruct n as [|[|n]]; [lia|lia|]. hnf. rewrite interp_eq.
          destruct (next_at _ _ _ _ _ Ha) as (it1 & -> & Ha1).
          change (0x5C =? 0x5C) with true. cbv iota. rewrite (next_at_nil _ _ _ Ha1). cbn [snd].
          rewrite interp_eq, (next_at_nil _ _ _ Ha1). subst source. eauto.
        - cbn [length] in L. destruct (IHi d k s) as [(i & s' & Hi & ->)|[DD|H]]; [lia| |right; left; apply ti_escape; exact DD|].
          + left. exists (0x5C :: x :: i), s'. split; [constructor; exact Hi|reflexivity].
          + right; right. intros n source pre it Es Ha Hn. cbn [length] in Hn.
            destruct n as [|n]; [lia|]. unfold interp_result. rewrite interp_eq.
            destruct (next_at _ _ _ _ _ Ha) as (it1 & -> & Ha1).
            change (0x5C =? 0x5C) with true. cbv iota.
            destruct (next_at _ _ _ _ _ Ha1) as (it2 & -> & Ha2). norm_in Ha2. cbn [snd].
            apply (H n source (pre ++ [0x5C; x]) it2); [subst source; norm; reflexivity|exact Ha2|lia]. }
      assert (QUOTE : (c = 0x22 \/ c = 0x27) ->
        (exists i s', interpolation d (S k) i /\ c :: s = i ++ s') \/ too_deep_in d (S k) (c :: s) \/ interp_open d (S k) (c :: s)).
      { intro Hq.
        assert (QO : forall n source pre it it1, next it = (Some (blen pre, c), it1) ->
          interp_loop (S n) source it d (Z.of_nat (S k)) =
          let! (_, it2) := string_loop n source it1 (blen pre) (quote_of c) in
            interp_loop n source it2 d (Z.of_nat (S k))).
        { intros n source pre it it1 E. rewrite interp_eq, E. unfold quote_of. destruct Hq; subst c; reflexivity. }
        destruct (string_any c Hq (length s) s (le_n _)) as [(b & s' & Hb & ->)|HS].
        - rewrite app_length in L. cbn [length] in L.
          destruct (IHi d k s') as [(i & s'' & Hi & ->)|[DD|H]]; [lia| |right; left; apply ti_string; assumption|].
          + left. exists (c :: b ++ c :: i), s''. split; [constructor; assumption|norm; reflexivity].
          + right; right. intros n source pre it Es Ha Hn. cbn [length] in Hn. rewrite app_length in Hn. cbn [length] in Hn.
            destruct n as [|n]; [lia|]. unfold interp_result.
            destruct (next_at _ _ _ _ _ Ha) as (it1 & E1 & Ha1). rewrite (QO n source pre it it1 E1).
            destruct (string_loop_spec c Hq b Hb true n source pre [] s' it1) as (it2 & -> & Ha2).
            * subst source. norm. reflexivity.
            * exact Ha1.
            * rewrite app_length. cbn [length]. lia.
            * cbn [obind]. apply (H n source _ it2) with (2 := Ha2); [subst source; norm; reflexivity|lia].
        - right; right. intros n source pre it Es Ha Hn. cbn [length] in Hn.
          destruct n as [|[|n]]; [lia|lia|]. unfold interp_result.
          destruct (next_at _ _ _ _ _ Ha) as (it1 & E1 & Ha1). rewrite (QO (S n) source pre it it1 E1).
          destruct (HS true (S n) source (blen pre) _ it1 Ha1) as (it2 & -> & Ha2); [lia|]. cbn [obind].
          exists it2. rewrite interp_eq, (next_at_nil _ _ _ Ha2). split; [reflexivity|].
          subst source. norm_in Ha2. exact Ha2. }
      destruct (N.eq_dec c 0x22) as [C2|C2]; [apply QUOTE; auto|].
      destruct (N.eq_dec c 0x27) as [C3|C3]; [apply QUOTE; auto|]. clear QUOTE.
      assert (Q : (c =? 0x22) || (c =? 0x27) = false).
      { apply orb_false_iff. split; now apply N.eqb_neq. }
      destruct (N.eq_dec c 0x60) as [->|C4].
      { destruct (N.ltb_spec d 1000) as [D|D].
        - assert (MD : (max_backtick_nesting <=? d) = false) by (apply N.leb_gt; exact D).
          destruct (IHt (d + 1) s) as [(b & s' & Hb & ->)|[DD|HT]]; [lia| |right; left; apply ti_inner; assumption|].
          + rewrite app_length in L. cbn [length] in L.
            destruct (IHi d k s') as [(i & s'' & Hi & ->)|[DD|H]]; [lia| |right; left; apply ti_template; assumption|].
            * left. exists (0x60 :: b ++ 0x60 :: i), s''. split; [constructor; assumption|norm; reflexivity].
            * right; right. intros n source pre it Es Ha Hn. cbn [length] in Hn. rewrite app_length in Hn. cbn [length] in Hn.
              destruct n as [|n]; [lia|]. unfold interp_result. rewrite interp_eq.
              destruct (next_at _ _ _ _ _ Ha) as (it1 & -> & Ha1).
              change (0x60 =? 0x5C) with false. change ((0x60 =? 0x22) || (0x60 =? 0x27)) with false.
              change (0x60 =? 0x60) with true. cbv iota. rewrite MD.
              destruct (proj1 template_loops (d + 1) b Hb n source pre [] s' it1) as (it2 & -> & Ha2).
              -- subst source. norm. reflexivity.
              -- exact Ha1.
              -- rewrite app_length. cbn [length]. lia.
              -- cbn [obind]. apply (H n source _ it2) with (2 := Ha2); [subst source; norm; reflexivity|lia].
          + right; right. intros n source pre it Es Ha Hn. cbn [length] in Hn.
            destruct n as [|[|n]]; [lia|lia|]. unfold interp_result. rewrite interp_eq.
            destruct (next_at _ _ _ _ _ Ha) as (it1 & -> & Ha1).
            change (0x60 =? 0x5C) with false. change ((0x60 =? 0x22) || (0x60 =? 0x27)) with false.
            change (0x60 =? 0x60) with true. cbv iota. rewrite MD.
            destruct (HT (S n) source (blen pre) (pre ++ [0x60]) it1) as (it2 & -> & Ha2).
            * subst source. norm. reflexivity.
            * exact Ha1.
            * lia.
            * exists it2. cbn [obind]. rewrite interp_eq, (next_at_nil _ _ _ Ha2). auto.
        - right; left. apply ti_limit. exact D. }
      destruct (N.eq_dec c 0x7B) as [->|C5].
      { destruct (IHi d (S k) s) as [(i & s' & Hi & ->)|[DD|H]]; [lia| |right; left; apply ti_open; exact DD|].
        - left. exists (0x7B :: i), s'. split; [constructor; exact Hi|reflexivity].
        - right; right. intros n source pre it Es Ha Hn. cbn [length] in Hn.
          destruct n as [|n]; [lia|]. unfold interp_result. rewrite interp_eq.
          destruct (next_at _ _ _ _ _ Ha) as (it1 & -> & Ha1).
          change (0x7B =? 0x5C) with false. change ((0x7B =? 0x22) || (0x7B =? 0x27)) with false.
          change (0x7B =? 0x60) with false. change (0x7B =? 0x7B) with true. cbv iota.
          replace (Z.of_nat (S k) + 1)%Z with (Z.of_nat (S (S k))) by lia.
          apply (H n source (pre ++ [0x7B]) it1); [subst source; norm; reflexivity|exact Ha1|lia]. }
      destruct (N.eq_dec c 0x7D) as [->|C6].
      { destruct k as [|k].
        - left. exists [0x7D], s. split; [constructor|reflexivity].
        - destruct (IHi d k s) as [(i & s' & Hi & ->)|[DD|H]]; [lia| |right; left; apply ti_close; exact DD|].
          + left. exists (0x7D :: i), s'. split; [constructor; exact Hi|reflexivity].
          + right; right. intros n source pre it Es Ha Hn. cbn [length] in Hn.
            destruct n as [|n]; [lia|]. unfold interp_result. rewrite interp_eq.
            destruct (next_at _ _ _ _ _ Ha) as (it1 & -> & Ha1).
            change (0x7D =? 0x5C) with false. change ((0x7D =? 0x22) || (0x7D =? 0x27)) with false.
            change (0x7D =? 0x60) with false. change (0x7D =? 0x7B) with false. change (0x7D =? 0x7D) with true. cbv iota.
            replace (Z.of_nat (S (S k)) - 1)%Z with (Z.of_nat (S k)) by lia.
            replace (Z.of_nat (S k) =? 0)%Z with false by lia.
            apply (H n source (pre ++ [0x7D]) it1); [subst source; norm; reflexivity|exact Ha1|lia]. }
      destruct (IHi d k s) as [(i & s' & Hi & ->)|[DD|H]]; [lia| |right; left; apply ti_char; [unfold mem_char; cbn [existsb]; lia|exact DD]|].
      * left. exists (c :: i), s'. split; [|reflexivity]. apply ip_char; [|exact Hi].
        unfold mem_char. cbn [existsb]. lia.
      * right; right. intros n source pre it Es Ha Hn. cbn [length] in Hn.
        destruct n as [|n]; [lia|]. unfold interp_result. rewrite interp_eq.
        destruct (next_at _ _ _ _ _ Ha) as (it1 & -> & Ha1).
        rewrite Q.
        replace (c =? 0x5C) with false by (symmetry; now apply N.eqb_neq).
        replace (c =? 0x60) with false by (symmetry; now apply N.eqb_neq).
        replace (c =? 0x7B) with false by (symmetry; now apply N.eqb_neq).
        replace (c =? 0x7D) with false by (symmetry; now apply N.eqb_neq).
        apply (H n source (pre ++ [c]) it1); [subst source; norm; reflexivity|exact Ha1|lia].
Qed.

Scheme too_deep_mut := Minimality for too_deep Sort Prop
  with too_deep_in_mut := Minimality for too_deep_in Sort Prop.
Combined Scheme too_deep_both from too_deep_mut, too_deep_in_mut.

Lemma too_deep_err :
  (forall d s, too_deep d s ->
   forall n source start pre it, source = pre ++ s -> at_ it pre s -> (length s < n)%nat ->
   backtick_loop n source it start d = Err nesting_error)
  /\ (forall d k s, too_deep_in d k s ->
   forall n source pre it, source = pre ++ s -> at_ it pre s -> (length s < n)%nat ->
   interp_loop n source it d (Z.of_nat k) = Err nesting_error).
Proof.
  apply too_deep_both.
  - intros d c s C1 C2 C3 _ IH n source start pre it Es Ha Hn. cbn [length] in Hn. destruct n as [|n]; [lia|].
    rewrite backtick_eq. destruct (next_at _ _ _ _ _ Ha) as (it1 & -> & Ha1).
    replace (c =? 0x5C) with false by (symmetry; now apply N.eqb_neq).
    replace (c =? 0x24) with false by (symmetry; now apply N.eqb_neq).
    replace (c =? 0x60) with false by (symmetry; now apply N.eqb_neq).
    apply (IH n source start (pre ++ [c]) it1); [subst source; norm; reflexivity|exact Ha1|lia].
  - intros d c s _ IH n source start pre it Es Ha Hn. cbn [length] in Hn. destruct n as [|n]; [lia|].
    rewrite backtick_eq. destruct (next_at _ _ _ _ _ Ha) as (it1 & -> & Ha1).
    change (0x5C =? 0x5C) with true. cbv iota.
    destruct (next_at _ _ _ _ _ Ha1) as (it2 & -> & Ha2). norm_in Ha2. cbn [snd].
    apply (IH n source start (pre ++ [0x5C; c]) it2); [subst source; norm; reflexivity|exact Ha2|lia].
  - intros d s B _ IH n source start pre it Es Ha Hn. cbn [length] in Hn. destruct n as [|n]; [lia|].
    rewrite backtick_eq. destruct (next_at _ _ _ _ _ Ha) as (it1 & -> & Ha1).
    change (0x24 =? 0x5C) with false. change (0x24 =? 0x24) with true. cbv iota.
    destruct (peek_at _ _ _ Ha1) as (it2 & -> & Ha2).
    replace (match (match s with c :: _ => Some (blen (pre ++ [0x24]), c) | [] => None end) with
              Some (_, x) => x =? 0x7B | None => false end) with false.
    2:{ destruct s as [|x s]; [reflexivity|]. symmetry. apply N.eqb_neq. intros ->. apply B. reflexivity. }
    apply (IH n source start (pre ++ [0x24]) it2); [subst source; norm; reflexivity|exact Ha2|lia].
  - intros d i s Hi _ IH n source start pre it Es Ha Hn. cbn [length] in Hn. rewrite app_length in Hn.
    destruct n as [|n]; [lia|].
    rewrite backtick_eq. destruct (next_at _ _ _ _ _ Ha) as (it1 & -> & Ha1).
    change (0x24 =? 0x5C) with false. change (0x24 =? 0x24) with true. cbv iota.
    destruct (peek_at _ _ _ Ha1) as (it2 & -> & Ha2). cbv iota. change (0x7B =? 0x7B) with true. cbv iota.
    change 0%Z with (Z.of_nat 0).
    destruct (proj2 template_loops d 0%nat (0x7B :: i) (ip_open d 0 i Hi) n source (pre ++ [0x24]) s it2)
      as (it3 & -> & Ha3).
    + subst source. norm. reflexivity.
    + exact Ha2.
    + cbn [app length]. rewrite app_length. lia.
    + cbn [obind]. norm_in Ha3.
      apply (IH n source start (pre ++ 0x24 :: 0x7B :: i) it3);
        [subst source; norm; reflexivity|norm; exact Ha3|lia].
  - intros d s _ IH n source start pre it Es Ha Hn. cbn [length] in Hn. destruct n as [|[|n]]; [lia|lia|].
    rewrite backtick_eq. destruct (next_at _ _ _ _ _ Ha) as (it1 & -> & Ha1).
    change (0x24 =? 0x5C) with false. change (0x24 =? 0x24) with true. cbv iota.
    destruct (peek_at _ _ _ Ha1) as (it2 & -> & Ha2). cbv iota. change (0x7B =? 0x7B) with true. cbv iota.
    rewrite interp_eq. destruct (next_at _ _ _ _ _ Ha2) as (it3 & -> & Ha3).
    change (0x7B =? 0x5C) with false. change ((0x7B =? 0x22) || (0x7B =? 0x27)) with false.
    change (0x7B =? 0x60) with false. change (0x7B =? 0x7B) with true. cbv iota.
    change (0 + 1)%Z with (Z.of_nat 1).
    rewrite (IH n source ((pre ++ [0x24]) ++ [0x7B]) it3);
      [reflexivity|subst source; norm; reflexivity|exact Ha3|lia].
  - intros d k s _ IH n source pre it Es Ha Hn. cbn [length] in Hn. destruct n as [|n]; [lia|].
    rewrite interp_eq. destruct (next_at _ _ _ _ _ Ha) as (it1 & -> & Ha1).
    change (0x7D =? 0x5C) with false. change ((0x7D =? 0x22) || (0x7D =? 0x27)) with false.
    change (0x7D =? 0x60) with false. change (0x7D =? 0x7B) with false. change (0x7D =? 0x7D) with true. cbv iota.
    replace (Z.of_nat (S (S k)) - 1)%Z with (Z.of_nat (S k)) by lia.
    replace (Z.of_nat (S k) =? 0)%Z with false by lia.
    apply (IH n source (pre ++ [0x7D]) it1); [subst source; norm; reflexivity|exact Ha1|lia].
  - intros d k s _ IH n source pre it Es Ha Hn. cbn [length] in Hn. destruct n as [|n]; [lia|].
    rewrite interp_eq. destruct (next_at _ _ _ _ _ Ha) as (it1 & -> & Ha1).
    change (0x7B =? 0x5C) with false. change ((0x7B =? 0x22) || (0x7B =? 0x27)) with false.
    change (0x7B =? 0x60) with false. change (0x7B =? 0x7B) with true. cbv iota.
    replace (Z.of_nat k + 1)%Z with (Z.of_nat (S k)) by lia.
    apply (IH n source (pre ++ [0x7B]) it1); [subst source; norm; reflexivity|exact Ha1|lia].
  - intros d k c s Hc _ IH n source pre it Es Ha Hn. cbn [length] in Hn. destruct n as [|n]; [lia|].
    rewrite interp_eq. destruct (next_at _ _ _ _ _ Ha) as (it1 & -> & Ha1).
    unfold mem_char in Hc. cbn [existsb] in Hc.
    replace (c =? 0x5C) with false by lia. replace ((c =? 0x22) || (c =? 0x27)) with false by lia.
    replace (c =? 0x60) with false by lia. replace (c =? 0x7B) with false by lia.
    replace (c =? 0x7D) with false by lia.
    apply (IH n source (pre ++ [c]) it1); [subst source; norm; reflexivity|exact Ha1|lia].
  - intros d k c s _ IH n source pre it Es Ha Hn. cbn [length] in Hn. destruct n as [|n]; [lia|].
    rewrite interp_eq. destruct (next_at _ _ _ _ _ Ha) as (it1 & -> & Ha1).
    change (0x5C =? 0x5C) with true. cbv iota.
    destruct (next_at _ _ _ _ _ Ha1) as (it2 & -> & Ha2). norm_in Ha2. cbn [snd].
    apply (IH n source (pre ++ [0x5C; c]) it2); [subst source; norm; reflexivity|exact Ha2|lia].
  - intros d k q b s Hq Hb _ IH n source pre it Es Ha Hn. cbn [length] in Hn. rewrite app_length in Hn.
    cbn [length] in Hn. destruct n as [|n]; [lia|].
    rewrite interp_eq. destruct (next_at _ _ _ _ _ Ha) as (it1 & -> & Ha1).
    replace (q =? 0x5C) with false by lia. replace ((q =? 0x22) || (q =? 0x27)) with true by lia.
    change (if q =? 0x22 then DoubleQuote else Quote) with (quote_of q).
    destruct (string_loop_spec q Hq b Hb true n source pre [] s it1) as (it2 & -> & Ha2).
    + subst source. norm. reflexivity.
    + exact Ha1.
    + rewrite app_length. cbn [length]. lia.
    + cbn [obind]. apply (IH n source _ it2) with (2 := Ha2); [subst source; norm; reflexivity|lia].
  - intros d k b s D Hb _ IH n source pre it Es Ha Hn. cbn [length] in Hn. rewrite app_length in Hn.
    cbn [length] in Hn. destruct n as [|n]; [lia|].
    rewrite interp_eq. destruct (next_at _ _ _ _ _ Ha) as (it1 & -> & Ha1).
    change (0x60 =? 0x5C) with false. change ((0x60 =? 0x22) || (0x60 =? 0x27)) with false.
    change (0x60 =? 0x60) with true. cbv iota.
    replace (max_backtick_nesting <=? d) with false by (symmetry; apply N.leb_gt; exact D).
    destruct (proj1 template_loops (d + 1) b Hb n source pre [] s it1) as (it2 & -> & Ha2).
    + subst source. norm. reflexivity.
    + exact Ha1.
    + rewrite app_length. cbn [length]. lia.
    + cbn [obind]. apply (IH n source _ it2) with (2 := Ha2); [subst source; norm; reflexivity|lia].
  - intros d k s D _ IH n source pre it Es Ha Hn. cbn [length] in Hn. destruct n as [|n]; [lia|].
    rewrite interp_eq. destruct (next_at _ _ _ _ _ Ha) as (it1 & -> & Ha1).
    change (0x60 =? 0x5C) with false. change ((0x60 =? 0x22) || (0x60 =? 0x27)) with false.
    change (0x60 =? 0x60) with true. cbv iota.
    replace (max_backtick_nesting <=? d) with false by (symmetry; apply N.leb_gt; exact D).
    rewrite (IH n source (blen pre) (pre ++ [0x60]) it1);
      [reflexivity|subst source; norm; reflexivity|exact Ha1|lia].
  - intros d k s D n source pre it Es Ha Hn. cbn [length] in Hn. destruct n as [|n]; [lia|].
    rewrite interp_eq. destruct (next_at _ _ _ _ _ Ha) as (it1 & -> & Ha1).
    change (0x60 =? 0x5C) with false. change ((0x60 =? 0x22) || (0x60 =? 0x27)) with false.
    change (0x60 =? 0x60) with true. cbv iota.
    replace (max_backtick_nesting <=? d) with true by (symmetry; apply N.leb_le; exact D).
    reflexivity.
Qed.

Lemma template_open_spec : forall d r, ~ (exists b s, template_body d b /\ r = b ++ 0x60 :: s) ->
  too_deep d r \/ template_open d r.
Proof.
  intros d r N. destruct (proj1 (template_any (length r)) d r (le_n _)) as [H|H]; [contradiction|exact H].
Qed.

Lemma template_dec : forall d r,
  (exists b s, template_body d b /\ r = b ++ 0x60 :: s) \/ ~ (exists b s, template_body d b /\ r = b ++ 0x60 :: s).
Proof.
  intros d r. destruct (proj1 (template_any (length r)) d r (le_n _)) as [H|H]; [left; exact H|right].
  intros (b & s & Hb & ->).
  set (source := [0x60] ++ b ++ 0x60 :: s).
  assert (Ha : exists it, at_ it [0x60] (b ++ 0x60 :: s)).
  { destruct (next_at _ _ _ _ _ (at_new source)) as (it & _ & Ha). exists it. exact Ha. }
  destruct Ha as (it & Ha).
  destruct (proj1 template_loops d b Hb (S (length (b ++ 0x60 :: s))) source [] [] s it eq_refl Ha (le_n _))
    as (it' & E & _).
  destruct H as [H|H].
  - rewrite (proj1 too_deep_err d _ H _ source _ [0x60] it eq_refl Ha (le_n _)) in E. discriminate.
  - destruct (H (S (length (b ++ 0x60 :: s))) source (blen []) [0x60] it eq_refl Ha (le_n _)) as (it2 & E2 & _).
    rewrite E in E2; discriminate.
Qed.

Lemma string_dec : forall q, (q = 0x22 \/ q = 0x27) -> forall r,
  (exists b s, string_body q b /\ r = b ++ q :: s) \/ ~ (exists b s, string_body q b /\ r = b ++ q :: s).
Proof.
  intros q Hq r. destruct (string_any q Hq (length r) r (le_n _)) as [H|H]; [left; exact H|right].
  intros (b & s & Hb & ->).
  set (source := [q] ++ b ++ q :: s).
  assert (Ha : exists it, at_ it [q] (b ++ q :: s)).
  { destruct (next_at _ _ _ _ _ (at_new source)) as (it & _ & Ha). exists it. exact Ha. }
  destruct Ha as (it & Ha).
  destruct (string_loop_spec q Hq b Hb true (S (length (b ++ q :: s))) source [] [] s it eq_refl Ha (le_n _))
    as (it' & E & _).
  destruct (H true (S (length (b ++ q :: s))) source (blen []) [q] it Ha (le_n _)) as (it2 & E2 & _).
  rewrite E in E2; discriminate.
Qed.

(** ** Splitting comments and regular expressions *)

Lemma line_dec : forall r, Forall (fun c => newline c = false) r
  \/ exists b n s, Forall (fun c => newline c = false) b /\ newline n = true /\ r = b ++ n :: s.
Proof.
  induction r as [|c r IH]; [left; constructor|]. destruct (newline c) eqn:C.
  - right. exists [], c, r. auto.
  - destruct IH as [IH|(b & n & s & A & B & ->)]; [left; auto|]. right. exists (c :: b), n, s. auto.
Qed.

Lemma comment_split : forall r, has_comment_end r = true ->
  exists b s, comment_body b = true /\ r = b ++ 0x2A :: 0x2F :: s.
Proof.
  induction r as [|a r IH]; intro H; [discriminate|]. destruct r as [|b r]; [discriminate|].
  destruct ((a =? 0x2A) && (b =? 0x2F)) eqn:E.
  - apply andb_prop in E. destruct E as [A B]. apply N.eqb_eq in A, B. subst. exists [], r. auto.
  - change (has_comment_end (a :: b :: r)) with (((a =? 0x2A) && (b =? 0x2F)) || has_comment_end (b :: r)) in H.
    rewrite E in H. cbn [orb] in H.
    destruct (IH H) as (x & s & Hx & Er). exists (a :: x), s. split; [|rewrite Er; reflexivity].
    unfold comment_body in *. apply negb_true_iff in Hx. apply negb_true_iff.
    destruct x as [|y x].
    + cbn. rewrite andb_false_r. reflexivity.
    + cbn [app] in *. injection Er as -> _.
      change (has_comment_end (a :: y :: x ++ [0x2A])) with (((a =? 0x2A) && (y =? 0x2F)) || has_comment_end (y :: x ++ [0x2A])).
      rewrite E, Hx. reflexivity.
Qed.

Lemma regex_dec : forall m r, (length r <= m)%nat ->
  (exists b s, regex_body b /\ r = b ++ 0x2F :: s) \/ ~ (exists b s, regex_body b /\ r = b ++ 0x2F :: s).
Proof.
  induction m as [|m IH]; intros r L.
  - destruct r; [|cbn in L; lia]. right. intros (b & s & _ & E). destruct b; discriminate.
  - destruct r as [|c r]; [right; intros (b & s & _ & E); destruct b; discriminate|]. cbn [length] in L.
    destruct (N.eq_dec c 0x2F) as [->|C1].
    { left. exists [], r. split; [constructor|reflexivity]. }
    destruct (N.eq_dec c 0x5C) as [->|C2].
    + destruct r as [|d r].
      * right. intros (b & s & H & E). destruct b as [|x b]; [discriminate|]. injection E as <- E.
        destruct b; discriminate.
      * cbn [length] in L. destruct (IH r) as [(b & s & H & ->)|H]; [lia| |].
        -- left. exists (0x5C :: d :: b), s. split; [constructor; exact H|reflexivity].
        -- right. intros (b & s & Hb & E). apply H. destruct Hb as [|x b A B C Hb|x b Hb]; [discriminate| |].
           ++ injection E as <- E. congruence.
           ++ injection E as -> ->. eauto.
    + destruct (newline c) eqn:Nl.
      * right. intros (b & s & Hb & E). destruct Hb as [|x b A B C Hb|x b Hb].
        -- injection E as -> _. congruence.
        -- injection E as -> _. congruence.
        -- injection E as -> _. congruence.
      * destruct (IH r) as [(b & s & H & ->)|H]; [lia| |].
        -- left. exists (c :: b), s. split; [constructor; assumption|reflexivity].
        -- right. intros (b & s & Hb & E). apply H. destruct Hb as [|x b A B C Hb|x b Hb].
           ++ injection E as -> _. congruence.
           ++ injection E as -> ->. eauto.
           ++ injection E as -> _. congruence.
Qed.

Lemma flags_split : forall s, exists f r, s = f ++ r /\ Forall (fun c => flag c = true) f
  /\ (forall c, hd_error r = Some c -> flag c = false).
Proof.
  induction s as [|c s IH].
  - exists [], []. split; [reflexivity|]. split; [constructor|discriminate].
  - destruct (flag c) eqn:F.
    + destruct IH as (f & r & -> & A & B). exists (c :: f), r. auto.
    + exists [], (c :: s). split; [reflexivity|]. split; [constructor|]. intros d E. injection E as <-. exact F.
Qed.

Lemma open_dec : forall r, (exists l s, r = l ++ s /\ open_line l s) \/ ~ (exists l s, r = l ++ s /\ open_line l s).
Proof.
  induction r as [|c r IH].
  - left. exists [], []. split; [reflexivity|]. split; [constructor|auto].
  - destruct (newline c) eqn:Nl.
    { left. exists [], (c :: r). split; [reflexivity|]. split; [constructor|]. right. eauto. }
    destruct (mem_char c [0x2F; 0x2E; 0x60; 0x5C]) eqn:M.
    + right. intros (l & s & E & F & T). destruct F as [|a l [A B] F].
      * cbn [app] in E. subst s. destruct T as [T|(n & r' & T & Hn)]; [discriminate|]. injection T as -> _. congruence.
      * injection E as -> _. congruence.
    + destruct IH as [(l & s & -> & F & T)|N].
      * left. exists (c :: l), s. split; [reflexivity|]. split; [constructor; auto|exact T].
      * right. intros (l & s & E & F & T). apply N. destruct F as [|a l [A B] F].
        -- cbn [app] in E. subst s. destruct T as [T|(n & r' & T & Hn)]; [discriminate|]. injection T as -> _. congruence.
        -- injection E as -> ->. exists l, s. split; [reflexivity|]. split; assumption.
Qed.

(** ** Every source is read to the end or to something unclosed *)

Lemma reads_all : forall m s, (length s <= m)%nat -> forall v w,
  exists v' w' s', reads v w s v' w' s' /\ (s' = [] \/ unclosed (flush w' v') s').
Proof.
  induction m as [|m IH]; intros s L v w.
  - destruct s; [|cbn in L; lia]. exists v, w, []. split; [constructor|auto].
  - destruct s as [|c s]; [exists v, w, []; split; [constructor|auto]|]. cbn [length] in L.
    assert (STEP : forall v1 w1 s1, reads_token v w (c :: s) v1 w1 s1 -> (length s1 <= length s)%nat ->
      exists v' w' s', reads v w (c :: s) v' w' s' /\ (s' = [] \/ unclosed (flush w' v') s')).
    { intros v1 w1 s1 H L1. destruct (IH s1) with (v := v1) (w := w1) as (v' & w' & s' & R & U); [lia|].
      exists v', w', s'. split; [econstructor; eauto|exact U]. }
    assert (STOP : unclosed (flush w v) (c :: s) ->
      exists v' w' s', reads v w (c :: s) v' w' s' /\ (s' = [] \/ unclosed (flush w' v') s')).
    { intro U. exists v, w, (c :: s). split; [constructor|auto]. }
    assert (LEN : forall (b : str) x r, (length r <= length (b ++ x :: r))%nat).
    { intros. rewrite app_length. cbn. lia. }
    destruct (punctuation_cases c) as [H|[H|[(t & H)|[(t & H)|H]]]].
    + eapply STEP; [constructor; exact H|lia].
    + subst c. destruct (dot_joins w s) eqn:D.
      * eapply STEP; [apply rd_word_dot; exact D|lia].
      * eapply STEP; [apply rd_dot; exact D|lia].
    + eapply STEP; [eapply rd_punct; exact H|lia].
    + destruct (longest_exists (c :: s)) as (o & u & r & Ho & Er & Hl).
      { exists ([c], t). split; [exact H|]. cbn. rewrite N.eqb_refl. reflexivity. }
      destruct (operator_chars o u Ho) as [Ne F].
      assert (LR : (length r <= length s)%nat).
      { apply (f_equal (@length N)) in Er. rewrite app_length in Er. destruct o; [congruence|]. cbn in Er. lia. }
      assert (RT : reads_token v w (c :: s) (u :: flush w v) [] r) by (rewrite Er; eapply rd_operator; eauto).
      exact (STEP _ _ _ RT LR).
    + assert (H' : (c = 0x22 \/ c = 0x27) \/ c = 0x60 \/ c = 0x2F).
      { unfold mem_char in H. cbn [existsb] in H. lia. }
      clear H. destruct H' as [Hq|[-> | ->]].
      * destruct (string_dec c Hq s) as [(b & r & Hb & ->)|N].
        -- eapply STEP; [apply rd_string; assumption|apply LEN].
        -- apply STOP. apply uc_string; assumption.
      * destruct (template_dec 0 s) as [(b & r & Hb & ->)|N].
        -- eapply STEP; [apply rd_template; assumption|apply LEN].
        -- apply STOP. apply uc_template; assumption.
      * destruct s as [|d s].
        { eapply STEP; [apply rd_divide; [auto|discriminate]|cbn; lia]. }
        destruct (N.eq_dec d 0x2F) as [->|D1].
        { destruct (line_dec s) as [F|(b & nl & r & A & B & ->)].
          - apply STOP. apply uc_line_comment. exact F.
          - eapply STEP; [apply rd_line_comment; assumption|]. cbn [length]. specialize (LEN b nl r). lia. }
        destruct (N.eq_dec d 0x2A) as [->|D2].
        { destruct (has_comment_end s) eqn:HE; [|apply STOP; apply uc_comment; exact HE].
          destruct s as [|x s]; [discriminate|].
          destruct (N.eq_dec x 0x21) as [->|X].
          - destruct (comment_split s) as (b & r & Hb & ->).
            { destruct s; [discriminate|]. exact HE. }
            eapply STEP; [apply rd_license; exact Hb|]. cbn [length]. rewrite app_length. cbn [length]. lia.
          - destruct (comment_split (x :: s) HE) as (b & r & Hb & Er). rewrite Er in *.
            eapply STEP; [apply rd_comment; [exact Hb|]|].
            + destruct b as [|y b]; [discriminate|]. injection Er as -> _. cbn. congruence.
            + cbn [length]. rewrite app_length. cbn [length]. lia. }
        assert (DM : mem_char d (S_ "/*") = false).
        { change (mem_char d (S_ "/*")) with ((d =? 0x2F) || ((d =? 0x2A) || false)). lia. }
        destruct (regex_here (flush w v)) eqn:R.
        -- destruct (regex_dec (length (d :: s)) (d :: s) (le_n _)) as [(b & r & Hb & Er)|N].
           ++ destruct (flags_split r) as (f & r' & -> & Hf & Hr').
              assert (RT : reads_token v w (0x2F :: d :: s) (TRegex b (mem_char 0x67 f) (mem_char 0x69 f) :: flush w v) [] r').
              { rewrite Er. apply rd_regex; auto. destruct b as [|y b].
                - injection Er as -> _. congruence.
                - injection Er as -> _. exists y. auto. }
              eapply STEP; [exact RT|]. rewrite Er, app_length. cbn [length]. rewrite app_length. lia.
           ++ destruct (open_dec (d :: s)) as [(l & r & El & Ho)|N'].
              ** destruct (N.eq_dec d 0x3D) as [->|D3].
                 --- destruct l as [|a l].
                     { destruct Ho as [_ [->|(n & r' & -> & Hn)]]; [discriminate|]. injection El as <- _. discriminate Hn. }
                     injection El as <- ->.
                     assert (Ho' : open_line l r).
                     { destruct Ho as [F T]. inversion F; subst. split; assumption. }
                     eapply STEP; [apply rd_open_equal; assumption|]. cbn [length]. lia.
                 --- assert (RT : reads_token v w (0x2F :: d :: s) (TOperation Divide :: flush w v) [] (d :: s)).
                     { rewrite El. apply rd_open; [assumption|assumption|]. rewrite <- El. exists d. split; [reflexivity|].
                       change (mem_char d (S_ "/*=")) with ((d =? 0x2F) || ((d =? 0x2A) || ((d =? 0x3D) || false))). lia. }
                     eapply STEP; [exact RT|lia].
              ** apply STOP. apply uc_regex; assumption.
        -- destruct (N.eq_dec d 0x3D) as [->|D3].
           ++ eapply STEP; [apply rd_divide_equal; exact R|]. cbn. lia.
           ++ eapply STEP; [apply rd_divide; [auto|]|cbn; lia].
              intros x E. injection E as <-.
              change (mem_char d (S_ "/*=")) with ((d =? 0x2F) || ((d =? 0x2A) || ((d =? 0x3D) || false))). lia.
Qed.

(** ** What the tokenizer does with the unclosed *)

Lemma unclosed_string : forall s v w q r, reads [] [] s v w (q :: r) -> (q = 0x22 \/ q = 0x27) ->
  ~ (exists b s, string_body q b /\ r = b ++ q :: s) ->
  tokenize s = Ok (rev (flush r (flush w v))).
Proof.
  intros s v w q r H Hq N. unfold tokenize.
  destruct (reads_loop _ _ _ _ _ _ H _ _ _ _ (stands_new s)) as (n & p0 & it & E & (Hs & Ha & Hst & Hn)).
  change (blen []) with 0%nat in E. rewrite E. clear E H.
  assert (R : rchar_of q = Some (quote_of q)) by (destruct Hq; subst q; reflexivity).
  cbn [length] in Hn. destruct n as [|[|n]]; [lia|lia|].
  destruct (step_reserved _ (S n) s v p0 w q _ r it Hs Ha R) as (it1 & Ha1 & ->).
  { destruct Hq; subst q; discriminate. }
  assert (E : forall pos, reserved_step s (flush w v) pos (quote_of q) it1
     = let! (o, pos', it') := get_string s it1 pos (quote_of q) in Ok (push_opt o (flush w v), pos', it')).
  { intro pos. destruct Hq; subst q; reflexivity. }
  rewrite E. unfold get_string.
  destruct (string_open q Hq r N false (S (left_over it1)) s (blen (p0 ++ w)) _ it1 (at_near _ _ _ _ Ha1)) as (it2 & -> & Ha2).
  { rewrite (at_left _ _ _ _ Ha1). lia. }
  cbn [obind push_opt]. rewrite (blen_S _ q) by (destruct Hq; subst q; reflexivity).
  norm_in Ha2.
  apply (loop_end (S n) s ((p0 ++ w) ++ [q]) it2 (flush w v) r).
  split; [subst s; norm; rewrite app_nil_r; reflexivity|]. split; [norm; exact Ha2|].
  split; [right; destruct (flush w v); exact I|cbn; lia].
Qed.

Lemma unclosed_template : forall s v w r, reads [] [] s v w (0x60 :: r) ->
  ~ (exists b s, template_body 0 b /\ r = b ++ 0x60 :: s) ->
  (too_deep 0 r /\ tokenize s = Err nesting_error)
  \/ (~ too_deep 0 r /\ tokenize s = Ok (rev (flush r (flush w v)))).
Proof.
  intros s v w r H N. unfold tokenize.
  destruct (reads_loop _ _ _ _ _ _ H _ _ _ _ (stands_new s)) as (n & p0 & it & E & (Hs & Ha & Hst & Hn)).
  change (blen []) with 0%nat in E. rewrite E. clear E H.
  cbn [length] in Hn. destruct n as [|[|n]]; [lia|lia|].
  destruct (step_reserved _ (S n) s v p0 w 0x60 BackTick r it Hs Ha eq_refl) as (it1 & Ha1 & ->); [discriminate|].
  cbn [reserved_step]. unfold get_backtick_string.
  assert (Es : s = (p0 ++ w ++ [0x60]) ++ r) by (subst s; norm; reflexivity).
  assert (L : (length r < S (left_over it1))%nat) by (rewrite (at_left _ _ _ _ Ha1); lia).
  destruct (template_open_spec 0 r N) as [D|O].
  - left. split; [exact D|].
    rewrite (proj1 too_deep_err 0 r D _ s (blen (p0 ++ w)) _ it1 Es Ha1 L). reflexivity.
  - right. destruct (O (S (left_over it1)) s (blen (p0 ++ w)) _ it1 Es Ha1 L) as (it2 & E2 & Ha2).
    split.
    + intro D. rewrite (proj1 too_deep_err 0 r D _ s (blen (p0 ++ w)) _ it1 Es Ha1 L) in E2. discriminate.
    + rewrite E2. cbn [obind push_opt]. rewrite (blen_S _ 0x60 eq_refl).
      apply (loop_end (S n) s ((p0 ++ w) ++ [0x60]) it2 (flush w v) r).
      split; [subst s; norm; rewrite app_nil_r; reflexivity|].
      split; [rewrite Es in Ha2; norm; norm_in Ha2; exact (at_near _ _ _ _ Ha2)|].
      split; [right; destruct (flush w v); exact I|cbn; lia].
Qed.

Lemma comment_loop_open : forall x st prev n pre it cur,
  (prev = Star <-> st = true) -> has_comment_end (starred st x) = false ->
  at_ it pre x -> (length x < n)%nat ->
  exists it', comment_loop n it prev cur = Ok (match x with [] => cur | _ => blen (pre ++ removelast x) end, it')
    /\ at_ it' (pre ++ x) [].
Proof.
  induction x as [|c x IH]; intros st prev n pre it cur Hp Hc Ha Hn.
  - destruct n as [|n]; [lia|]. cbn [comment_loop]. rewrite (next_at_nil _ _ _ Ha), app_nil_r. eauto.
  - destruct n as [|n]; [lia|]. cbn [length] in Hn. cbn [comment_loop].
    destruct (next_at _ _ _ _ _ Ha) as (it' & -> & Ha').
    assert (X : forall k, (k = Star <-> c = 0x2A) -> exists it'', comment_loop n it' k (blen pre)
       = Ok (blen (pre ++ removelast (c :: x)), it'') /\ at_ it'' (pre ++ c :: x) []).
    { intros k Hk. destruct (IH (c =? 0x2A) k n (pre ++ [c]) it' (blen pre)) as (it2 & E1 & E2).
      - rewrite Hk. symmetry. apply N.eqb_eq.
      - assert (Hc' : has_comment_end (c :: x) = false).
        { destruct st; cbn [starred] in Hc; [exact (has_end_tail _ _ Hc)|exact Hc]. }
        destruct (c =? 0x2A) eqn:C; cbn [starred]; [apply N.eqb_eq in C; subst c; exact Hc'|].
        exact (has_end_tail _ _ Hc').
      - exact Ha'.
      - lia.
      - exists it2. norm_in E2. split; [|exact E2]. rewrite E1. destruct x as [|d x].
        + cbn [removelast]. rewrite app_nil_r. reflexivity.
        + change (removelast (c :: d :: x)) with (c :: removelast (d :: x)). norm. reflexivity. }
    destruct (rchar_of c) as [k|] eqn:R.
    + assert (K : k = Star <-> c = 0x2A).
      { apply rchar_of_sound in R. split.
        - intros ->. destruct R as [<-|[_ R]]; [reflexivity|discriminate].
        - intros ->. destruct R as [R|[R _]]; [|discriminate]. destruct k; try discriminate. reflexivity. }
      replace (rchar_eqb k Slash && rchar_eqb prev Star) with false; [apply X; exact K|].
      symmetry. apply andb_false_iff. destruct (rchar_eqb k Slash) eqn:KS; [right|left; reflexivity].
      apply rchar_eqb_eq in KS. subst k.
      destruct (rchar_eqb prev Star) eqn:P; [|reflexivity]. exfalso. apply rchar_eqb_eq in P.
      apply Hp in P. subst st. cbn [starred has_comment_end] in Hc. apply orb_false_iff in Hc.
      apply rchar_of_sound in R. destruct R as [R|[_ R]]; [|discriminate]. cbn in R. subst c.
      destruct Hc. discriminate.
    + apply X. split; [discriminate|]. intros ->. discriminate R.
Qed.

(** The licence mark. *)
Definition marked (r : str) : bool := match r with c :: _ => c =? 0x21 | [] => false end.
Definition unmarked (r : str) : str := if marked r then tl r else r.

Lemma get_comment_open : forall r p0 it, has_comment_end r = false ->
  at_ it (p0 ++ [0x2F; 0x2A]) r ->
  let source := p0 ++ 0x2F :: 0x2A :: r in
  (exists pos it', get_comment source it (blen (p0 ++ [0x2F]))
    = Ok (if marked r then TLicense (unmarked r) else TComment (unmarked r), pos, it')
    /\ (blen source <= S pos)%nat /\ at_ it' source []
    /\ (unmarked r = [] \/ exists x c, unmarked r = x ++ [c] /\ c < 0x80))
  \/ (get_comment source it (blen (p0 ++ [0x2F])) = Panic
      /\ exists x c, unmarked r = x ++ [c] /\ 0x80 <= c).
Proof.
  intros r p0 it Hc Ha source. unfold get_comment.
  assert (B2 : S (blen (p0 ++ [0x2F])) = blen (p0 ++ [0x2F; 0x2A])).
  { rewrite !blen_app. cbn [blen]. change (len_utf8 0x2F) with 1%nat. change (len_utf8 0x2A) with 1%nat. lia. }
  (* [pre] is read before the text [t], of which [x] is left to the loop *)
  assert (FIN : forall lic prev st pre t x it1,
     source = pre ++ t -> (2 <= blen pre)%nat ->
     (t = x \/ exists c, t = c :: x) ->
     (prev = Star <-> st = true) -> has_comment_end (starred st x) = false ->
     (forall y, t = y ++ x -> at_ it1 (pre ++ y) x) ->
     (exists pos it', (let! (cur, it2) := comment_loop (S (left_over it1)) it1 prev (blen pre) in
        let! last := usub (blen source) 1 in
        let cur' := Nat.min cur last in
        let! s := oslice (slice source (blen pre) (S cur')) in
        Ok (if lic : bool then TLicense s else TComment s, (cur' + 2)%nat, it2))
       = Ok (if lic then TLicense t else TComment t, pos, it')
       /\ (blen source <= S pos)%nat /\ at_ it' source []
       /\ (t = [] \/ exists x c, t = x ++ [c] /\ c < 0x80))
     \/ ((let! (cur, it2) := comment_loop (S (left_over it1)) it1 prev (blen pre) in
        let! last := usub (blen source) 1 in
        let cur' := Nat.min cur last in
        let! s := oslice (slice source (blen pre) (S cur')) in
        Ok (if lic then TLicense s else TComment s, (cur' + 2)%nat, it2)) = Panic
        /\ exists x c, t = x ++ [c] /\ 0x80 <= c)).
  { intros lic prev st pre t x it1 Es Bp Et Hp Hx Hat.
    assert (Hy : exists y, t = y ++ x).
    { destruct Et as [->|(c & ->)]; [exists []; reflexivity|exists [c]; reflexivity]. }
    destruct Hy as (y & Ey). specialize (Hat y Ey).
    destruct (comment_loop_open x st prev (S (left_over it1)) (pre ++ y) it1 (blen pre) Hp Hx Hat) as (it2 & -> & Ha2).
    { rewrite (at_left _ _ _ _ Hat). lia. }
    rewrite <- app_assoc, <- Ey, <- Es in Ha2.
    cbn [obind].
    assert (CUR : (match x with [] => blen pre | _ => blen ((pre ++ y) ++ removelast x) end)
       = blen (pre ++ removelast t)).
    { destruct Et as [E|(c & E)].
      - subst t. replace y with (@nil N) in *. 2:{ apply (app_inv_tail x). exact Ey. }
        rewrite app_nil_r. destruct x; [cbn; rewrite app_nil_r; reflexivity|reflexivity].
      - assert (y = [c]). { apply (app_inv_tail x). rewrite <- Ey, E. reflexivity. } subst y t.
        destruct x as [|d x]; [cbn; rewrite app_nil_r; reflexivity|].
        change (removelast (c :: d :: x)) with (c :: removelast (d :: x)). norm. reflexivity. }
    rewrite CUR. clear CUR.
    unfold usub. replace (Nat.leb 1 (blen source)) with true.
    2:{ symmetry. apply Nat.leb_le. rewrite Es, blen_app. lia. }
    cbn [obind]. cbv zeta.
    destruct t as [|t0 t1] using rev_ind.
    - cbn [removelast]. rewrite app_nil_r in *. subst source. rewrite Es.
      replace (Nat.min (blen pre) (blen pre - 1)) with (blen pre - 1)%nat by lia.
      replace (S (blen pre - 1)) with (blen pre + blen [])%nat by (cbn; lia).
      rewrite (slice_of pre pre [] []) by (rewrite !app_nil_r; reflexivity). cbn [obind].
      left. eexists _, it2. split; [reflexivity|]. split; [lia|]. split; [rewrite <- Es; exact Ha2|auto].
    - clear IHt1. rewrite removelast_last.
      assert (BS : blen source = (blen (pre ++ t1) + len_utf8 t0)%nat).
      { rewrite Es, !blen_app. cbn. lia. }
      pose proof (len_utf8_pos t0) as LP.
      rewrite Nat.min_l by lia.
      destruct (N.ltb_spec t0 0x80) as [C|C].
      + assert (L1 : len_utf8 t0 = 1%nat). { unfold len_utf8. replace (t0 <? 0x80) with true by lia. reflexivity. }
        replace (S (blen (pre ++ t1))) with (blen pre + blen (t1 ++ [t0]))%nat.
        2:{ rewrite !blen_app. cbn. lia. }
        rewrite (slice_of source pre (t1 ++ [t0]) []) by (rewrite app_nil_r; exact Es). cbn [obind].
        left. eexists _, it2. split; [reflexivity|]. split; [lia|]. split; [exact Ha2|].
        right. exists t1, t0. auto.
      + assert (L2 : (2 <= len_utf8 t0)%nat).
        { unfold len_utf8. replace (t0 <? 0x80) with false by lia. destruct (t0 <? 0x800); [lia|]. destruct (t0 <? 0x10000); lia. }
        right. split; [|exists t1, t0; auto].
        destruct (slice source (blen pre) (S (blen (pre ++ t1)))) as [z|] eqn:Sl; [exfalso|reflexivity].
        apply slice_inv in Sl. destruct Sl as (p & q & Ep & Lp & Lz).
        apply (no_boundary (pre ++ t1) t0 [] (p ++ z) q).
        * rewrite <- !app_assoc. rewrite <- Es. exact Ep.
        * rewrite (blen_app p z). lia.
        * rewrite (blen_app p z). lia. }
  destruct r as [|c r].
  - rewrite (next_at_nil _ _ _ Ha). cbn [marked unmarked]. rewrite B2.
    apply (FIN false Quote false (p0 ++ [0x2F; 0x2A]) [] [] it).
    + unfold source. norm. reflexivity.
    + rewrite blen_app. cbn [blen]. change (len_utf8 0x2F) with 1%nat. change (len_utf8 0x2A) with 1%nat. lia.
    + auto.
    + split; discriminate.
    + reflexivity.
    + intros y E. destruct y; [|discriminate]. rewrite app_nil_r. exact Ha.
  - destruct (next_at _ _ _ _ _ Ha) as (it1 & -> & Ha1). unfold unmarked. cbn [marked tl].
    destruct (c =? 0x21) eqn:C.
    + apply N.eqb_eq in C. subst c.
      rewrite B2, (blen_S _ 0x21 eq_refl).
      apply (FIN true Quote false ((p0 ++ [0x2F; 0x2A]) ++ [0x21]) r r it1).
      * unfold source. norm. reflexivity.
      * rewrite !blen_app. cbn [blen]. change (len_utf8 0x2F) with 1%nat. change (len_utf8 0x2A) with 1%nat. lia.
      * auto.
      * split; discriminate.
      * cbn [starred]. exact (has_end_tail _ _ Hc).
      * intros y E. replace y with (@nil N) by (apply (app_inv_tail r); exact E). rewrite app_nil_r. exact Ha1.
    + rewrite B2.
      apply (FIN false _ (c =? 0x2A) (p0 ++ [0x2F; 0x2A]) (c :: r) r it1).
      * unfold source. norm. reflexivity.
      * rewrite !blen_app. cbn [blen]. change (len_utf8 0x2F) with 1%nat. change (len_utf8 0x2A) with 1%nat. lia.
      * right. exists c. reflexivity.
      * rewrite N.eqb_eq. split.
        -- destruct (rchar_of c) as [k|] eqn:R; [|discriminate]. intros ->.
           apply rchar_of_sound in R. destruct R as [<-|[_ R]]; [reflexivity|discriminate].
        -- intros ->. reflexivity.
      * destruct (c =? 0x2A) eqn:S; cbn [starred].
        -- apply N.eqb_eq in S. subst c. exact Hc.
        -- exact (has_end_tail _ _ Hc).
      * intros y E. replace y with [c]; [exact Ha1|]. apply (app_inv_tail r). rewrite <- E. reflexivity.
Qed.

Lemma unclosed_comment : forall s v w r, reads [] [] s v w (0x2F :: 0x2A :: r) ->
  has_comment_end r = false ->
  (tokenize s = Ok (rev ((if marked r then TLicense (unmarked r) else TComment (unmarked r)) :: flush w v))
   /\ (unmarked r = [] \/ exists x c, unmarked r = x ++ [c] /\ c < 0x80))
  \/ (tokenize s = Panic /\ exists x c, unmarked r = x ++ [c] /\ 0x80 <= c).
Proof.
  intros s v w r H Hc. unfold tokenize.
  destruct (reads_loop _ _ _ _ _ _ H _ _ _ _ (stands_new s)) as (n & p0 & it & E & (Hs & Ha & Hst & Hn)).
  change (blen []) with 0%nat in E. rewrite E. clear E H.
  pose proof (settled_apart _ _ _ Hst) as A.
  cbn [length] in Hn. destruct n as [|[|[|n]]]; [lia|lia|lia|].
  destruct (slash_pushed (S (S n)) s v p0 w 0x2A r it Hs Ha A eq_refl) as (it2 & Ha2 & ->).
  destruct (step_reserved true (S n) s (TOperation Divide :: flush w v) (p0 ++ w ++ [0x2F]) [] 0x2A Star
    r it2) as (it3 & Ha3 & ->); [| |reflexivity|discriminate|].
  { subst s. norm. reflexivity. }
  { rewrite app_nil_r. exact Ha2. }
  cbn [flush]. rewrite app_nil_r in *. cbn [app] in Ha3.
  assert (E : reserved_step s (TOperation Divide :: flush w v) (blen (p0 ++ w ++ [0x2F])) Star it3
     = let! (t, pos', it') := get_comment s it3 (blen (p0 ++ w ++ [0x2F])) in Ok (t :: flush w v, pos', it'))
    by reflexivity.
  rewrite E. clear E. norm_in Ha3.
  pose proof (get_comment_open r (p0 ++ w) it3 Hc) as G. norm_in G. specialize (G Ha3). cbv zeta in G.
  rewrite <- Hs in G.
  destruct G as [(pos & it4 & -> & L & Ha4 & C)|[-> C]].
  - left. split; [|exact C]. cbn [obind tokenize_loop]. rewrite (next_at_nil _ _ _ Ha4).
    unfold fill_other. replace (Nat.ltb (S pos) (blen s)) with false by (symmetry; apply Nat.ltb_ge; exact L).
    reflexivity.
  - right. split; [reflexivity|exact C].
Qed.
