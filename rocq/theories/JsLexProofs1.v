(** Termination of the tokenizer and its only error. *)
From Coq Require Import String List NArith ZArith Bool Lia ZifyBool ZifyN Arith.
From Verif Require Import Base JsModel JsUtilModel JsUtilSpec JsUtilProofs JsLexSpec.
Import ListNotations.
Open Scope N_scope.

Definition idle (it : peekable) : Prop := is_saving it = false.

Lemma next_idle : forall it, idle it ->
  match next it with
  | (None, it') => idle it' /\ left_over it' = left_over it
  | (Some _, it') => idle it' /\ S (left_over it') = left_over it
  end.
Proof.
  intros it H. unfold idle, next, left_over in *. destruct (peeked it) as [p|] eqn:P.
  - cbn. split; [exact H|]. lia.
  - rewrite H. cbn [negb]. destruct (saved it) as [|q l] eqn:S.
    + unfold inner_next. destruct (irest it) as [|c r] eqn:R; cbn; rewrite ?P, ?S, ?R; cbn; split; auto.
    + cbn. rewrite P. split; [exact H|]. lia.
Qed.

Lemma peek_idle : forall it, idle it -> idle (snd (peek it)) /\ left_over (snd (peek it)) = left_over it.
Proof.
  intros it H. unfold idle, peek, left_over in *. destruct (peeked it) as [p|] eqn:P; [cbn; rewrite P; auto|].
  unfold inner_next. destruct (irest it) as [|c r] eqn:R; cbn; rewrite H; cbn; rewrite ?H, ?P, ?R; cbn; split; auto; lia.
Qed.

(** The number of characters available while saving, and the total with the saved ones. *)
Definition ahead (it : peekable) : nat :=
  (match peeked it with Some _ => 1 | None => 0 end) + length (irest it).
Definition total (it : peekable) : nat := length (saved it) + length (irest it).

Lemma next_saving : forall it, is_saving it = true ->
  match next it with
  | (None, it') => is_saving it' = true /\ total it' = total it /\ peeked it' = None
                   /\ ahead it' = ahead it
  | (Some _, it') => is_saving it' = true /\ total it' = total it /\ peeked it' = None
                     /\ S (ahead it') = ahead it
  end.
Proof.
  intros it H. unfold next, ahead, total. destruct (peeked it) as [p|] eqn:P.
  - cbn. repeat split; auto; lia.
  - rewrite H. cbn [negb]. unfold inner_next. destruct (irest it) as [|c r] eqn:R; cbn; rewrite ?P, ?R.
    + repeat split; auto; lia.
    + rewrite app_length. cbn. repeat split; auto; lia.
Qed.

Lemma peek_saving : forall it, is_saving it = true ->
  is_saving (snd (peek it)) = true /\ ahead (snd (peek it)) = ahead it.
Proof.
  intros it H. unfold peek, ahead. destruct (peeked it) as [p|] eqn:P; [cbn; rewrite P; auto|].
  unfold inner_next. destruct (irest it) as [|c r] eqn:R; cbn; rewrite H; unfold save_peeked; cbn.
  - rewrite ?P, ?R; auto.
  - repeat split; auto.
Qed.

Lemma stop_left : forall it, peeked it = None ->
  idle (stop_save it) /\ left_over (stop_save it) = total it.
Proof.
  intros it P. unfold idle, stop_save, save_peeked, left_over, total. cbn. rewrite P. cbn. split; [reflexivity|lia].
Qed.

Lemma drop_left : forall it, idle (drop_save it) /\ left_over (drop_save it) = ahead it.
Proof. intro it. split; reflexivity. Qed.

Lemma start_left : forall it, is_saving (start_save it) = true
  /\ total (start_save it) = left_over it /\ (ahead (start_save it) <= left_over it)%nat
  /\ (ahead (start_save it) <= left_over (start_save it))%nat.
Proof.
  intro it. unfold start_save, save_peeked, total, ahead, left_over. cbn.
  destruct (peeked it) as [p|] eqn:P; cbn; rewrite ?P; cbn; rewrite ?app_length; cbn; repeat split; lia.
Qed.

(** What a terminating run looks like. *)
Definition ends {A} (o : outcome A) (P : A -> Prop) : Prop :=
  match o with
  | Ok a => P a
  | Err m => m = nesting_error
  | Panic => True
  | OutOfFuel => False
  end.

Lemma ends_slice : forall A (x : option str) (k : str -> outcome A) P,
  (forall s, ends (k s) P) -> ends (obind (oslice x) k) P.
Proof. intros A x k P H. destruct x; cbn; auto. Qed.

Lemma ends_bind : forall A B (o : outcome A) (k : A -> outcome B) P Q,
  ends o P -> (forall a, P a -> ends (k a) Q) -> ends (obind o k) Q.
Proof. intros A B o k P Q H K. destruct o; cbn in *; auto. Qed.

Definition fewer (it it' : peekable) : Prop := idle it' /\ (left_over it' <= left_over it)%nat.

Lemma fewer_trans : forall a b c, fewer a b -> fewer b c -> fewer a c.
Proof. unfold fewer. intros a b c [A B] [C D]. split; [exact C|lia]. Qed.

Lemma fewer_refl : forall a, idle a -> fewer a a.
Proof. unfold fewer. intros. split; auto. Qed.

Lemma next_fewer : forall it, idle it -> fewer it (snd (next it)).
Proof.
  intros it H. pose proof (next_idle it H) as N. destruct (next it) as [[p|] it']; cbn [snd];
    destruct N; split; auto; lia.
Qed.

Lemma line_comment_ends : forall n source it sp, idle it -> (left_over it < n)%nat ->
  ends (line_comment_loop n source it sp) (fun r => fewer it (snd r)).
Proof.
  induction n as [|n IH]; intros source it sp H L; [lia|]. cbn [line_comment_loop].
  pose proof (next_idle it H) as N. destruct (next it) as [[[pos c]|] it'].
  - destruct N as [N1 N2].
    assert (R : ends (line_comment_loop n source it' sp) (fun r => fewer it (snd r))).
    { specialize (IH source it' sp N1 ltac:(lia)).
      destruct (line_comment_loop n source it' sp); cbn in *; auto. destruct IH. split; auto. lia. }
    destruct (rchar_of c) as [[]|]; try exact R. apply ends_slice. intro s. cbn. split; auto. lia.
  - cbn. destruct N. split; auto; lia.
Qed.

Lemma flags_ends : forall n it g i add, is_saving it = true -> (ahead it < n)%nat ->
  ends (flags_loop n it g i add) (fun r => is_saving (snd r) = true /\ (ahead (snd r) <= ahead it)%nat).
Proof.
  induction n as [|n IH]; intros it g i add H L; [lia|]. cbn [flags_loop].
  pose proof (peek_saving it H) as [P1 P2]. destruct (peek it) as [p it1] eqn:E. cbn [snd] in *.
  assert (HA : p <> None -> (0 < ahead it)%nat).
  { unfold peek, ahead in *. destruct (peeked it); [lia|]. unfold inner_next in E.
    destruct (irest it); [|cbn; lia]. injection E as <- _. congruence. }
  pose proof (next_saving it1 P1) as N.
  assert (R : p <> None -> forall g' i' add', ends (flags_loop n (snd (next it1)) g' i' add')
                (fun r => is_saving (snd r) = true /\ (ahead (snd r) <= ahead it)%nat)).
  { intros Hp g' i' add'. specialize (HA Hp).
    assert (M : is_saving (snd (next it1)) = true /\ (ahead (snd (next it1)) < ahead it)%nat).
    { assert (X : fst (next it1) <> None).
      { unfold next. destruct (peeked it1) eqn:Pk; [cbn; congruence|]. exfalso.
        unfold peek in E. destruct (peeked it) eqn:Pk2; [injection E as <- <-; congruence|].
        unfold inner_next in E. destruct (irest it).
        - injection E as <- _. congruence.
        - rewrite H in E. injection E as <- <-. cbn in Pk. discriminate. }
      destruct (next it1) as [[q|] it2]; cbn [fst snd] in *; [|congruence].
      destruct N as (N1 & N2 & N3 & N4). split; auto. lia. }
    destruct M as [M1 M2].
    specialize (IH (snd (next it1)) g' i' add' M1 ltac:(lia)).
    destruct (flags_loop n (snd (next it1)) g' i' add'); cbn in *; auto. destruct IH; split; auto; lia. }
  destruct p as [[pos c]|].
  - destruct (c =? 0x69); [apply R; congruence|]. destruct (c =? 0x67); [apply R; congruence|].
    cbn. split; auto; lia.
  - cbn. split; auto; lia.
Qed.

Lemma regex_loop_ends : forall n source it sp it0,
  is_saving it = true -> (ahead it < n)%nat -> total it = left_over it0 -> (ahead it <= left_over it0)%nat ->
  ends (regex_loop n source it sp) (fun r => fewer it0 (snd r)).
Proof.
  induction n as [|n IH]; intros source it sp it0 H L T A; [lia|]. cbn [regex_loop].
  pose proof (next_saving it H) as N. destruct (next it) as [[[pos c]|] it'];
    destruct N as (N1 & N2 & N3 & N4).
  - assert (STOP : fewer it0 (stop_save it')).
    { destruct (stop_left it' N3) as [S1 S2]. split; [exact S1|]. lia. }
    assert (REC : forall it2, is_saving it2 = true -> total it2 = total it' -> (ahead it2 <= ahead it')%nat ->
                  ends (regex_loop n source it2 sp) (fun r => fewer it0 (snd r))).
    { intros it2 A1 A2 A3. apply IH; auto; lia. }
    destruct (c =? 0x5C).
    + pose proof (next_saving it' N1) as N'. destruct (next it') as [[q|] it2]; cbn [snd];
        destruct N' as (M1 & M2 & M3 & M4); apply REC; auto; lia.
    + destruct (rchar_of c) as [[]|]; try (apply REC; auto; lia).
      * eapply ends_bind.
        { apply flags_ends; [exact N1|]. unfold left_over, ahead. lia. }
        intros [[[g i] add] it2] [F1 F2]. cbn [snd] in *. apply ends_slice. intro s. cbn.
        destruct (drop_left it2) as [D1 D2]. split; [exact D1|]. lia.
      * cbn. exact STOP.
  - cbn. destruct (stop_left it' N3) as [S1 S2]. split; [exact S1|]. lia.
Qed.

Lemma get_regex_ends : forall source it sp v, idle it ->
  ends (get_regex source it sp v) (fun r => fewer it (snd r)).
Proof.
  intros source it sp v H. unfold get_regex. destruct (regex_allowed v).
  - destruct (start_left it) as (A & B & C & D). apply regex_loop_ends; auto. lia.
  - cbn. apply fewer_refl. exact H.
Qed.

Lemma comment_loop_ends : forall n it prev cur, idle it -> (left_over it < n)%nat ->
  ends (comment_loop n it prev cur) (fun r => fewer it (snd r)).
Proof.
  induction n as [|n IH]; intros it prev cur H L; [lia|]. cbn [comment_loop].
  pose proof (next_idle it H) as N. destruct (next it) as [[[pos c]|] it'].
  - destruct N as [N1 N2].
    assert (R : forall k p, ends (comment_loop n it' k p) (fun r => fewer it (snd r))).
    { intros k p. specialize (IH it' k p N1 ltac:(lia)).
      destruct (comment_loop n it' k p); cbn in *; auto. destruct IH. split; auto. lia. }
    destruct (rchar_of c) as [k|]; [|apply R].
    destruct (rchar_eqb k Slash && rchar_eqb prev Star); [|apply R].
    unfold usub. destruct (Nat.leb 2 pos); cbn; auto. split; auto; lia.
  - cbn. destruct N. split; auto; lia.
Qed.

Lemma get_comment_ends : forall source it sp, idle it ->
  ends (get_comment source it sp) (fun r => fewer it (snd r)).
Proof.
  intros source it sp H. unfold get_comment. pose proof (next_fewer it H) as N.
  destruct (next it) as [p it1]. cbn [snd] in N. destruct N as [N1 N2].
  destruct (match p with
    | Some (_, c) =>
        if c =? 0x21 then (true, Quote, S (S sp))
        else (false, match rchar_of c with Some k => k | None => Quote end, S sp)
    | None => (false, Quote, S sp)
    end) as [[li pr] st].
  eapply ends_bind; [apply comment_loop_ends; [exact N1|lia]|].
  intros [cur it2] [F1 F2]. cbn [snd] in *.
  unfold usub. destruct (Nat.leb 1 (blen source)); cbn; auto.
  apply ends_slice. intro s. cbn. split; auto; lia.
Qed.

Lemma string_loop_ends : forall n source it sp k, idle it -> (left_over it < n)%nat ->
  ends (string_loop n source it sp k) (fun r => fewer it (snd r)).
Proof.
  induction n as [|n IH]; intros source it sp k H L; [lia|]. cbn [string_loop].
  pose proof (next_idle it H) as N. destruct (next it) as [[[pos c]|] it'].
  - destruct N as [N1 N2].
    assert (R : forall it2, fewer it' it2 -> ends (string_loop n source it2 sp k) (fun r => fewer it (snd r))).
    { intros it2 [A B]. specialize (IH source it2 sp k A ltac:(lia)).
      destruct (string_loop n source it2 sp k); cbn in *; auto. destruct IH. split; auto. lia. }
    destruct (c =? 0x5C); [apply R; apply next_fewer; exact N1|].
    destruct (rchar_of c) as [q|]; [|apply R; apply fewer_refl; exact N1].
    destruct (rchar_eqb q k); [|apply R; apply fewer_refl; exact N1].
    apply ends_slice. intro s. cbn. split; auto; lia.
  - cbn. destruct N. split; auto; lia.
Qed.

Lemma backtick_ends : forall n,
  (forall source it sp d, idle it -> (left_over it < n)%nat ->
     ends (backtick_loop n source it sp d) (fun r => fewer it (snd r)))
  /\ (forall source it d k, idle it -> (left_over it < n)%nat ->
     ends (interp_loop n source it d k) (fun r => fewer it (snd r))).
Proof.
  induction n as [|n [IHb IHi]]; split; intros source it; [lia|lia| |].
  - intros sp d H L. cbn [backtick_loop].
    pose proof (next_idle it H) as N. destruct (next it) as [[[pos c]|] it'].
    + destruct N as [N1 N2].
      assert (R : forall it2, fewer it' it2 -> ends (backtick_loop n source it2 sp d) (fun r => fewer it (snd r))).
      { intros it2 [A B]. specialize (IHb source it2 sp d A ltac:(lia)).
        destruct (backtick_loop n source it2 sp d); cbn in *; auto. destruct IHb. split; auto. lia. }
      destruct (c =? 0x5C); [apply R; apply next_fewer; exact N1|].
      destruct (c =? 0x24).
      * pose proof (peek_idle it' N1) as [P1 P2]. destruct (peek it') as [p it2]. cbn [snd] in *.
        destruct (match p with Some (_, d0) => d0 =? 0x7B | None => false end).
        -- eapply ends_bind; [apply IHi; [exact P1|lia]|].
           intros [b it3] [F1 F2]. cbn [snd] in *. destruct b.
           ++ apply R. split; [exact F1|lia].
           ++ cbn. split; auto; lia.
        -- apply R. split; [exact P1|lia].
      * destruct (c =? 0x60); [|apply R; apply fewer_refl; exact N1].
        apply ends_slice. intro s. cbn. split; auto; lia.
    + cbn. destruct N. split; auto; lia.
  - intros d k H L. cbn [interp_loop].
    pose proof (next_idle it H) as N. destruct (next it) as [[[pos c]|] it'].
    + destruct N as [N1 N2].
      assert (R : forall it2 k', fewer it' it2 -> ends (interp_loop n source it2 d k') (fun r => fewer it (snd r))).
      { intros it2 k' [A B]. specialize (IHi source it2 d k' A ltac:(lia)).
        destruct (interp_loop n source it2 d k'); cbn in *; auto. destruct IHi. split; auto. lia. }
      destruct (c =? 0x5C); [apply R; apply next_fewer; exact N1|].
      destruct ((c =? 0x22) || (c =? 0x27)).
      { eapply ends_bind; [apply string_loop_ends; [exact N1|lia]|].
        intros [[o p'] it2] F. cbn [snd] in *. apply R. exact F. }
      destruct (c =? 0x60).
      { destruct (max_backtick_nesting <=? d); [reflexivity|].
        eapply ends_bind; [apply IHb; [exact N1|lia]|].
        intros [[o p'] it2] F. cbn [snd] in *. apply R. exact F. }
      destruct (c =? 0x7B); [apply R; apply fewer_refl; exact N1|].
      destruct (c =? 0x7D); [|apply R; apply fewer_refl; exact N1].
      destruct (Z.eqb (k - 1) 0); [cbn; split; auto; lia|apply R; apply fewer_refl; exact N1].
    + cbn. destruct N. split; auto; lia.
Qed.

Lemma fill_ends : forall source v a b, ends (fill_other source v a b) (fun _ => True).
Proof.
  intros. unfold fill_other. destruct (Nat.ltb a b); [|exact I]. apply ends_slice. intro; exact I.
Qed.

Lemma check_ends : forall it a b source, idle it ->
  ends (check_if_number it a b source) (fun r => fewer it (snd r)).
Proof.
  intros it a b source H. unfold check_if_number. apply ends_slice. intro s.
  destruct (existsb (fun c => c =? 0x2E) s); [apply fewer_refl; exact H|].
  destruct (u64_of s); [apply fewer_refl; exact H|].
  pose proof (peek_idle it H) as [P1 P2]. destruct (peek it) as [p it1]. cbn [snd] in *.
  destruct p as [[q x]|]; cbn; split; auto; lia.
Qed.

Lemma dot_ends : forall source v a b c it, idle it ->
  ends (dot_step source v a b c it) (fun r => fewer it (snd r)).
Proof.
  intros source v a b c it H. unfold dot_step. destruct (rchar_eqb c Dot); [|apply fewer_refl; exact H].
  eapply ends_bind; [apply check_ends; exact H|]. intros [num it1] [F1 F2]. cbn [snd] in *.
  destruct num; [|cbn; split; auto].
  pose proof (peek_idle it1 F1) as [P1 P2]. destruct (peek it1) as [p it2]. cbn [snd] in *.
  destruct p as [[q x]|]; [|cbn; split; auto; lia].
  destruct (existsb (fun d => d =? x) after_dot); [cbn; split; auto; lia|].
  eapply ends_bind; [apply fill_ends|]. intros v1 _. cbn. split; auto; lia.
Qed.

Lemma reserved_ends : forall source v pos c it, idle it ->
  ends (reserved_step source v pos c it) (fun r => fewer it (snd r)).
Proof.
  intros source v pos c it H.
  assert (O : forall it', fewer it it' ->
     ends (match (if rchar_eqb c EqualSign then equal_sign v else None) with
           | Some t => Ok (t :: tl v, pos, it')
           | None => Ok (plain_token c :: v, pos, it')
           end) (fun r => fewer it (snd r))).
  { intros it' F. destruct (if rchar_eqb c EqualSign then equal_sign v else None); exact F. }
  unfold reserved_step. cbv zeta.
  destruct c; try (apply O; apply fewer_refl; exact H).
  - eapply ends_bind; [apply string_loop_ends; [exact H|lia]|]. intros [[o p'] it2] F. exact F.
  - eapply ends_bind; [apply string_loop_ends; [exact H|lia]|]. intros [[o p'] it2] F. exact F.
  - destruct (last_is (eq_operation Divide) v).
    { eapply ends_bind; [apply line_comment_ends; [exact H|lia]|]. intros [[o p'] it2] F. exact F. }
    pose proof (peek_idle it H) as [P1 P2]. destruct (peek it) as [p it1]. cbn [snd] in *.
    destruct (match p with
              | Some (_, d) => negb (d =? 0x2F) && negb (d =? 0x2A)
                            && negb (match first_useful v with Some t => is_other t | None => false end)
              | None => false
              end); [|apply O; split; auto; lia].
    eapply ends_bind; [apply get_regex_ends; exact P1|].
    intros [[o p'] it2] [F1 F2]. cbn [snd] in *. destruct o; cbn; split; auto; lia.
  - destruct (last_is (eq_operation Divide) v); [|apply O; apply fewer_refl; exact H].
    eapply ends_bind; [apply get_comment_ends; exact H|]. intros [[o p'] it2] F. exact F.
  - destruct (last_is (eq_char Pipe) v); [|apply O; apply fewer_refl; exact H].
    cbn. apply fewer_refl; exact H.
  - destruct (last_is (eq_char Ampersand) v); [|apply O; apply fewer_refl; exact H].
    cbn. apply fewer_refl; exact H.
  - eapply ends_bind; [apply (proj1 (backtick_ends _)); [exact H|lia]|]. intros [[o p'] it2] F. exact F.
Qed.

Lemma tokenize_loop_ends : forall n source v start it, idle it -> (left_over it < n)%nat ->
  ends (tokenize_loop n source v start it) (fun _ => True).
Proof.
  induction n as [|n IH]; intros source v start it H L; [lia|]. cbn [tokenize_loop].
  pose proof (next_idle it H) as N. destruct (next it) as [[[pos c]|] it'].
  - destruct N as [N1 N2]. destruct (rchar_of c) as [k|]; [|apply IH; [exact N1|lia]].
    eapply ends_bind; [apply dot_ends; exact N1|]. intros [o it2] [F1 F2]. cbn [snd] in *.
    destruct o as [[v1 start1]|]; [|apply IH; [exact F1|lia]].
    eapply ends_bind; [apply fill_ends|]. intros v2 _.
    eapply ends_bind; [apply reserved_ends; exact F1|]. intros [[v3 pos'] it3] [G1 G2]. cbn [snd] in *.
    apply IH; [exact G1|lia].
  - eapply ends_bind; [apply fill_ends|]. intros v1 _. exact I.
Qed.

Lemma tokenize_ends : forall s, ends (tokenize s) (fun _ => True).
Proof.
  intro s. apply tokenize_loop_ends; [reflexivity|]. unfold left_over, peekable_new. cbn. lia.
Qed.

Lemma js_minify_ends : forall s, ends (js_minify s) (fun _ => True).
Proof.
  intro s. unfold js_minify, js_minify_tokens. eapply ends_bind.
  - eapply ends_bind; [apply tokenize_ends|]. intros ts _. rewrite clean_tokens_eq.
    cbn. instantiate (1 := fun _ => True). exact I.
  - intros; exact I.
Qed.
