(** Characters, strings, byte offsets, outcomes: the vocabulary shared by all
    the models.  A Rust [char] is a Unicode scalar value, represented by [N];
    a Rust [&str] is the list of its scalar values. *)
From Coq Require Import String Ascii Arith List NArith Bool Lia.
Import ListNotations.
Open Scope N_scope.

Definition char := N.
Definition str := list N.

(** Well-formed scalar values (Rust guarantees it for every [char]). *)
Definition is_scalar (c : N) : bool :=
  (c <? 0xD800) || ((0xE000 <=? c) && (c <? 0x110000)).

(** [char::len_utf8] of the standard library. *)
Definition len_utf8 (c : N) : nat :=
  if c <? 0x80 then 1%nat
  else if c <? 0x800 then 2%nat
  else if c <? 0x10000 then 3%nat
  else 4%nat.

(** [str::len]: length in bytes. *)
Fixpoint blen (s : str) : nat :=
  match s with
  | [] => 0%nat
  | c :: r => (len_utf8 c + blen r)%nat
  end.

(** [char::is_ascii_control] of the standard library. *)
Definition is_ascii_control (c : N) : bool := (c <? 0x20) || (c =? 0x7F).

(** [char::is_whitespace] of the standard library: Unicode White_Space. *)
Definition is_whitespace (c : N) : bool :=
  ((0x9 <=? c) && (c <=? 0xD)) || (c =? 0x20) || (c =? 0x85) || (c =? 0xA0)
  || (c =? 0x1680) || ((0x2000 <=? c) && (c <=? 0x200A))
  || (c =? 0x2028) || (c =? 0x2029) || (c =? 0x202F) || (c =? 0x205F)
  || (c =? 0x3000).

(** Equality on strings. *)
Fixpoint str_eqb (a b : str) : bool :=
  match a, b with
  | [], [] => true
  | x :: a', y :: b' => (x =? y) && str_eqb a' b'
  | _, _ => false
  end.

Lemma str_eqb_eq : forall a b, str_eqb a b = true <-> a = b.
Proof.
  induction a as [|x a IH]; intros [|y b]; cbn; split; intro H;
    try reflexivity; try discriminate.
  - apply andb_true_iff in H. destruct H as [H1 H2].
    apply N.eqb_eq in H1. apply IH in H2. congruence.
  - injection H as -> ->. rewrite N.eqb_refl. apply IH. reflexivity.
Qed.

Lemma str_eqb_refl : forall a, str_eqb a a = true.
Proof. intro a. apply str_eqb_eq. reflexivity. Qed.

Lemma str_eqb_neq : forall a b, str_eqb a b = false <-> a <> b.
Proof.
  intros a b. split; intro H.
  - intros ->. rewrite str_eqb_refl in H. discriminate.
  - destruct (str_eqb a b) eqn:E; [|reflexivity].
    apply str_eqb_eq in E. contradiction.
Qed.

Definition str_eq_dec (a b : str) : {a = b} + {a <> b} := list_eq_dec N.eq_dec a b.

(** ASCII literals for names, messages and examples. *)
Fixpoint S_ (s : string) : str :=
  match s with
  | EmptyString => []
  | String a r => N_of_ascii a :: S_ r
  end.

(** Drop [n] bytes from the front; [None] when [n] is past the end or not on a
    character boundary. *)
Fixpoint bdrop (n : nat) (s : str) {struct s} : option str :=
  match n with
  | O => Some s
  | _ => match s with
         | [] => None
         | c :: r => if Nat.leb (len_utf8 c) n then bdrop (n - len_utf8 c) r else None
         end
  end.

(** Keep the first [n] bytes; [None] as for [bdrop]. *)
Fixpoint btake (n : nat) (s : str) {struct s} : option str :=
  match n with
  | O => Some []
  | _ => match s with
         | [] => None
         | c :: r => if Nat.leb (len_utf8 c) n
                     then option_map (cons c) (btake (n - len_utf8 c) r)
                     else None
         end
  end.

(** [&s[a..b]]: [None] is the panic of the standard library (start after end,
    end out of range, or an offset inside a character). *)
Definition slice (s : str) (a b : nat) : option str :=
  if Nat.leb a b then
    match bdrop a s with
    | Some r => btake (b - a) r
    | None => None
    end
  else None.

(** [&s[a..]] *)
Definition slice_from (s : str) (a : nat) : option str := bdrop a s.

(** Outcome of a computation. *)
Inductive outcome (A : Type) :=
| Ok (a : A)
| Err (msg : str)
| Panic
| OutOfFuel.
Arguments Ok {A}. Arguments Err {A}. Arguments Panic {A}. Arguments OutOfFuel {A}.

Definition obind {A B} (x : outcome A) (f : A -> outcome B) : outcome B :=
  match x with
  | Ok a => f a
  | Err m => Err m
  | Panic => Panic
  | OutOfFuel => OutOfFuel
  end.

Definition oslice {A} (x : option A) : outcome A :=
  match x with Some a => Ok a | None => Panic end.

Notation "'let!' x ':=' e 'in' f" := (obind e (fun x => f))
  (at level 200, x pattern, e at level 100, f at level 200).

(** ** Byte lengths and slices *)

Lemma len_utf8_pos : forall c, (1 <= len_utf8 c)%nat.
Proof.
  intro c. unfold len_utf8.
  destruct (c <? 0x80); [lia|]. destruct (c <? 0x800); [lia|].
  destruct (c <? 0x10000); lia.
Qed.

Lemma len_utf8_le4 : forall c, (len_utf8 c <= 4)%nat.
Proof.
  intro c. unfold len_utf8.
  destruct (c <? 0x80); [lia|]. destruct (c <? 0x800); [lia|].
  destruct (c <? 0x10000); lia.
Qed.

Lemma blen_app : forall a b, blen (a ++ b) = (blen a + blen b)%nat.
Proof. induction a as [|c a IH]; intro b; cbn [app blen]; [reflexivity|]. rewrite IH. lia. Qed.

Lemma blen_nil_iff : forall s, blen s = 0%nat <-> s = [].
Proof.
  intros [|c s]; cbn [blen]; split; intro H; try reflexivity; try discriminate.
  pose proof (len_utf8_pos c). lia.
Qed.

Lemma bdrop_0 : forall s, bdrop 0 s = Some s.
Proof. intros [|c s]; reflexivity. Qed.

Lemma btake_0 : forall s, btake 0 s = Some [].
Proof. intros [|c s]; reflexivity. Qed.

Lemma bdrop_app : forall a b, bdrop (blen a) (a ++ b) = Some b.
Proof.
  induction a as [|c a IH]; intro b.
  - apply bdrop_0.
  - cbn [app blen bdrop].
    destruct (len_utf8 c + blen a)%nat eqn:E.
    { pose proof (len_utf8_pos c). lia. }
    rewrite <- E. replace (Nat.leb (len_utf8 c) (len_utf8 c + blen a)) with true
      by (symmetry; apply Nat.leb_le; lia).
    replace (len_utf8 c + blen a - len_utf8 c)%nat with (blen a) by lia. apply IH.
Qed.

Lemma btake_app : forall a b, btake (blen a) (a ++ b) = Some a.
Proof.
  induction a as [|c a IH]; intro b.
  - apply btake_0.
  - cbn [app blen btake].
    destruct (len_utf8 c + blen a)%nat eqn:E.
    { pose proof (len_utf8_pos c). lia. }
    rewrite <- E. replace (Nat.leb (len_utf8 c) (len_utf8 c + blen a)) with true
      by (symmetry; apply Nat.leb_le; lia).
    replace (len_utf8 c + blen a - len_utf8 c)%nat with (blen a) by lia.
    rewrite IH. reflexivity.
Qed.

(** The slice between two known cut points. *)
Lemma slice_mid : forall a b c,
  slice (a ++ b ++ c) (blen a) (blen a + blen b) = Some b.
Proof.
  intros a b c. unfold slice.
  replace (Nat.leb (blen a) (blen a + blen b)) with true
    by (symmetry; apply Nat.leb_le; lia).
  rewrite bdrop_app. replace (blen a + blen b - blen a)%nat with (blen b) by lia.
  apply btake_app.
Qed.

Lemma slice_mid_eq : forall s a b c i j,
  s = a ++ b ++ c -> i = blen a -> j = (blen a + blen b)%nat -> slice s i j = Some b.
Proof. intros; subst. apply slice_mid. Qed.

Lemma bdrop_inv : forall s n r,
  bdrop n s = Some r -> exists p, s = p ++ r /\ blen p = n.
Proof.
  induction s as [|c s IH]; intros n r H.
  - destruct n; cbn in H; [|discriminate]. injection H as <-. exists []. auto.
  - destruct n as [|n].
    + cbn in H. injection H as <-. exists []. auto.
    + cbn [bdrop] in H. destruct (Nat.leb (len_utf8 c) (S n)) eqn:E; [|discriminate].
      apply Nat.leb_le in E. apply IH in H. destruct H as (p & -> & Hp).
      exists (c :: p). cbn [app blen]. split; [reflexivity|]. lia.
Qed.

Lemma btake_inv : forall s n r,
  btake n s = Some r -> exists q, s = r ++ q /\ blen r = n.
Proof.
  induction s as [|c s IH]; intros n r H.
  - destruct n; cbn in H; [|discriminate]. injection H as <-. exists []. auto.
  - destruct n as [|n].
    + cbn in H. injection H as <-. exists (c :: s). auto.
    + cbn [btake] in H. destruct (Nat.leb (len_utf8 c) (S n)) eqn:E; [|discriminate].
      apply Nat.leb_le in E.
      destruct (btake (S n - len_utf8 c) s) eqn:E2; cbn in H; [|discriminate].
      injection H as <-. apply IH in E2. destruct E2 as (q & -> & Hp).
      exists q. cbn [app blen]. split; [reflexivity|]. lia.
Qed.

Lemma slice_inv : forall s i j r,
  slice s i j = Some r ->
  exists p q, s = p ++ r ++ q /\ blen p = i /\ (blen p + blen r = j)%nat.
Proof.
  intros s i j r H. unfold slice in H.
  destruct (Nat.leb i j) eqn:E; [|discriminate]. apply Nat.leb_le in E.
  destruct (bdrop i s) as [t|] eqn:E2; [|discriminate].
  apply bdrop_inv in E2. destruct E2 as (p & -> & Hp).
  apply btake_inv in H. destruct H as (q & -> & Hq).
  exists p, q. repeat split; auto. lia.
Qed.

(** Two ways of cutting a string at the same byte offset agree. *)
Lemma app_blen_inj : forall a a' b b',
  a ++ b = a' ++ b' -> blen a = blen a' -> a = a' /\ b = b'.
Proof.
  induction a as [|c a IH]; intros [|c' a'] b b' H L; cbn [app] in H; cbn [blen] in L.
  - auto.
  - pose proof (len_utf8_pos c'). lia.
  - pose proof (len_utf8_pos c). lia.
  - injection H as <- H. destruct (IH a' b b' H) as [-> ->]; [lia|]. auto.
Qed.

(** ** UTF-8 encoding

    [char::encode_utf8] / [to_string().into_bytes()] of the standard library. *)
Definition encode_char (c : N) : list N :=
  if c <? 0x80 then [c]
  else if c <? 0x800 then [0xC0 + c / 64; 0x80 + c mod 64]
  else if c <? 0x10000 then [0xE0 + c / 4096; 0x80 + (c / 64) mod 64; 0x80 + c mod 64]
  else [0xF0 + c / 262144; 0x80 + (c / 4096) mod 64; 0x80 + (c / 64) mod 64; 0x80 + c mod 64].

Fixpoint encode (s : str) : list N :=
  match s with
  | [] => []
  | c :: r => encode_char c ++ encode r
  end.

Lemma encode_char_length : forall c, length (encode_char c) = len_utf8 c.
Proof.
  intro c. unfold encode_char, len_utf8.
  destruct (c <? 0x80); [reflexivity|]. destruct (c <? 0x800); [reflexivity|].
  destruct (c <? 0x10000); reflexivity.
Qed.

Lemma encode_app : forall a b, encode (a ++ b) = encode a ++ encode b.
Proof.
  induction a as [|c a IH]; intro b; cbn [app encode]; [reflexivity|].
  rewrite IH, app_assoc. reflexivity.
Qed.

Lemma encode_length : forall s, length (encode s) = blen s.
Proof.
  induction s as [|c s IH]; cbn [encode blen]; [reflexivity|].
  rewrite app_length, encode_char_length, IH. reflexivity.
Qed.

Lemma encode_concat : forall l, encode (concat l) = concat (map encode l).
Proof.
  induction l as [|x l IH]; cbn [concat map encode]; [reflexivity|].
  rewrite encode_app, IH. reflexivity.
Qed.

Lemma encode_chars : forall s, concat (map encode_char s) = encode s.
Proof. induction s as [|c s IH]; cbn [map concat encode]; [reflexivity|]. rewrite IH. reflexivity. Qed.

(** ** Writers

    A writer is described by its answers to the successive [write_all] calls:
    [None] accepts the whole chunk, [Some k] accepts [k] bytes of it (all of
    it when the chunk is shorter) and reports an error.  After the list is
    exhausted everything is accepted. *)
Definition writer := list (option nat).

(** [for t in .. { write!(w, "{t}")?; } Ok(())]: what the writer holds at the
    end, and whether the loop succeeded.
    (src/json/string.rs 76-81; src/css/token.rs 683-702; src/js/token.rs 1023-1047) *)
Fixpoint write_chunks {A} (chunks : list (list A)) (w : writer) : list A * bool :=
  match chunks with
  | [] => ([], true)
  | ch :: r =>
      match w with
      | [] => let (o, b) := write_chunks r [] in (ch ++ o, b)
      | None :: w' => let (o, b) := write_chunks r w' in (ch ++ o, b)
      | Some k :: _ => (firstn k ch, false)
      end
  end.

Lemma write_chunks_ok : forall A (chunks : list (list A)) w o,
  write_chunks chunks w = (o, true) -> o = concat chunks.
Proof.
  intros A chunks; induction chunks as [|ch r IH]; intros w o H; cbn in *.
  - congruence.
  - destruct w as [|[k|] w'].
    + destruct (write_chunks r []) as [o' b] eqn:E. injection H as <- ->.
      f_equal. eapply IH; eauto.
    + discriminate.
    + destruct (write_chunks r w') as [o' b] eqn:E. injection H as <- ->.
      f_equal. eapply IH; eauto.
Qed.

Lemma write_chunks_all_accept : forall A (chunks : list (list A)) w,
  Forall (fun x => x = None) w -> write_chunks chunks w = (concat chunks, true).
Proof.
  intros A chunks; induction chunks as [|ch r IH]; intros w H; cbn; [reflexivity|].
  destruct w as [|x w'].
  - rewrite IH; auto.
  - inversion H; subst. rewrite IH; auto.
Qed.

Lemma write_chunks_prefix : forall A (chunks : list (list A)) w o b,
  write_chunks chunks w = (o, b) -> exists q, concat chunks = o ++ q.
Proof.
  intros A chunks; induction chunks as [|ch r IH]; intros w o b H; cbn in *.
  - injection H as <- <-. exists []. reflexivity.
  - destruct w as [|[k|] w'].
    + destruct (write_chunks r []) as [o' b'] eqn:E. injection H as <- <-.
      destruct (IH _ _ _ E) as [q ->]. exists q. rewrite app_assoc. reflexivity.
    + injection H as <- <-. exists (skipn k ch ++ concat r).
      rewrite app_assoc, firstn_skipn. reflexivity.
    + destruct (write_chunks r w') as [o' b'] eqn:E. injection H as <- <-.
      destruct (IH _ _ _ E) as [q ->]. exists q. rewrite app_assoc. reflexivity.
Qed.
