(** UTF-8 as seen by src/json/read/byte_to_char.rs: the width table, the standard
    library's validation of one sequence, and their agreement with [encode_char]. *)
From Coq Require Import Arith List NArith ZArith Bool Lia ZifyBool ZifyN.
From Verif Require Import Base.
Import ListNotations.
Open Scope N_scope.

(** utf8_char_width and UTF8_CHAR_WIDTH (byte_to_char.rs 77-99). *)
Definition utf8_char_width (b : N) : nat :=
  if b <=? 0x7F then 1%nat
  else if b <=? 0xC1 then 0%nat
  else if b <=? 0xDF then 2%nat
  else if b <=? 0xEF then 3%nat
  else if b <=? 0xF4 then 4%nat
  else 0%nat.

Definition cont_byte (b : N) : bool := (0x80 <=? b) && (b <=? 0xBF).

(** [from_utf8(&buf[..width]).ok()] followed by [s.chars().next().unwrap()]
    (byte_to_char.rs 70-73), for the [width] of the first byte.  The ranges are those of
    the standard library's validation (Table 3-7 of the Unicode standard); the decoding
    masks and shifts are written with [mod] and multiplication. *)
Definition from_utf8_first (buf : list N) : option N :=
  match buf with
  | [a; b] =>
      if (0xC2 <=? a) && (a <=? 0xDF) && cont_byte b
      then Some ((a mod 32) * 64 + b mod 64) else None
  | [a; b; c] =>
      if (((a =? 0xE0) && (0xA0 <=? b) && (b <=? 0xBF))
          || ((0xE1 <=? a) && (a <=? 0xEC) && cont_byte b)
          || ((a =? 0xED) && (0x80 <=? b) && (b <=? 0x9F))
          || ((0xEE <=? a) && (a <=? 0xEF) && cont_byte b))
         && cont_byte c
      then Some ((a mod 16) * 4096 + (b mod 64) * 64 + c mod 64) else None
  | [a; b; c; d] =>
      if (((a =? 0xF0) && (0x90 <=? b) && (b <=? 0xBF))
          || ((0xF1 <=? a) && (a <=? 0xF3) && cont_byte b)
          || ((a =? 0xF4) && (0x80 <=? b) && (b <=? 0x8F)))
         && cont_byte c && cont_byte d
      then Some ((a mod 8) * 262144 + (b mod 64) * 4096 + (c mod 64) * 64 + d mod 64) else None
  | _ => None
  end.

(** ** Agreement with the encoder *)

Ltac Zify.zify_post_hook ::= Z.to_euclidean_division_equations.

Lemma mod_cont : forall y, y < 64 -> (0x80 + y) mod 64 = y.
Proof. intros. lia. Qed.

(** Base 64 digits. *)
Lemma digits2 : forall c, c = (c / 64) * 64 + c mod 64 /\ c mod 64 < 64.
Proof. intros. lia. Qed.

Lemma digits3 : forall c,
  c = (c / 4096) * 4096 + ((c / 64) mod 64) * 64 + c mod 64 /\ (c / 64) mod 64 < 64.
Proof. intros. lia. Qed.

Lemma digits4 : forall c,
  c = (c / 262144) * 262144 + ((c / 4096) mod 64) * 4096 + ((c / 64) mod 64) * 64 + c mod 64
  /\ (c / 4096) mod 64 < 64.
Proof. intros. lia. Qed.

(** The encoding of a scalar value is accepted and decoded to it. *)
Lemma encode_char_accepted : forall c, is_scalar c = true ->
  exists a r, encode_char c = a :: r /\ utf8_char_width a = S (length r) /\
    (r = [] -> a = c) /\ (r <> [] -> from_utf8_first (a :: r) = Some c).
Proof.
  intros c H. unfold is_scalar in H. unfold encode_char.
  destruct (c <? 0x80) eqn:E1.
  - exists c, []. split; [reflexivity|]. split; [|split; [auto|congruence]].
    unfold utf8_char_width. replace (c <=? 0x7F) with true by lia. reflexivity.
  - destruct (c <? 0x800) eqn:E2; [|destruct (c <? 0x10000) eqn:E3].
    + destruct (digits2 c) as [D1 D2].
      remember (c / 64) as x. remember (c mod 64) as y. clear Heqx Heqy.
      exists (0xC0 + x), [0x80 + y]. split; [reflexivity|].
      split; [|split; [discriminate|]].
      * unfold utf8_char_width. cbn [length].
        replace (0xC0 + x <=? 0x7F) with false by lia.
        replace (0xC0 + x <=? 0xC1) with false by lia.
        replace (0xC0 + x <=? 0xDF) with true by lia. reflexivity.
      * intros _. cbn [from_utf8_first]. unfold cont_byte.
        replace ((0xC2 <=? 0xC0 + x) && (0xC0 + x <=? 0xDF) &&
          ((0x80 <=? 0x80 + y) && (0x80 + y <=? 0xBF))) with true by lia.
        rewrite mod_cont by lia. f_equal. replace ((0xC0 + x) mod 32) with x by lia. lia.
    + destruct (digits2 c) as [_ D2]. destruct (digits3 c) as [D1 D3].
      remember (c / 4096) as x. remember ((c / 64) mod 64) as y. remember (c mod 64) as z.
      clear Heqx Heqy Heqz.
      exists (0xE0 + x), [0x80 + y; 0x80 + z]. split; [reflexivity|].
      split; [|split; [discriminate|]].
      * unfold utf8_char_width. cbn [length].
        replace (0xE0 + x <=? 0x7F) with false by lia.
        replace (0xE0 + x <=? 0xC1) with false by lia.
        replace (0xE0 + x <=? 0xDF) with false by lia.
        replace (0xE0 + x <=? 0xEF) with true by lia. reflexivity.
      * intros _. cbn [from_utf8_first]. unfold cont_byte.
        match goal with |- (if ?b then _ else _) = _ => replace b with true by lia end.
        rewrite !mod_cont by lia. f_equal. replace ((0xE0 + x) mod 16) with x by lia. lia.
    + destruct (digits2 c) as [_ D2]. destruct (digits3 c) as [_ D3]. destruct (digits4 c) as [D1 D4].
      remember (c / 262144) as w. remember ((c / 4096) mod 64) as x.
      remember ((c / 64) mod 64) as y. remember (c mod 64) as z.
      clear Heqw Heqx Heqy Heqz.
      exists (0xF0 + w), [0x80 + x; 0x80 + y; 0x80 + z]. split; [reflexivity|].
      split; [|split; [discriminate|]].
      * unfold utf8_char_width. cbn [length].
        replace (0xF0 + w <=? 0x7F) with false by lia.
        replace (0xF0 + w <=? 0xC1) with false by lia.
        replace (0xF0 + w <=? 0xDF) with false by lia.
        replace (0xF0 + w <=? 0xEF) with false by lia.
        replace (0xF0 + w <=? 0xF4) with true by lia. reflexivity.
      * intros _. cbn [from_utf8_first]. unfold cont_byte.
        match goal with |- (if ?b then _ else _) = _ => replace b with true by lia end.
        rewrite !mod_cont by lia. f_equal. replace ((0xF0 + w) mod 8) with w by lia. lia.
Qed.

(** Conversely every accepted sequence is the encoding of a scalar value. *)
Lemma from_utf8_first_encode : forall buf c,
  from_utf8_first buf = Some c -> is_scalar c = true /\ encode_char c = buf.
Proof.
  intros buf c H. destruct buf as [|a [|b [|d [|e [|]]]]]; try discriminate H; cbn [from_utf8_first] in H;
    unfold cont_byte in H;
    match goal with H : (if ?b then _ else _) = _ |- _ => destruct b eqn:E; [|discriminate H] end;
    injection H as H.
  - assert (exists x y, a = 0xC0 + x /\ b = 0x80 + y) as (x & y & -> & ->)
      by (exists (a - 0xC0), (b - 0x80); lia).
    rewrite mod_cont in H by lia. replace ((0xC0 + x) mod 32) with x in H by lia.
    assert (Hx : 2 <= x < 32) by lia. assert (Hy : y < 64) by lia. clear E. subst c.
    split; [unfold is_scalar; lia|]. unfold encode_char.
    replace (x * 64 + y <? 0x80) with false by lia.
    replace (x * 64 + y <? 0x800) with true by lia.
    replace ((x * 64 + y) / 64) with x by lia. replace ((x * 64 + y) mod 64) with y by lia.
    reflexivity.
  - assert (exists x y z, a = 0xE0 + x /\ b = 0x80 + y /\ d = 0x80 + z) as (x & y & z & -> & -> & ->)
      by (exists (a - 0xE0), (b - 0x80), (d - 0x80); lia).
    rewrite !mod_cont in H by lia. replace ((0xE0 + x) mod 16) with x in H by lia.
    assert (Hx : x < 16 /\ y < 64 /\ z < 64 /\ (x = 0 -> 32 <= y) /\ (x = 13 -> y < 32)) by lia.
    clear E. subst c.
    split; [unfold is_scalar; lia|]. unfold encode_char.
    assert (D : (x * 4096 + y * 64 + z) / 64 = x * 64 + y) by lia.
    replace (x * 4096 + y * 64 + z <? 0x80) with false by lia.
    replace (x * 4096 + y * 64 + z <? 0x800) with false by lia.
    replace (x * 4096 + y * 64 + z <? 0x10000) with true by lia.
    rewrite D. replace ((x * 4096 + y * 64 + z) / 4096) with x by lia.
    replace ((x * 64 + y) mod 64) with y by lia.
    replace ((x * 4096 + y * 64 + z) mod 64) with z by lia.
    reflexivity.
  - assert (exists w x y z, a = 0xF0 + w /\ b = 0x80 + x /\ d = 0x80 + y /\ e = 0x80 + z)
      as (w & x & y & z & -> & -> & -> & ->)
      by (exists (a - 0xF0), (b - 0x80), (d - 0x80), (e - 0x80); lia).
    rewrite !mod_cont in H by lia. replace ((0xF0 + w) mod 8) with w in H by lia.
    assert (Hx : w < 5 /\ x < 64 /\ y < 64 /\ z < 64 /\ (w = 0 -> 16 <= x) /\ (w = 4 -> x < 16)) by lia.
    clear E.
    assert (Hlo : 0x10000 <= c) by lia. assert (Hhi : c < 0x110000) by lia.
    split; [unfold is_scalar; lia|]. unfold encode_char.
    replace (c <? 0x80) with false by lia.
    replace (c <? 0x800) with false by lia.
    replace (c <? 0x10000) with false by lia. subst c.
    assert (D : (w * 262144 + x * 4096 + y * 64 + z) / 64 = w * 4096 + x * 64 + y) by lia.
    assert (D2 : (w * 262144 + x * 4096 + y * 64 + z) / 4096 = w * 64 + x) by lia.
    rewrite D, D2.
    replace ((w * 262144 + x * 4096 + y * 64 + z) / 262144) with w by lia.
    replace ((w * 64 + x) mod 64) with x by lia.
    replace ((w * 4096 + x * 64 + y) mod 64) with y by lia.
    replace ((w * 262144 + x * 4096 + y * 64 + z) mod 64) with z by lia.
    reflexivity.
Qed.

Lemma width1_encode : forall a, utf8_char_width a = 1%nat -> is_scalar a = true /\ encode_char a = [a].
Proof.
  intros a H. unfold utf8_char_width in H.
  destruct (a <=? 0x7F) eqn:E1.
  - split; [unfold is_scalar; lia|]. unfold encode_char.
    replace (a <? 0x80) with true by lia. reflexivity.
  - destruct (a <=? 0xC1); [discriminate|]. destruct (a <=? 0xDF); [discriminate|].
    destruct (a <=? 0xEF); [discriminate|]. destruct (a <=? 0xF4); discriminate.
Qed.

Lemma width_le4 : forall a, (utf8_char_width a <= 4)%nat.
Proof.
  intro a. unfold utf8_char_width.
  destruct (a <=? 0x7F); [lia|]. destruct (a <=? 0xC1); [lia|].
  destruct (a <=? 0xDF); [lia|]. destruct (a <=? 0xEF); [lia|]. destruct (a <=? 0xF4); lia.
Qed.

Ltac Zify.zify_post_hook ::= idtac.
