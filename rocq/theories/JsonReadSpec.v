(** Specification of the streaming reader, by what the source delivers and how kept
    characters are cut into the caller's buffers. *)
From Coq Require Import Arith List NArith Bool.
From Verif Require Import Base JsonModel JsonReadModel.
Import ListNotations.
Open Scope N_scope.

(** What a source effectively yields when it is asked for [n] bytes at a time and the
    first answer of less than [n] bytes is taken for the end: the bytes, and the error
    that ends them, if any. *)
Fixpoint delivered (n : nat) (src : source) : list N * option N :=
  match src with
  | [] => ([], None)
  | PErr k :: _ => ([], Some k)
  | PData bs :: r =>
      match bs with
      | [] => ([], None)
      | _ => if Nat.eqb (Nat.modulo (length bs) n) 0
             then let (o, e) := delivered n r in (bs ++ o, e)
             else (bs, None)
      end
  end.

(** [bs] is the encoding of the scalar values [cs] followed by [rest], which is empty or
    does not start with the encoding of any scalar value. *)
Definition decodes (bs : list N) (cs : str) (rest : list N) : Prop :=
  bs = encode cs ++ rest /\ Forall (fun c => is_scalar c = true) cs /\
  (forall c t, is_scalar c = true -> rest <> encode_char c ++ t).

(** The characters of [s] kept by the minifier when [next] follows [s]. *)
Fixpoint kept (m : minifier) (s : str) (next : option N) : str :=
  match s with
  | [] => []
  | c :: r =>
      let (k, m') := keep_element m c (match r with [] => next | d :: _ => Some d end) in
      if k then c :: kept m' r next else kept m' r next
  end.

(** Packing whole characters into a buffer of [n] bytes; a character that does not fit is
    cut and its remaining bytes are dropped.  The bytes and the characters left. *)
Fixpoint fill (n : nat) (k : str) : list N * str :=
  match k with
  | [] => ([], [])
  | c :: r =>
      if Nat.ltb (len_utf8 c) n
      then let (o, k') := fill (n - len_utf8 c) r in (encode_char c ++ o, k')
      else (firstn n (encode_char c), r)
  end.

(** The results of a sequence of reads when the kept characters are [k]; [broken] tells
    that the stream ends with an error, which is reported by the first call that cannot
    fill its buffer. *)
Fixpoint spec_reads (k : str) (broken : bool) (sizes : list nat) : list read_result :=
  match sizes with
  | [] => []
  | O :: r => ROk [] :: spec_reads k broken r
  | n :: r =>
      let (o, k') := fill n k in
      if broken && Nat.ltb (length o) n
      then RErr EInvalidData :: spec_reads [] false r
      else ROk o :: spec_reads k' broken r
  end.

(** Cutting a byte string at the buffer sizes. *)
Fixpoint cut (bs : list N) (sizes : list nat) : list (list N) :=
  match sizes with
  | [] => []
  | n :: r => firstn n bs :: cut (skipn n bs) r
  end.

(** The bytes obtained by a sequence of successful reads. *)
Fixpoint collected (rs : list read_result) : list N :=
  match rs with
  | ROk bs :: r => bs ++ collected r
  | _ => []
  end.

(** No kept character straddles the end of a buffer: each buffer is filled by whole
    characters, or holds everything that is left. *)
Inductive aligned : str -> list nat -> Prop :=
| al_nil : forall k, aligned k []
| al_fit : forall p k n r, blen p = n -> aligned k r -> aligned (p ++ k) (n :: r)
| al_last : forall k n r, (blen k < n)%nat -> aligned [] r -> aligned k (n :: r).
