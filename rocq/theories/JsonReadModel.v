(** Model of src/json/read/: Buffer, InternalReader, ByteToChar, JsonRead. *)
From Coq Require Import Arith List NArith Bool Lia.
From Verif Require Import Base Utf8 JsonModel.
Import ListNotations.
Open Scope N_scope.

(** The source ([R: Read]).  Every call of its [read] asks for the same number of bytes,
    so a source is the sequence of its answers: [PData bs] hands out [bs] (in several
    reads when it does not fit), [PErr k] is an I/O error of kind [k]; when the list is
    exhausted, [read] returns [Ok(0)].  An empty [PData] is an [Ok(0)] in the middle. *)
Inductive piece := PData (bs : list N) | PErr (k : N).
Definition source := list piece.

(** [read.read(buf)] with a buffer of [n] bytes. *)
Definition src_read (n : nat) (src : source) : (list N + N) * source :=
  match src with
  | [] => (inl [], [])
  | PErr k :: r => (inr k, r)
  | PData bs :: r =>
      if Nat.leb (length bs) n then (inl bs, r)
      else (inl (firstn n bs), PData (skipn n bs) :: r)
  end.

(** struct Buffer (internal_buffer.rs 5-11). *)
Record buffer := {
  b_buffer : list N;
  b_read_pos : nat;
  b_buffer_size : nat;
  b_data_size : nat
}.

(** Buffer::new (internal_buffer.rs 14-21). *)
Definition buffer_new (size : nat) : buffer :=
  {| b_buffer := repeat 0 size; b_read_pos := 0; b_buffer_size := size; b_data_size := 0 |}.

(** Buffer::next (internal_buffer.rs 32-39). *)
Definition buffer_next (b : buffer) : option N * buffer :=
  if Nat.leb (b_data_size b) (b_read_pos b) then (None, b)
  else (nth_error (b_buffer b) (b_read_pos b),
        {| b_buffer := b_buffer b; b_read_pos := S (b_read_pos b);
           b_buffer_size := b_buffer_size b; b_data_size := b_data_size b |}).

(** Buffer::cont (internal_buffer.rs 41-43). *)
Definition buffer_cont (b : buffer) : bool := Nat.eqb (b_data_size b) (b_buffer_size b).

(** InternalReader::read_data (internal_reader.rs 26-30), with as_mut and
    update_metadata (internal_buffer.rs 23-30): the answer overwrites the front of the
    buffer.  On an error the buffer keeps its metadata. *)
Definition read_data (src : source) (b : buffer) : (unit + N) * source * buffer :=
  match src_read (length (b_buffer b)) src with
  | (inl bs, src') =>
      (inl tt, src',
       {| b_buffer := bs ++ skipn (length bs) (b_buffer b); b_read_pos := 0;
          b_buffer_size := b_buffer_size b; b_data_size := length bs |})
  | (inr k, src') => (inr k, src', b)
  end.

(** struct InternalReader (internal_reader.rs 9-13). *)
Record ireader := { ir_read : source; ir_buffer_size : nat; ir_buffer : buffer }.

(** InternalReader::new (internal_reader.rs 16-24). *)
Definition ireader_new (src : source) (size : nat) : (ireader + N) :=
  match read_data src (buffer_new size) with
  | (inl _, src', b) => inl {| ir_read := src'; ir_buffer_size := size; ir_buffer := b |}
  | (inr k, _, _) => inr k
  end.

(** Item of the byte iterator. *)
Inductive byte_item := BByte (b : N) | BEof | BErr (k : N) | BFuel.

(** The [loop] of InternalReader::next (internal_reader.rs 51-61). *)
Fixpoint ir_loop (fuel : nat) (src : source) (size : nat) (b : buffer) : byte_item * ireader :=
  match fuel with
  | O => (BFuel, {| ir_read := src; ir_buffer_size := size; ir_buffer := b |})
  | S fuel =>
      match buffer_next b with
      | (Some x, b') => (BByte x, {| ir_read := src; ir_buffer_size := size; ir_buffer := b' |})
      | (None, b') =>
          if buffer_cont b' then
            match read_data src b' with
            | (inr k, src', b2) => (BErr k, {| ir_read := src'; ir_buffer_size := size; ir_buffer := b2 |})
            | (inl _, src', b2) => ir_loop fuel src' size b2
            end
          else (BEof, {| ir_read := src; ir_buffer_size := size; ir_buffer := b' |})
      end
  end.

(** InternalReader::next (internal_reader.rs 47-62).  Two rounds of the loop suffice. *)
Definition ir_next (r : ireader) : byte_item * ireader :=
  if Nat.eqb (ir_buffer_size r) 0 then (BEof, r)
  else ir_loop 3 (ir_read r) (ir_buffer_size r) (ir_buffer r).

(** Item of the character iterator; both variants of CharsError (byte_to_char.rs
    104-111) turn into the same io::Error (json_read.rs 102-106). *)
Inductive char_item := CChar (c : N) | CEof | CErr | CFuel.

(** The [while start < width] loop of ByteToChar::next (byte_to_char.rs 57-68): collect
    [n] more bytes.  A missing byte is NotUtf8. *)
Fixpoint collect_bytes (n : nat) (r : ireader) (acc : list N) : (list N + char_item) * ireader :=
  match n with
  | O => (inl acc, r)
  | S n =>
      match ir_next r with
      | (BByte b, r') => collect_bytes n r' (acc ++ [b])
      | (BEof, r') => (inr CErr, r')
      | (BErr _, r') => (inr CErr, r')
      | (BFuel, r') => (inr CFuel, r')
      end
  end.

(** ByteToChar::next (byte_to_char.rs 42-74). *)
Definition btc_next (r : ireader) : char_item * ireader :=
  match ir_next r with
  | (BErr _, r') => (CErr, r')
  | (BEof, r') => (CEof, r')
  | (BFuel, r') => (CFuel, r')
  | (BByte first, r') =>
      match utf8_char_width first with
      | 1%nat => (CChar first, r')
      | 0%nat => (CErr, r')
      | S n =>
          match collect_bytes n r' [first] with
          | (inr e, r2) => (e, r2)
          | (inl buf, r2) =>
              match from_utf8_first buf with
              | Some c => (CChar c, r2)
              | None => (CErr, r2)
              end
          end
      end
  end.

(** All the items of a ByteToChar: the characters up to the end or the first error, and
    how it ended ([for c in iter], fuel). *)
Fixpoint btc_all (fuel : nat) (r : ireader) : str * char_item :=
  match fuel with
  | O => ([], CFuel)
  | S fuel =>
      match btc_next r with
      | (CChar c, r') => let (cs, e) := btc_all fuel r' in (c :: cs, e)
      | (e, _) => ([], e)
      end
  end.

(** struct JsonRead (json_read.rs 13-21). *)
Record jread := {
  jr_minifier : minifier;
  jr_read : option source;
  jr_iter : option ireader;
  jr_initialized : bool;
  jr_item_iter : option (list N);
  jr_item1 : option N
}.

(** JsonRead::new (json_read.rs 25-35), minify_from_read (mod.rs 76-78). *)
Definition jread_new (src : source) : jread :=
  {| jr_minifier := new_minifier; jr_read := Some src; jr_iter := None;
     jr_initialized := false; jr_item_iter := None; jr_item1 := None |}.

(** Result of one [read] call: the bytes put into the buffer (the returned count is
    their number), an error, or a panic. *)
Inductive errkind := EIo (k : N) | EInvalidData.
Inductive read_result := ROk (bs : list N) | RErr (e : errkind) | RPanic | RFuel.

(** add_char_to_buffer (json_read.rs 47-58) with [room] bytes left in the buffer: the
    bytes copied, and what stays in item_iter. *)
Definition add_char_to_buffer (room : nat) (item : list N) : list N * list N :=
  (firstn room item, skipn room item).

(** An upper bound of the number of bytes an InternalReader can still yield (fuel). *)
Fixpoint source_bytes (src : source) : nat :=
  match src with
  | [] => 0%nat
  | PData bs :: r => (length bs + source_bytes r)%nat
  | PErr _ :: r => source_bytes r
  end.
Definition ir_bytes (r : ireader) : nat :=
  (b_data_size (ir_buffer r) - b_read_pos (ir_buffer r) + source_bytes (ir_read r))%nat.

(** The state of an initialized JsonRead. *)
Definition jr_running (m : minifier) (it : ireader) (item_iter : option (list N))
  (item1 : option N) : jread :=
  {| jr_minifier := m; jr_read := None; jr_iter := Some it; jr_initialized := true;
     jr_item_iter := item_iter; jr_item1 := item1 |}.

(** The [while let] loop of read (json_read.rs 88-97); [out] is the part of the buffer
    already written, [len] the size of the buffer. *)
Fixpoint read_loop (fuel : nat) (len : nat) (m : minifier) (it : ireader)
    (item_iter : option (list N)) (item1 : option N) (out : list N) : read_result * jread :=
  match fuel with
  | O => (RFuel, jr_running m it item_iter item1)
  | S fuel =>
      match item1 with
      | None => (ROk out, jr_running m it item_iter None)
      | Some item =>
          match btc_next it with
          | (CErr, it') => (RErr EInvalidData, jr_running m it' item_iter None)
          | (CFuel, it') => (RFuel, jr_running m it' item_iter None)
          | (ci, it') =>
              let next := match ci with CChar c => Some c | _ => None end in
              let (k, m') := keep_element m item next in
              let (out', item_iter') :=
                if k then
                  let (a, b) := add_char_to_buffer (len - length out) (encode_char item) in
                  (out ++ a, Some b)
                else (out, item_iter) in
              if Nat.leb len (length out') then (ROk out', jr_running m' it' item_iter' next)
              else read_loop fuel len m' it' item_iter' next out'
          end
      end
  end.

(** JsonRead::read (json_read.rs 75-99) with a buffer of [len] bytes. *)
Definition jread_read (len : nat) (j : jread) : read_result * jread :=
  if Nat.eqb len 0 then (ROk [], j)
  else if jr_initialized j then
    match jr_iter j with
    | Some it => read_loop (S (S (ir_bytes it))) len (jr_minifier j) it (jr_item_iter j) (jr_item1 j) []
    | None => match jr_item1 j with None => (ROk [], j) | Some _ => (RPanic, j) end
    end
  else
    match jr_read j with
    | None => (RPanic, j)
    | Some src =>
        let j1 := {| jr_minifier := jr_minifier j; jr_read := None; jr_iter := jr_iter j;
                     jr_initialized := false; jr_item_iter := jr_item_iter j; jr_item1 := jr_item1 j |} in
        match ireader_new src len with
        | inr k => (RErr (EIo k), j1)
        | inl it =>
            match btc_next it with
            | (CErr, it') =>
                (RErr EInvalidData,
                 {| jr_minifier := jr_minifier j; jr_read := None; jr_iter := Some it';
                    jr_initialized := false; jr_item_iter := jr_item_iter j; jr_item1 := jr_item1 j |})
            | (CFuel, it') => (RFuel, j1)
            | (ci, it') =>
                let first := match ci with CChar c => Some c | _ => None end in
                read_loop (S (S (ir_bytes it'))) len (jr_minifier j) it' (jr_item_iter j) first []
            end
        end
    end.

(** A history of calls: the results for a list of buffer sizes. *)
Fixpoint jread_reads (sizes : list nat) (j : jread) : list read_result :=
  match sizes with
  | [] => []
  | n :: r => let (x, j') := jread_read n j in x :: jread_reads r j'
  end.

(** minify_from_read(src) followed by reads with buffers of the given sizes. *)
Definition json_reads (src : source) (sizes : list nat) : list read_result :=
  jread_reads sizes (jread_new src).
