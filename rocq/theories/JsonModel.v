(** Model of src/json/json_minifier.rs, src/json/string.rs and the string API of
    src/json/mod.rs. *)
From Coq Require Import List NArith Bool.
From Verif Require Import Base.
Import ListNotations.
Open Scope N_scope.

Definition c_quote : N := 0x22.      (* the double quote *)
Definition c_backslash : N := 0x5C.  (* the backslash *)

(** struct JsonMinifier (json_minifier.rs 3-7). [escaped_quotation] is a [u8]
    that only ever holds 0..4, so a [nat] is exact. *)
Record minifier := { is_string : bool; escaped_quotation : nat }.

(** JsonMinifier::new (json_minifier.rs 15-22). *)
Definition new_minifier : minifier := {| is_string := false; escaped_quotation := 0 |}.

(** The test that item2 is a double quote (json_minifier.rs 40). *)
Definition is_quote_opt (o : option N) : bool :=
  match o with Some c => c =? c_quote | None => false end.

(** is_whitespace_outside_string (json_minifier.rs 32-50). *)
Definition is_whitespace_outside_string (m : minifier) (item1 : N) (item2 : option N)
  : bool * minifier :=
  let m' :=
    if negb (is_string m) && (item1 =? c_quote)
    then {| is_string := true; escaped_quotation := escaped_quotation m |}
    else if is_string m then
      let esc :=
        if (item1 =? c_backslash) && is_quote_opt item2 then 4%nat
        else escaped_quotation m in
      match esc with
      | S e => {| is_string := true; escaped_quotation := e |}
      | O => if item1 =? c_quote
             then {| is_string := false; escaped_quotation := 0 |}
             else {| is_string := true; escaped_quotation := 0 |}
      end
    else m in
  (negb (is_string m') && is_whitespace item1, m').

(** keep_element (json_minifier.rs 25-29); [||] short-circuits, so a control
    character leaves the state alone. *)
Definition keep_element (m : minifier) (item1 : N) (item2 : option N) : bool * minifier :=
  if is_ascii_control item1 then (false, m)
  else let (r, m') := is_whitespace_outside_string m item1 item2 in (negb r, m').

(** struct JsonMultiFilter (string.rs 9-15). *)
Record jfilter := {
  jf_minifier : minifier;
  jf_iter : str;
  jf_initialized : bool;
  jf_item1 : option N
}.

(** JsonMultiFilter::new (string.rs 19-27) as used by json::minify (mod.rs 40-42). *)
Definition jfilter_new (s : str) : jfilter :=
  {| jf_minifier := new_minifier; jf_iter := s; jf_initialized := false; jf_item1 := None |}.

(** The [while let Some(item) = self.item1.take()] loop of next (string.rs 57-62),
    entered with [item] already taken. *)
Fixpoint jf_loop (m : minifier) (item : N) (iter : str) : option N * jfilter :=
  match iter with
  | [] =>
      let (k, m') := keep_element m item None in
      (if k then Some item else None,
       {| jf_minifier := m'; jf_iter := []; jf_initialized := true; jf_item1 := None |})
  | c :: r =>
      let (k, m') := keep_element m item (Some c) in
      if k
      then (Some item,
            {| jf_minifier := m'; jf_iter := r; jf_initialized := true; jf_item1 := Some c |})
      else jf_loop m' c r
  end.

(** JsonMultiFilter::next (string.rs 51-64). *)
Definition jf_next (f : jfilter) : option N * jfilter :=
  let f1 :=
    if jf_initialized f then f
    else match jf_iter f with
         | [] => {| jf_minifier := jf_minifier f; jf_iter := []; jf_initialized := true; jf_item1 := None |}
         | c :: r => {| jf_minifier := jf_minifier f; jf_iter := r; jf_initialized := true; jf_item1 := Some c |}
         end in
  match jf_item1 f1 with
  | None => (None, f1)
  | Some item => jf_loop (jf_minifier f1) item (jf_iter f1)
  end.

(** [for token in self] of write and Display (string.rs 76-81, 93-99): all the items
    of the iterator.  Fuel; [None] is out of fuel. *)
Fixpoint jf_collect (fuel : nat) (f : jfilter) : option str :=
  match fuel with
  | O => None
  | S n => match jf_next f with
           | (None, _) => Some []
           | (Some c, f') => option_map (cons c) (jf_collect n f')
           end
  end.

(** json::minify(s).to_string() (mod.rs 40-42, 53-57). *)
Definition json_minify (s : str) : outcome str :=
  match jf_collect (S (S (length s))) (jfilter_new s) with
  | Some o => Ok o
  | None => OutOfFuel
  end.

(** json::minify(s).write(w) (mod.rs 48-50, string.rs 76-81): one [write!] per
    character. Result: the bytes the writer holds and whether it succeeded. *)
Definition json_write (s : str) (w : writer) : outcome (list N * bool) :=
  match jf_collect (S (S (length s))) (jfilter_new s) with
  | Some o => Ok (write_chunks (map encode_char o) w)
  | None => OutOfFuel
  end.
