(** Specification of the layout of a JavaScript source: what may stand between two tokens. *)
From Coq Require Import String List NArith Bool.
From Verif Require Import Base JsModel JsUtilSpec JsLexSpec.
Import ListNotations.
Open Scope N_scope.

(** White space and comments. *)
Inductive layout : str -> Prop :=
| ly_end : layout []
| ly_blank : forall c g, mem_char c [0x9; 0xA; 0xD; 0x20] = true -> layout g -> layout (c :: g)
| ly_line : forall b n g, Forall (fun c => newline c = false) b -> newline n = true -> layout g ->
    layout (0x2F :: 0x2F :: b ++ n :: g)
| ly_block : forall b g, comment_body b = true -> hd_error b <> Some 0x21 -> layout g ->
    layout (0x2F :: 0x2A :: b ++ 0x2A :: 0x2F :: g).

(** A gap between two tokens: some layout.  It must not start with a carriage return, which does
    not end a number that ends in a dot. *)
Definition gap (g : str) : Prop := layout g /\ g <> [] /\ hd_error g <> Some 0xD.

(** Behind the tokens [ts] the whole of [q] is read and gives the tokens [us]. *)
Definition lexes_after (ts : list token) (q : str) (us : list token) : Prop :=
  exists v w, reads (rev ts) [] q v w [] /\ ts ++ us = rev (flush w v).

(** The tokens that matter. *)
Definition kept (ts : list token) : list token := filter (fun t => negb (useless t)) ts.

(** The line ends inside a text, and those a token carries along. *)
Definition line_ends (s : str) : str := filter newline s.

Definition inner_ends (t : token) : str :=
  match t with TString b | TLicense b | TRegex b _ _ => line_ends b | _ => [] end.
