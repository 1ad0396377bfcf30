(** What the HTML minifier is meant to do, said without regular expressions. *)
From Coq Require Import String List NArith Bool Relations.
From Verif Require Import Base.
Import ListNotations.
Open Scope N_scope.

(** ** Scanning a text *)

(** Read from left to right: where a match starts ([L m r]: the text [m] is one when [r]
    follows), put its replacement and go on after it; otherwise copy the character. *)
Inductive rewrites (L : str -> str -> Prop) (F : str -> str -> Prop) : str -> str -> Prop :=
| rw_end : rewrites L F [] []
| rw_char : forall c s t, (forall m r, c :: s = m ++ r -> ~ L m r) ->
    rewrites L F s t -> rewrites L F (c :: s) (c :: t)
| rw_match : forall m m' r t, m <> [] -> L m r -> F m m' -> rewrites L F r t ->
    rewrites L F (m ++ r) (m' ++ t).

Definition occurs (p s : str) : Prop := exists a b, s = a ++ p ++ b.

(** ** Classes of characters *)
Definition blank (c : N) : Prop := is_whitespace c = true.
Definition blanks (w : str) : Prop := Forall blank w.

Definition letter (c : N) : Prop := (0x41 <= c <= 0x5A) \/ (0x61 <= c <= 0x7A).
Definition digit (c : N) : Prop := 0x30 <= c <= 0x39.

(** [\w]: outside ASCII, whatever [word_u] says. *)
Definition word_char (word_u : N -> bool) (c : N) : Prop :=
  (c < 128 /\ (letter c \/ digit c \/ c = 0x5F)) \/ (128 <= c /\ word_u c = true).

Definition line_end : N := 0xA.
Definition dquote : N := 0x22.
Definition squote : N := 0x27.
Definition lt : N := 0x3C.
Definition gt : N := 0x3E.

(** ** Comments *)

(** From the opening mark to the first closing mark after it. *)
Inductive comment : str -> str -> Prop :=
| a_comment : forall c r,
    (forall x y, c ++ S_ "-->" = x ++ S_ "-->" ++ y -> y = []) ->
    comment (S_ "<!--" ++ c ++ S_ "-->") r.

(** The text of a comment to keep: a square bracket, after white space (and further opening
    marks). *)
Inductive conditional : str -> Prop :=
| co_here : forall c, conditional (S_ "[" ++ c)
| co_blank : forall b c, blank b -> conditional c -> conditional (b :: c)
| co_open : forall c, conditional c -> conditional (S_ "<!--" ++ c).

Inductive comment_out : str -> str -> Prop :=
| cm_keep : forall c, conditional c ->
    comment_out (S_ "<!--" ++ c ++ S_ "-->") (S_ "<!--" ++ c ++ S_ "-->")
| cm_drop : forall c, ~ conditional c ->
    comment_out (S_ "<!--" ++ c ++ S_ "-->") (S_ " ").

Definition uncommented : str -> str -> Prop := rewrites comment comment_out.

(** ** The type attribute of style and script *)

Definition word_bar_blank word_u (c : N) : Prop := word_char word_u c \/ c = 0x7C \/ blank c.

(** The start tag of a style or script element, on one line. *)
Inductive script_tag word_u : str -> str -> Prop :=
| a_script_tag : forall name x body r,
    In name [S_ "<style"; S_ "<script"] -> word_bar_blank word_u x ->
    ~ In gt body -> ~ In line_end body ->
    script_tag word_u (name ++ x :: body ++ [gt]) r.

(** [type=] with a quoted value, and the white space before it. *)
Inductive type_attribute word_u : str -> str -> Prop :=
| a_type : forall w x value r,
    blanks w -> word_bar_blank word_u x -> ~ In dquote value -> ~ In line_end value ->
    type_attribute word_u (w ++ S_ "type=" ++ [dquote] ++ x :: value ++ [dquote]) r.

Definition untyped word_u : str -> str -> Prop :=
  rewrites (script_tag word_u) (rewrites (type_attribute word_u) (fun _ m' => m' = [])).

(** ** Tags that may be left out *)
Definition droppable_open : list str := map S_ ["body"; "head"; "html"; "tbody"]%string.
Definition droppable_close : list str := map S_
  ["area"; "base"; "basefont"; "body"; "br"; "col"; "colgroup"; "dd"; "dt"; "head"; "hr"; "html"; "img";
   "input"; "isindex"; "li"; "link"; "meta"; "option"; "param"; "tbody"; "td"; "tfoot"; "th"; "thead"; "tr"]%string.

Definition droppable (t : str) : Prop :=
  (exists n, In n droppable_open /\ t = S_ "<" ++ n ++ S_ ">")
  \/ (exists n, In n droppable_close /\ t = S_ "</" ++ n ++ S_ ">").

(** One such tag is taken out. *)
Inductive drops : str -> str -> Prop :=
| dr : forall a t b, droppable t -> drops (a ++ t ++ b) (a ++ b).

(** A piece of a document in which every [<] is closed before the next one. *)
Inductive piece : str -> Prop :=
| p_text : forall s, ~ In lt s -> piece s
| p_tag : forall s, ~ In lt s -> ~ In gt s -> piece ([lt] ++ s ++ [gt]).

(** The pieces without the tags to drop. *)
Inductive kept : list str -> list str -> Prop :=
| k_nil : kept [] []
| k_drop : forall p ps qs, droppable p -> kept ps qs -> kept (p :: ps) qs
| k_keep : forall p ps qs, ~ droppable p -> kept ps qs -> kept (p :: ps) (p :: qs).

(** ** White space *)

(** What a run of white space [w] becomes between the character [p] and the text [r]. *)
Inductive squeezed_run (p : option N) (w r : str) : str -> Prop :=
| sr_one : forall c, w = [c] -> c <> 0xD -> c <> line_end ->
    ~ (p = Some gt /\ exists r', r = lt :: r') -> squeezed_run p w r [c]
| sr_many : (forall c, w = [c] -> c = 0xD \/ c = line_end \/ (p = Some gt /\ exists r', r = lt :: r')) ->
    squeezed_run p w r [0x20].

(** [p]: the character before. *)
Inductive squeezed : option N -> str -> str -> Prop :=
| sq_end : forall p, squeezed p [] []
| sq_char : forall p c s t, ~ blank c -> squeezed (Some c) s t -> squeezed p (c :: s) (c :: t)
| sq_run : forall p w w' r t, w <> [] -> blanks w -> (forall c r', r = c :: r' -> ~ blank c) ->
    squeezed_run p w r w' -> squeezed None r t -> squeezed p (w ++ r) (w' ++ t).

(** ASCII upper case letters made lower case. *)
Definition low (c : N) : N := if (0x41 <=? c) && (c <=? 0x5A) then c + 0x20 else c.

(** The text occurs, in upper or lower case. *)
Definition mentions (p s : str) : Prop := exists a b c, s = a ++ b ++ c /\ map low b = p.

(** No character outside ASCII has a letter of pre or textarea, or the opening bracket, in its
    lower case, which is not empty: so it is in Unicode. *)
Definition lower_ok (lower_u : N -> str) : Prop :=
  forall c, 128 <= c -> lower_u c <> [] /\ forall x, In x (lower_u c) -> ~ In x (S_ "<textarp").

(** Ends without white space. *)
Definition trimmed (s : str) : Prop :=
  (forall c r, s = c :: r -> ~ blank c) /\ (forall c r, s = r ++ [c] -> ~ blank c).

Definition trims (s t : str) : Prop :=
  trimmed t /\ exists a b, blanks a /\ blanks b /\ s = a ++ t ++ b.

(** Every run of white space as one blank. *)
Fixpoint skeleton (s : str) : str :=
  match s with
  | [] => []
  | c :: r => if is_whitespace c
              then match skeleton r with
                   | 0x20 :: _ => skeleton r
                   | _ => 0x20 :: skeleton r
                   end
              else c :: skeleton r
  end.

(** No two white space characters in a row. *)
Definition tidy (s : str) : Prop := forall a b c d, s = a ++ [b; c] ++ d -> ~ (blank b /\ blank c).

(** ** Start tags and their attributes *)

(** A tag on one line. *)
Inductive start_tag word_u : str -> str -> Prop :=
| a_start_tag : forall x body r, word_char word_u x -> ~ In gt body -> ~ In line_end body ->
    start_tag word_u ([lt; x] ++ body ++ [gt]) r.

(** White space between a quotation mark and the end of the tag. *)
Inductive closed : str -> str -> Prop :=
| cl_double : forall x w, w <> [] -> blanks w ->
    closed (x ++ [dquote] ++ w ++ [gt]) (x ++ [dquote; gt])
| cl_single : forall x w, w <> [] -> blanks w ->
    closed (x ++ [squote] ++ w ++ [gt]) (x ++ [squote; gt])
| cl_none : forall m, (forall x q w, m = x ++ [q] ++ w ++ [gt] -> w <> [] -> blanks w -> q <> dquote /\ q <> squote) ->
    closed m m.

Definition value_letter (c : N) : Prop := letter c \/ digit c \/ c = 0x2D \/ c = 0x5F \/ c = 0x2E.

(** An attribute with a simple value in quotation marks. *)
Inductive simple_attribute : str -> str -> Prop :=
| an_attribute : forall name value r, name <> [] -> Forall letter name -> value <> [] -> Forall value_letter value ->
    simple_attribute (name ++ S_ "=" ++ [dquote] ++ value ++ [dquote]) r.

Inductive attribute_out : str -> str -> Prop :=
| at_bare : forall name value, In name [S_ "width"; S_ "height"] ->
    attribute_out (name ++ S_ "=" ++ [dquote] ++ value ++ [dquote]) (name ++ S_ "=" ++ value)
| at_same : forall name value, Forall letter name -> ~ In name [S_ "width"; S_ "height"] ->
    attribute_out (name ++ S_ "=" ++ [dquote] ++ value ++ [dquote])
                  (name ++ S_ "=" ++ [dquote] ++ value ++ [dquote]).

Definition unquoted : str -> str -> Prop := rewrites simple_attribute attribute_out.

(** What becomes of a start tag: white space before its end goes, runs of white space elsewhere
    may be shortened but remain (no white space but a blank is new), and width and height lose their quotation marks. *)
Inductive tag_out : str -> str -> Prop :=
| to_same : forall m, occurs (S_ "</") m -> tag_out m m
| to_change : forall m k k' m', ~ occurs (S_ "</") m -> closed m k ->
    skeleton k' = skeleton k -> (length k' <= length k)%nat -> (tidy k -> k' = k) -> incl k' (0x20 :: k) ->
    unquoted k' m' -> tag_out m m'.

(** The same for a tag without two white space characters in a row. *)
Inductive tidy_tag_out : str -> str -> Prop :=
| tt_same : forall m, occurs (S_ "</") m -> tidy_tag_out m m
| tt_change : forall m k m', ~ occurs (S_ "</") m -> closed m k -> unquoted k m' -> tidy_tag_out m m'.
