(** The text html::minify is expected to make of a document, part by part.  Parts are those of
    HtmlSyntaxSpec: what a browser reads. *)
From Coq Require Import String List NArith Bool.
From Verif Require Import Base HtmlSpec HtmlSyntaxSpec.
Import ListNotations.
Open Scope N_scope.

(** ** How a document is written *)

Definition value_written (v : option (str * str * option N * str)) : str :=
  match v with
  | None => []
  | Some (w1, w2, Some q, v) => w1 ++ S_ "=" ++ w2 ++ [q] ++ v ++ [q]
  | Some (w1, w2, None, v) => w1 ++ S_ "=" ++ w2 ++ v
  end.

Definition attribute_written (a : attribute) : str := a_gap a ++ a_name a ++ value_written (a_value a).

Definition written (p : part) : str :=
  match p with
  | PChar c => [c]
  | PComment c => S_ "<!--" ++ c ++ S_ "-->"
  | PDoctype s => S_ "<!" ++ s ++ S_ ">"
  | PEnd n w => S_ "</" ++ n ++ w ++ S_ ">"
  | PStart n l w sl => S_ "<" ++ n ++ flat_map attribute_written l ++ w ++ (if sl then S_ "/>" else S_ ">")
  end.

Definition document (l : list part) : str := flat_map written l.

(** ** First: comments, types, tags *)

(** A comment is a blank. *)
Definition uncomment (p : part) : part := match p with PComment _ => PChar 0x20 | _ => p end.

Section Words.
(** The word characters outside ASCII. *)
Variable word_u : N -> bool.

Definition one_word_char (c : N) : bool :=
  if c <? 0x80 then ascii_alpha c || ((0x30 <=? c) && (c <=? 0x39)) || (c =? 0x5F) else word_u c.

Definition starts_well (c : N) : bool := one_word_char c || (c =? 0x7C) || is_whitespace c.

Definition unbroken (s : str) : bool := negb (existsb (N.eqb line_end) s).

(** The start tag of a style or script, without line end behind the first character after its
    name. *)
Definition opens_script (s : str) : bool :=
  existsb (fun k => is_start k s &&
             match skipn (length k) s with c :: r => starts_well c && unbroken r | [] => false end)
          [S_ "<style"; S_ "<script"].

(** [type=] with a value in double quotation marks, not empty, without line end. *)
Definition type_given (a : attribute) : bool :=
  str_eqb (a_name a) (S_ "type") &&
  match a_value a with
  | Some ([], [], Some q, x :: v) => (q =? dquote) && starts_well x && unbroken v
  | _ => false
  end.

Definition untype (p : part) : part :=
  match p with
  | PStart n l w sl => if opens_script (written p) then PStart n (filter (fun a => negb (type_given a)) l) w sl else p
  | _ => p
  end.

(** A tag that may be left out, written without white space or attributes. *)
Definition left_out (p : part) : bool :=
  match p with
  | PEnd n [] => existsb (str_eqb n) droppable_close
  | PStart n [] [] false => existsb (str_eqb n) droppable_open
  | _ => false
  end.

(** ** Second: white space *)

(** A run of white space: one blank, unless it is one character other than a line end.
    [between]: it is between two tags. *)
Definition one_run (between : bool) (w : str) : str :=
  match w with
  | [] => []
  | [c] => if (c =? 0xD) || (c =? 0xA) || between then [0x20] else [c]
  | _ => [0x20]
  end.

(** All runs of a text; [w]: the one before it. *)
Fixpoint runs (w s : str) : str :=
  match s with
  | [] => one_run false w
  | c :: r => if html_blank c then runs (w ++ [c]) r else one_run false w ++ c :: runs [] r
  end.

Definition respace_attribute (a : attribute) : attribute :=
  Attribute (one_run false (a_gap a)) (a_name a)
    (match a_value a with
     | Some (w1, w2, q, v) => Some (one_run false w1, one_run false w2, q, runs [] v)
     | None => None
     end).

Definition respace (p : part) : part :=
  match p with
  | PDoctype s => PDoctype (runs [] s)
  | PEnd n w => PEnd n (one_run false w)
  | PStart n l w sl => PStart n (map respace_attribute l) (one_run false w) sl
  | _ => p
  end.

(** [w]: the white space before, after the sign [>] if [closed]. *)
Fixpoint flow (closed : bool) (w : str) (l : list part) : list part :=
  match l with
  | [] => map PChar (one_run false w)
  | PChar c :: r =>
      if html_blank c then flow closed (w ++ [c]) r
      else map PChar (one_run false w) ++ PChar c :: flow (c =? gt) [] r
  | p :: r => map PChar (one_run closed w) ++ respace p :: flow true [] r
  end.

(** ** Third: start tags *)

(** The letters at its end are width or height. *)
Definition size_name (n : str) : bool :=
  existsb (str_eqb (rev (fst (span ascii_alpha (rev n))))) [S_ "width"; S_ "height"].

Definition simple_char (c : N) : bool :=
  ascii_alpha c || ((0x30 <=? c) && (c <=? 0x39)) || existsb (N.eqb c) (S_ "-_.").

Definition unquote (a : attribute) : attribute :=
  match a_value a with
  | Some ([], [], Some q, x :: v) =>
      if (q =? dquote) && size_name (a_name a) && forallb simple_char (x :: v)
      then Attribute (a_gap a) (a_name a) (Some ([], [], None, x :: v)) else a
  | _ => a
  end.

Definition quoted_last (l : list attribute) : bool :=
  match rev l with a :: _ => match a_value a with Some (_, _, Some _, _) => true | _ => false end | [] => false end.

(** No white space between a quotation mark and the end of the tag; width and height without
    quotation marks. *)
Definition tidied (p : part) : part :=
  match p with
  | PStart n l w sl => PStart n (map unquote l) (if quoted_last l && negb sl then [] else w) sl
  | _ => p
  end.

(** ** The text *)

Fixpoint lstrip (s : str) : str := match s with c :: r => if html_blank c then lstrip r else s | [] => [] end.
Definition stripped (s : str) : str := rev (lstrip (rev (lstrip s))).

Definition compact (l : list part) : str :=
  stripped (document (map tidied (flow false [] (filter (fun p => negb (left_out p)) (map untype (map uncomment l)))))).

(** ** Documents that keep their white space *)

(** An element with a name that begins like one of those that keep it. *)
Definition preserves (p : part) : bool :=
  match p with
  | PStart n _ _ _ => is_start (S_ "pre") (map low n) || is_start (S_ "textarea") (map low n)
  | _ => false
  end.

(** At most one white space character in a row in a start tag. *)
Definition at_most_one (w : str) : bool := match w with [] | [_] => true | _ => false end.

Fixpoint no_pair (s : str) : bool :=
  match s with
  | c :: r => negb (html_blank c && match r with d :: _ => html_blank d | [] => false end) && no_pair r
  | [] => true
  end.

Definition single_attribute (a : attribute) : bool :=
  at_most_one (a_gap a) &&
  match a_value a with
  | Some (w1, w2, _, v) => at_most_one w1 && at_most_one w2 && no_pair v
  | None => true
  end.

Definition single (p : part) : bool :=
  match p with
  | PStart _ l w _ => forallb single_attribute l && at_most_one w
  | _ => true
  end.

(** A tag on several lines stays as it is. *)
Definition tidied_line (p : part) : part := if unbroken (written p) then tidied p else p.

Definition compact_kept (l : list part) : str :=
  stripped (document (map tidied_line (filter (fun p => negb (left_out p)) (map untype (map uncomment l))))).

End Words.
