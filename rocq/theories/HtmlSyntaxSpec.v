(** How a browser reads an HTML document: the tokenization stage of the WHATWG standard (13.2.5),
    in the part that needs no error handling.  It is stricter than a browser: the reader below
    gives up at everything the standard calls a parse error, and also at an angle bracket inside
    an attribute value or inside the text of an element such as script or title. *)
From Coq Require Import String List NArith Bool.
From Verif Require Import Base HtmlSpec.
Import ListNotations.
Open Scope N_scope.

(** ** Parts of a document, with their layout *)

(** An attribute: the white space before it, its name, and its value if there is one, with the
    white space around the equal sign and the quotation marks. *)
Record attribute := Attribute {
  a_gap : str;
  a_name : str;
  a_value : option (str * str * option N * str)
}.

Inductive part :=
| PChar (c : N)
| PComment (c : str)
| PDoctype (s : str)
| PEnd (name gap : str)
| PStart (name : str) (attrs : list attribute) (gap : str) (slash : bool).

(** ** Classes of characters *)

(** Tab, line feed, form feed, carriage return, space. *)
Definition html_blank (c : N) : bool := existsb (N.eqb c) [0x9; 0xA; 0xC; 0xD; 0x20].

Definition ascii_alpha (c : N) : bool := ((0x41 <=? c) && (c <=? 0x5A)) || ((0x61 <=? c) && (c <=? 0x7A)).

(** The characters of the names of tags and attributes. *)
Definition name_char (c : N) : bool :=
  negb (html_blank c || existsb (N.eqb c) (S_ "/<=>'" ++ [dquote])).

(** The characters of a value without quotation marks. *)
Definition bare_char (c : N) : bool :=
  negb (html_blank c || existsb (N.eqb c) (S_ "<=>'`" ++ [dquote])).

(** The characters of a value in quotation marks [q]. *)
Definition quoted_char (q c : N) : bool := negb (existsb (N.eqb c) [q; lt; gt]).

(** ** The reader *)

(** The longest start of the text whose characters satisfy [p]. *)
Fixpoint span (p : N -> bool) (s : str) : str * str :=
  match s with
  | [] => ([], [])
  | c :: r => if p c then let (a, b) := span p r in (c :: a, b) else ([], s)
  end.

Definition is_start (p s : str) : bool := str_eqb (firstn (length p) s) p.

(** The text of a comment and what follows its closing mark. *)
Fixpoint comment_text (s : str) : option (str * str) :=
  match s with
  | [] => None
  | c :: r => if is_start (S_ "-->") s then Some ([], skipn 3 s)
              else if is_start (S_ "--!>") s || is_start (S_ "<!--") s then None
              else match comment_text r with
                   | Some (a, b) => Some (c :: a, b)
                   | None => None
                   end
  end.

(** A value: its quotation marks, its text, and what follows. *)
Definition read_value (s : str) : option (option N * str * str) :=
  match s with
  | [] => None
  | c :: r =>
      if (c =? dquote) || (c =? squote) then
        match span (quoted_char c) r with
        | (v, d :: r') => if d =? c then Some (Some c, v, r') else None
        | (_, []) => None
        end
      else match span bare_char s with
           | ([], _) => None
           | (v, r') => Some (None, v, r')
           end
  end.

(** One attribute, after white space [gap]; [s] starts with its name. *)
Definition read_attribute (gap s : str) : option (attribute * str) :=
  let (n, r1) := span name_char s in
  let (w1, r2) := span html_blank r1 in
  if is_start (S_ "=") r2 then
    let (w2, r4) := span html_blank (skipn 1 r2) in
    match read_value r4 with
    | Some (q, v, r5) => Some (Attribute gap n (Some (w1, w2, q, v)), r5)
    | None => None
    end
  else Some (Attribute gap n None, r1).

(** The attributes of a tag, the white space before its end, whether it ends with a slash, and
    what follows the tag. *)
Fixpoint read_attributes (fuel : nat) (s : str) : option (list attribute * str * bool * str) :=
  match fuel with
  | O => None
  | S fuel =>
      let (w, r) := span html_blank s in
      if is_start (S_ ">") r then Some ([], w, false, skipn 1 r)
      else if is_start (S_ "/>") r then Some ([], w, true, skipn 2 r)
      else match w, r with
           | _ :: _, c :: _ =>
               if name_char c then
                 match read_attribute w r with
                 | Some (a, r1) =>
                     match read_attributes fuel r1 with
                     | Some (l, w', sl, r2) => Some (a :: l, w', sl, r2)
                     | None => None
                     end
                 | None => None
                 end
               else None
           | _, _ => None
           end
  end.

(** What follows an opening angle bracket. *)
Definition read_markup (s : str) : option (part * str) :=
  if is_start (S_ "!--") s then
    let r := skipn 3 s in
    if is_start (S_ ">") r || is_start (S_ "->") r then None
    else match comment_text r with
         | Some (c, r') => Some (PComment c, r')
         | None => None
         end
  else if is_start (S_ "!") s then
    let r := skipn 1 s in
    if str_eqb (map low (firstn 7 r)) (S_ "doctype") then
      match span (fun c => negb ((c =? lt) || (c =? gt))) (skipn 7 r) with
      | (d, c :: r') => if c =? gt then Some (PDoctype (firstn 7 r ++ d), r') else None
      | (_, []) => None
      end
    else None
  else if is_start (S_ "/") s then
    match skipn 1 s with
    | c :: _ =>
        if ascii_alpha c then
          let (n, r1) := span name_char (skipn 1 s) in
          let (w, r2) := span html_blank r1 in
          match r2 with
          | d :: r' => if d =? gt then Some (PEnd n w, r') else None
          | [] => None
          end
        else None
    | [] => None
    end
  else
    match s with
    | c :: _ =>
        if ascii_alpha c then
          let (n, r1) := span name_char s in
          match read_attributes (S (length r1)) r1 with
          | Some (l, w, sl, r') => Some (PStart n l w sl, r')
          | None => None
          end
        else None
    | [] => None
    end.

Fixpoint read_parts (fuel : nat) (s : str) : option (list part) :=
  match fuel with
  | O => None
  | S fuel =>
      match s with
      | [] => Some []
      | c :: r =>
          if c =? lt then
            match read_markup r with
            | Some (p, r') => match read_parts fuel r' with Some l => Some (p :: l) | None => None end
            | None => None
            end
          else match read_parts fuel r with Some l => Some (PChar c :: l) | None => None end
      end
  end.

(** The elements whose content is text, up to their end tag. *)
Definition text_elements : list str := map S_
  ["script"; "style"; "title"; "textarea"; "xmp"; "iframe"; "noembed"; "noframes"; "noscript"; "plaintext"]%string.

Definition is_text_element (n : str) : bool := existsb (str_eqb (map low n)) text_elements.

(** Nothing but text up to its end tag in these; [open]: the one we are in. *)
Fixpoint text_kept (open : option str) (l : list part) : bool :=
  match l with
  | [] => match open with None => true | Some _ => false end
  | PChar _ :: r => text_kept open r
  | PStart n _ _ _ :: r =>
      match open with
      | None => text_kept (if is_text_element n then Some (map low n) else None) r
      | Some _ => false
      end
  | PEnd n _ :: r =>
      match open with
      | None => text_kept None r
      | Some m => str_eqb (map low n) m && text_kept None r
      end
  | _ :: r => match open with None => text_kept None r | Some _ => false end
  end.

Definition html_parts (s : str) : option (list part) :=
  match read_parts (S (length s)) s with
  | Some l => if text_kept None l then Some l else None
  | None => None
  end.

(** ** Tokens *)

Inductive token :=
| HChar (c : N)
| HComment (c : str)
| HDoctype (s : str)
| HEnd (name : str)
| HStart (name : str) (attrs : list (str * str)) (self_closing : bool).

Definition value_of (a : attribute) : str :=
  match a_value a with Some (_, _, _, v) => v | None => [] end.

Definition token_of (p : part) : token :=
  match p with
  | PChar c => HChar c
  | PComment c => HComment c
  | PDoctype s => HDoctype s
  | PEnd n _ => HEnd n
  | PStart n l _ sl => HStart n (map (fun a => (a_name a, value_of a)) l) sl
  end.

Definition html_tokens (s : str) : option (list token) := option_map (map token_of) (html_parts s).

(** ** Documents that say the same *)

Definition typed_element (n : str) : bool := is_start (S_ "style") n || is_start (S_ "script") n.

(** What a token is worth: a comment is white space; the tags that may be left out, and the type
    of a style or script, are nothing; runs of white space in values are one blank. *)
Definition worth (t : token) : list token :=
  match t with
  | HChar c => [HChar c]
  | HComment _ => [HChar 0x20]
  | HDoctype s => [HDoctype (skeleton s)]
  | HEnd n => if existsb (str_eqb n) droppable_close then [] else [HEnd n]
  | HStart n l sl =>
      if existsb (str_eqb n) droppable_open && (match l with [] => true | _ => false end) && negb sl then []
      else [HStart n (map (fun a => (fst a, skeleton (snd a)))
                          (filter (fun a => negb (typed_element n && str_eqb (fst a) (S_ "type"))) l)) sl]
  end.

(** White space at the ends of a list of tokens. *)
Definition is_blank (t : token) : bool := match t with HChar c => html_blank c | _ => false end.

Fixpoint skip_blanks (l : list token) : list token :=
  match l with
  | [] => []
  | t :: r => if is_blank t then skip_blanks r else l
  end.

Definition trim_tokens (l : list token) : list token := rev (skip_blanks (rev (skip_blanks l))).

(** Every run of white space in the text as one blank. *)
Fixpoint squeeze_tokens (l : list token) : list token :=
  match l with
  | [] => []
  | t :: r => if is_blank t
              then match squeeze_tokens r with
                   | [] => [HChar 0x20]
                   | t' :: _ => if is_blank t' then squeeze_tokens r else HChar 0x20 :: squeeze_tokens r
                   end
              else t :: squeeze_tokens r
  end.

(** The document as far as it counts, up to white space; and with the white space of the text. *)
Definition content (l : list token) : list token := trim_tokens (squeeze_tokens (flat_map worth l)).
Definition exact_content (l : list token) : list token := trim_tokens (flat_map worth l).

(** ** Documents that the minifier does not damage *)

(** All white space is that of HTML. *)
Definition html_blanks (s : str) : Prop := forall c, In c s -> blank c -> html_blank c = true.

Definition ends_with (p s : str) : Prop := exists x, s = x ++ p.

(** The attributes that are rewritten: no value has the look of one; in a style or script no other
    name ends like type; and no slash follows one of them at once. *)
Definition attribute_safe (tag : str) (a : attribute) : Prop :=
  (typed_element tag = true ->
     ~ occurs (S_ "type=") (value_of a) /\ (ends_with (S_ "type") (a_name a) -> a_name a = S_ "type")) /\
  ~ occurs (S_ "width=" ++ [dquote]) (value_of a) /\ ~ occurs (S_ "height=" ++ [dquote]) (value_of a).

Definition end_safe (attrs : list attribute) (gap : str) (slash : bool) : Prop :=
  slash = true -> gap = [] -> forall l a, attrs = l ++ [a] ->
    ~ ends_with (S_ "type") (a_name a) /\ ~ ends_with (S_ "width") (a_name a) /\ ~ ends_with (S_ "height") (a_name a).

Definition part_safe (p : part) : Prop :=
  match p with
  | PComment c => ~ conditional c
  | PStart n attrs gap slash => Forall (attribute_safe n) attrs /\ end_safe attrs gap slash
  | _ => True
  end.

(** The elements that keep the white space of their text. *)
Definition keeps_blanks (p : part) : Prop :=
  match p with PStart n _ _ _ => In (map low n) [S_ "pre"; S_ "textarea"] | _ => False end.

(** ** Documents minified at once *)

(** A start tag of a style or script without line ends. *)
Definition attribute_line (a : attribute) : Prop :=
  ~ In line_end (a_gap a) /\
  match a_value a with
  | Some (w1, w2, _, v) => ~ In line_end w1 /\ ~ In line_end w2 /\ ~ In line_end v
  | None => True
  end.

Definition one_line (p : part) : Prop :=
  match p with
  | PStart n l w _ => typed_element n = true -> Forall attribute_line l /\ ~ In line_end w
  | _ => True
  end.

(** Not an element whose name starts like that of one that keeps white space. *)
Definition reflows (p : part) : Prop :=
  match p with
  | PStart n _ _ _ => is_start (S_ "pre") (map low n) = false /\ is_start (S_ "textarea") (map low n) = false
  | _ => True
  end.
