(** The tokens that a JavaScript engine reads, after the lexical grammar of ECMA-262 (clause 12,
    strict mode code).  Independent of the model and of the lexical specification of the tokenizer
    (JsLexSpec); only [token], its Display and [separator], the blank of the printer, are used at
    the end, to say which sources are tidy.

    Not covered (such texts are rejected here): escapes in identifiers, the HTML-like comments of
    Annex B, a hashbang line.  The digits of an escape in a literal are not checked. *)
From Coq Require Import String Arith List NArith Bool.
From Verif Require Import Base JsModel JsUtilSpec.
Import ListNotations.
Open Scope N_scope.

(** ** Characters *)

Definition line_end (c : N) : bool := (c =? 0xA) || (c =? 0xD) || (c =? 0x2028) || (c =? 0x2029).

(** White space (12.2): tab, vertical tab, form feed, byte order mark, space separators. *)
Definition white (c : N) : bool :=
  (c =? 0x9) || (c =? 0xB) || (c =? 0xC) || (c =? 0xFEFF) || (c =? 0x20) || (c =? 0xA0)
  || (c =? 0x1680) || ((0x2000 <=? c) && (c <=? 0x200A)) || (c =? 0x202F) || (c =? 0x205F)
  || (c =? 0x3000).

Definition letter (c : N) : bool :=
  ((0x41 <=? c) && (c <=? 0x5A)) || ((0x61 <=? c) && (c <=? 0x7A)).
Definition digit (c : N) : bool := (0x30 <=? c) && (c <=? 0x39).
Definition hex_digit (c : N) : bool :=
  digit c || ((0x41 <=? c) && (c <=? 0x46)) || ((0x61 <=? c) && (c <=? 0x66)).
Definition octal_digit (c : N) : bool := (0x30 <=? c) && (c <=? 0x37).
Definition binary_digit (c : N) : bool := (c =? 0x30) || (c =? 0x31).

Definition starts (f : N -> bool) (s : str) : bool := match s with c :: _ => f c | [] => false end.
Definition one_of (l : str) (c : N) : bool := existsb (N.eqb c) l.

(** ** Tokens: what they are and how they are written *)

Inductive kind :=
| Blank | Comment | LineComment
| Name | Private | Punct | Number | Text | Template | Regex.

Definition element : Type := kind * str.

Definition matters (e : element) : bool :=
  match fst e with Blank | Comment | LineComment => false | _ => true end.

(** ** Punctuators (12.8) *)

Definition puncts : list str :=
  map S_ [ "{"; "}"; "("; ")"; "["; "]"; "."; "..."; ";"; ","; "<"; ">"; "<="; ">="; "=="; "!=";
           "==="; "!=="; "+"; "-"; "*"; "%"; "**"; "++"; "--"; "<<"; ">>"; ">>>"; "&"; "|"; "^";
           "!"; "~"; "&&"; "||"; "??"; "?"; "?."; ":"; "="; "+="; "-="; "*="; "%="; "**="; "<<=";
           ">>="; ">>>="; "&="; "|="; "^="; "&&="; "||="; "??="; "=>"; "/"; "/=" ]%string.

Definition is_punct (p : str) : bool := existsb (str_eqb p) puncts.

(** [?.] is no punctuator before a digit. *)
Definition punct_at (k : nat) (s : str) : bool :=
  is_punct (firstn k s) && (length (firstn k s) =? k)%nat
  && negb (str_eqb (firstn k s) (S_ "?.") && starts digit (skipn k s)).

(** The longest one of at most [k] characters. *)
Fixpoint take_punct (k : nat) (s : str) : option (str * str) :=
  match k with
  | O => None
  | S k' => if punct_at k s then Some (firstn k s, skipn k s) else take_punct k' s
  end.

(** ** Parts of tokens *)

Fixpoint take_while (f : N -> bool) (s : str) : str * str :=
  match s with
  | c :: r => if f c then (c :: fst (take_while f r), snd (take_while f r)) else ([], s)
  | [] => ([], [])
  end.

(** Digits with single low lines between them (12.9.3). *)
Fixpoint take_digits (f : N -> bool) (s : str) : str * str :=
  match s with
  | c :: r =>
      if f c || ((c =? 0x5F) && starts f r)
      then (c :: fst (take_digits f r), snd (take_digits f r)) else ([], s)
  | [] => ([], [])
  end.

Definition take_sign (s : str) : str * str :=
  match s with c :: r => if one_of (S_ "+-") c then ([c], r) else ([], s) | [] => ([], []) end.

Definition take_exponent (s : str) : str * str :=
  match s with
  | c :: r =>
      if one_of (S_ "eE") c && starts digit (snd (take_sign r)) then
        (c :: fst (take_sign r) ++ fst (take_digits digit (snd (take_sign r))),
         snd (take_digits digit (snd (take_sign r))))
      else ([], s)
  | [] => ([], [])
  end.

(** The suffix of a BigInt. *)
Definition take_n (s : str) : str * str :=
  match s with c :: r => if c =? 0x6E then ([c], r) else ([], s) | [] => ([], []) end.

(** After the integer part: a suffix, or a fraction and an exponent. *)
Definition take_fraction (s : str) : str * str :=
  match s with
  | c :: r =>
      if c =? 0x2E then
        if starts digit r then (c :: fst (take_digits digit r), snd (take_digits digit r)) else ([c], r)
      else ([], s)
  | [] => ([], [])
  end.

Definition take_tail (s : str) : str * str :=
  if starts (N.eqb 0x6E) s then take_n s
  else let (f, s1) := take_fraction s in let (e, s2) := take_exponent s1 in (f ++ e, s2).

(** The digits that may follow [0x] and the like. *)
Definition radix (c : N) : option (N -> bool) :=
  if one_of (S_ "xX") c then Some hex_digit
  else if one_of (S_ "oO") c then Some octal_digit
  else if one_of (S_ "bB") c then Some binary_digit
  else None.

(** A numeric literal (12.9.3).  An integer part of several digits does not start with zero. *)
Definition take_decimal (s : str) : option (str * str) :=
  if starts (N.eqb 0x2E) s then
    let (f, s1) := take_fraction s in let (e, s2) := take_exponent s1 in Some (f ++ e, s2)
  else
    let (i, s1) := take_digits digit s in
    if starts (N.eqb 0x30) i && negb (length i =? 1)%nat then None
    else let (t, s2) := take_tail s1 in Some (i ++ t, s2).

Definition take_number (s : str) : option (str * str) :=
  match s with
  | c :: x :: r =>
      match (if c =? 0x30 then radix x else None) with
      | Some f =>
          if starts f r then
            let (h, s1) := take_digits f r in let (n, s2) := take_n s1 in Some (c :: x :: h ++ n, s2)
          else None
      | None => take_decimal s
      end
  | _ => take_decimal s
  end.

Fixpoint take_comment (s : str) : option str :=
  match s with
  | c :: r =>
      match r with
      | d :: r' => if (c =? 0x2A) && (d =? 0x2F) then Some r' else take_comment r
      | [] => None
      end
  | [] => None
  end.

Definition add (x : str) (o : option (str * str)) : option (str * str) :=
  match o with Some (a, b) => Some (x ++ a, b) | None => None end.

(** A string (12.9.4) after its opening quote [q], with the closing one. *)
Fixpoint take_string (q : N) (s : str) : option (str * str) :=
  match s with
  | [] => None
  | c :: r =>
      if c =? q then Some ([c], r)
      else if (c =? 0xA) || (c =? 0xD) then None
      else if c =? 0x5C then
        match r with
        | [] => None
        | d :: r1 =>
            match r1 with
            | e :: r2 => if (d =? 0xD) && (e =? 0xA) then add [c; d; e] (take_string q r2) else add [c; d] (take_string q r1)
            | [] => None
            end
        end
      else add [c] (take_string q r)
  end.

(** Template characters (12.9.6) up to the closing backtick or a substitution. *)
Fixpoint take_template (s : str) : option (str * str) :=
  match s with
  | [] => None
  | c :: r =>
      if c =? 0x60 then Some ([c], r)
      else if c =? 0x5C then match r with [] => None | d :: r1 => add [c; d] (take_template r1) end
      else if (c =? 0x24) && starts (N.eqb 0x7B) r then Some ([0x24; 0x7B], tl r)
      else add [c] (take_template r)
  end.

(** The body of a regular expression (12.9.5) with the closing slash; [cls]: inside brackets. *)
Fixpoint take_regex (cls : bool) (s : str) : option (str * str) :=
  match s with
  | [] => None
  | c :: r =>
      if line_end c then None
      else if c =? 0x5C then
        match r with [] => None | d :: r1 => if line_end d then None else add [c; d] (take_regex cls r1) end
      else if cls then add [c] (take_regex (negb (c =? 0x5D)) r)
      else if c =? 0x2F then Some ([c], r)
      else add [c] (take_regex (c =? 0x5B) r)
  end.

(** Flags: each letter at most once. *)
Fixpoint flags_ok (f : str) : bool :=
  match f with [] => true | c :: r => one_of (S_ "dgimsuvy") c && negb (one_of r c) && flags_ok r end.

Section Engine.
(** ID_Start and ID_Continue outside ASCII. *)
Variables start_u part_u : N -> bool.

Definition id_start (c : N) : bool :=
  letter c || one_of (S_ "$_") c || ((0x80 <=? c) && start_u c && negb (white c || line_end c)).
Definition id_part (c : N) : bool :=
  id_start c || digit c || one_of [0x200C; 0x200D] c || ((0x80 <=? c) && part_u c && negb (white c || line_end c)).

Definition take_name (s : str) : str * str := take_while id_part s.

(** ** One token, blank or comment (12.1)

    [re]: a slash starts a regular expression here; [sub]: a closing brace ends a substitution. *)
Definition scan_slash (re : bool) (r : str) : option (element * str) :=
  match r with
  | d :: r' =>
      if d =? 0x2F then Some ((LineComment, []), snd (take_while (fun c => negb (line_end c)) r'))
      else if d =? 0x2A then match take_comment r' with Some x => Some ((Comment, []), x) | None => None end
      else if re then
        match take_regex false r with
        | Some (b, x) =>
            if flags_ok (fst (take_name x))
            then Some ((Regex, 0x2F :: b ++ fst (take_name x)), snd (take_name x)) else None
        | None => None
        end
      else if d =? 0x3D then Some ((Punct, [0x2F; 0x3D]), r') else Some ((Punct, [0x2F]), r)
  | [] => if re then None else Some ((Punct, [0x2F]), [])
  end.

(** No identifier or digit directly follows a number. *)
Definition scan_number (s : str) : option (element * str) :=
  match take_number s with
  | Some (a, x) => if starts id_part x then None else Some ((Number, a), x)
  | None => None
  end.

Definition scan (re sub : bool) (s : str) : option (element * str) :=
  match s with
  | [] => None
  | c :: r =>
      if white c || line_end c then Some ((Blank, []), r)
      else if c =? 0x2F then scan_slash re r
      else if one_of [0x22; 0x27] c then
        match take_string c r with Some (a, x) => Some ((Text, c :: a), x) | None => None end
      else if (c =? 0x60) || ((c =? 0x7D) && sub) then
        match take_template r with Some (a, x) => Some ((Template, c :: a), x) | None => None end
      else if c =? 0x23 then
        if starts id_start r then Some ((Private, c :: fst (take_name r)), snd (take_name r)) else None
      else if digit c || ((c =? 0x2E) && starts digit r) then scan_number s
      else if id_start c then Some ((Name, fst (take_name s)), snd (take_name s))
      else match take_punct 4 s with Some (p, x) => Some ((Punct, p), x) | None => None end
  end.

(** ** The whole text

    [goal] decides, from the tokens read so far (last first, without semicolons at the very
    beginning), whether a slash starts a regular expression: the part of the grammar that the
    lexical goal symbols of 12.1 stand for.  It is arbitrary.  [subs] has a number for each
    substitution that is open, the number of braces open in it. *)
Variable goal : list element -> bool.

Definition state : Type := list element * list nat.
Definition start : state := ([], []).

Definition next_past (past : list element) (e : element) : list element :=
  match past with
  | [] => if str_eqb (snd e) (S_ ";") then [] else [e]
  | _ => e :: past
  end.

(** A template token that ends in a dollar sign and a brace opens a substitution. *)
Definition opens_sub (t : str) : bool :=
  match rev t with b :: d :: _ => (b =? 0x7B) && (d =? 0x24) | _ => false end.

Definition next_subs (subs : list nat) (e : element) : list nat :=
  match fst e with
  | Punct =>
      match subs with
      | n :: l => if str_eqb (snd e) (S_ "{") then S n :: l else if str_eqb (snd e) (S_ "}") then pred n :: l else subs
      | [] => []
      end
  | Template =>
      let l := if starts (N.eqb 0x7D) (snd e) then tl subs else subs in
      if opens_sub (snd e) then O :: l else l
  | _ => subs
  end.

Definition next (st : state) (e : element) : state :=
  if matters e then (next_past (fst st) e, next_subs (snd st) e) else st.

Definition in_sub (subs : list nat) : bool := match subs with O :: _ => true | _ => false end.

Definition scan_at (st : state) (s : str) : option (element * str) :=
  scan (goal (fst st)) (in_sub (snd st)) s.

(** All tokens, blanks and comments of a text, and the state behind it. *)
Fixpoint read (n : nat) (st : state) (s : str) : option (list element * state) :=
  match s with
  | [] => Some ([], st)
  | _ =>
      match n with
      | O => None
      | S n =>
          match scan_at st s with
          | Some (e, r) =>
              match read n (next st e) r with Some (l, st') => Some (e :: l, st') | None => None end
          | None => None
          end
      end
  end.

Definition es_read (st : state) (s : str) : option (list element * state) := read (length s) st s.

(** The tokens of a program, without semicolons at its very beginning; None if it is no sequence
    of tokens. *)
Fixpoint skip_semicolons (l : list element) : list element :=
  match l with e :: r => if str_eqb (snd e) (S_ ";") then skip_semicolons r else l | [] => [] end.

Definition es_tokens (s : str) : option (list element) :=
  match es_read start s with Some (l, _) => Some (skip_semicolons (filter matters l)) | None => None end.

(** ** Layouts that keep the tokens *)

(** Is the text [s], directly after [e], read as part of it? *)
Definition runs_on (e : element) (s : str) : bool :=
  match s with
  | [] => false
  | c :: _ =>
      match fst e with
      | Blank | Comment | Text | Template => false
      | LineComment => true
      | Name | Private | Regex => id_part c
      | Number => id_part c || ((c =? 0x2E) && forallb (fun d => digit d || (d =? 0x5F)) (snd e))
      | Punct =>
          existsb (fun p => str_eqb (firstn (S (length (snd e))) p) (snd e ++ [c])) puncts
          || ((str_eqb (snd e) (S_ ".") || str_eqb (snd e) (S_ "?.")) && digit c)
          || (str_eqb (snd e) (S_ "/") && one_of (S_ "/*") c)
      end
  end.

(** The source falls into gaps (blanks and comments that are no licences) and code, with the
    tokens that the minifier has for it. *)
Inductive part := Gap (g : str) | Code (c : str) (ts : list token).

Definition part_text (p : part) : str := match p with Gap g => g | Code c _ => c end.
Definition part_tokens (p : part) : list token := match p with Gap _ => [] | Code _ ts => ts end.

(** No part is empty, and a gap and code take turns. *)
Fixpoint take_turns (ps : list part) : Prop :=
  match ps with
  | [] => True
  | Gap g :: r => g <> [] /\ match r with Gap _ :: _ => False | _ => True end /\ take_turns r
  | Code c ts :: r =>
      c <> [] /\ ts <> [] /\ Forall (fun t => token_show t <> []) ts
      /\ match r with Code _ _ :: _ => False | _ => True end /\ take_turns r
  end.

(** [ps] are the parts of the source [s], whose tokens are [ts]. *)
Definition cuts (ps : list part) (s : str) (ts : list token) : Prop :=
  flat_map part_text ps = s
  /\ flat_map part_tokens ps = filter (fun t => negb (useless t)) ts
  /\ take_turns ps.

Definition last_of (l : list element) : element := last l (Blank, []).

(** The first part of [ps], and the first piece of code behind a gap. *)
Definition upcoming (ps : list part) : str := match ps with p :: _ => part_text p | [] => [] end.
Definition behind_gap (ps : list part) : option (str * token) :=
  match ps with Gap _ :: Code c (t :: _) :: _ => Some (c, t) | _ => None end.

(** [tidy st ps]: read from state [st],
    - each gap has only blanks and comments,
    - each piece of code is read by itself, and the minifier would print it as it is,
    - nothing runs on into the next part, nor, where the minifier puts no blank, into the code
      behind the gap. *)
Fixpoint tidy (st : state) (ps : list part) : Prop :=
  match ps with
  | [] => True
  | Gap g :: r =>
      exists l, es_read st g = Some (l, st) /\ forallb (fun e => negb (matters e)) l = true
        /\ runs_on (last_of l) (upcoming r) = false /\ tidy st r
  | Code c ts :: r =>
      exists l st', es_read st c = Some (l, st') /\ joined ts = c
        /\ runs_on (last_of l) (upcoming r) = false
        /\ (forall c' t', behind_gap r = Some (c', t') ->
              separator (last ts (TChar Space)) t' = [] -> runs_on (last_of l) c' = false)
        /\ tidy st' r
  end.

End Engine.
