(** Plain JavaScript programs, in terms of the tokens of ECMA-262 (EsSpec), and the text that
    js::minify is expected to make of them.  Independent of the model: nothing of the tokenizer,
    its tokens or its printer is used here. *)
From Coq Require Import String Arith List NArith Bool.
From Verif Require Import Base EsSpec.
Import ListNotations.
Open Scope N_scope.

(** A program as it is written: tokens and what stands between them. *)
Inductive item := Between (g : str) | Piece (e : element).

Definition item_text (i : item) : str := match i with Between g => g | Piece e => snd e end.
Definition text (l : list item) : str := flat_map item_text l.
Definition pieces (l : list item) : list element :=
  flat_map (fun i => match i with Between _ => [] | Piece e => [e] end) l.

(** ** What stands between tokens

    Blanks, line ends, comments that end in a line end, and block comments that are no licences
    (they do not start with an exclamation mark). *)
Inductive place := Idle | Slash | InLine | Opened | InBlock | Star.

Fixpoint between (m : place) (s : str) : bool :=
  match s with
  | [] => match m with Idle => true | _ => false end
  | c :: r =>
      match m with
      | Idle =>
          if one_of [0x9; 0xA; 0xD; 0x20] c then between Idle r
          else if c =? 0x2F then between Slash r else false
      | Slash => if c =? 0x2F then between InLine r else if c =? 0x2A then between Opened r else false
      | InLine =>
          if (c =? 0xA) || (c =? 0xD) then between Idle r
          else if line_end c then false else between InLine r
      | Opened => if c =? 0x21 then false else if c =? 0x2A then between Star r else between InBlock r
      | InBlock => if c =? 0x2A then between Star r else between InBlock r
      | Star => if c =? 0x2F then between Idle r else if c =? 0x2A then between Star r else between InBlock r
      end
  end.

(** ** Tokens *)

Definition kind_eqb (a b : kind) : bool :=
  match a, b with
  | Blank, Blank | Comment, Comment | LineComment, LineComment | Name, Name | Private, Private
  | Punct, Punct | Number, Number | Text, Text | Template, Template | Regex, Regex => true
  | _, _ => false
  end.

Definition is_text (l : list string) (t : str) : bool := existsb (str_eqb t) (map S_ l).
Definition sign (l : list string) (e : element) : bool := kind_eqb (fst e) Punct && is_text l (snd e).

Definition lower (c : N) : N := if (0x41 <=? c) && (c <=? 0x5A) then c + 32 else c.

(** [12], [1.5] and [.5]; [0x1F] and the like. *)
Definition decimal (t : str) : bool :=
  match snd (take_while digit t) with
  | [] => match t with [] => false | _ => true end
  | c :: f => (c =? 0x2E) && match f with [] => false | _ => forallb digit f end
  end.

Definition radixed (t : str) : bool :=
  match t with
  | c :: x :: r =>
      (c =? 0x30) && match radix x with Some _ => true | None => false end
      && forallb (fun d => letter d || digit d || (d =? 0x5F)) r
  | _ => false
  end.

(** What follows the first slash that is not escaped. *)
Fixpoint behind_slash (s : str) : option str :=
  match s with
  | [] => None
  | c :: r =>
      if c =? 0x2F then Some r
      else if c =? 0x5C then match r with [] => None | _ :: r' => behind_slash r' end
      else behind_slash r
  end.

Definition plain_regex (t : str) : bool :=
  match t with
  | _ :: r => match behind_slash r with Some f => is_text [""; "g"; "i"; "gi"]%string f | None => false end
  | [] => false
  end.

Definition word (e : element) : bool := match fst e with Name | Private | Number => true | _ => false end.
Definition named (l : list string) (e : element) : bool := kind_eqb (fst e) Name && is_text l (snd e).

(** Words that end in a letter, so to say: a blank stands between such a word and the next. *)
Definition sticky (e : element) : bool :=
  match fst e with Name | Private => true | Number => negb (decimal (snd e)) | _ => false end.

(** Tokens after which [in] and [instanceof] need no blank. *)
Definition soft (e : element) : bool :=
  match fst e with
  | Text | Template => true
  | Punct =>
      is_text ["{"; "}"; "("; ")"; "["; "]"; "."; "..."; ";"; ","; ":"; "?"; "?."; "??"; "!"; "&"; "|"]%string (snd e)
  | _ => false
  end.

(** ** The text that is expected *)

(** One blank stands between two words of which the first is no decimal number, and before [in] and
    [instanceof] after any token that is not soft; nothing stands between other tokens. *)
Definition spaced (a b : element) : bool :=
  (sticky a && word b) || (named ["in"; "instanceof"]%string b && negb (soft a)).

Fixpoint compact (l : list element) : str :=
  match l with
  | [] => []
  | a :: r =>
      snd a ++ match r with [] => [] | b :: _ => (if spaced a b then [0x20] else []) ++ compact r end
  end.

Section Plain.
Variables start_u part_u : N -> bool.
Notation scan := (scan start_u part_u).
Notation runs_on := (runs_on start_u part_u).

(** An engine reads exactly [e] from its text. *)
Definition alone (e : element) : bool :=
  match scan (kind_eqb (fst e) Regex) false (snd e) with
  | Some (e', []) => kind_eqb (fst e) (fst e') && str_eqb (snd e) (snd e')
  | _ => false
  end.

(** The tokens of plain programs. *)
Definition plain_piece (e : element) : bool :=
  alone e
  && match fst e with
     | Name => negb (is_text ["inf"; "infinity"; "nan"]%string (map lower (snd e)))
     | Number => decimal (snd e) || radixed (snd e)
     | Punct => negb (is_text ["^"; "^="; "~"]%string (snd e))
     | Template => negb (opens_sub (snd e))
     | Regex => plain_regex (snd e)
     | Private | Text => true
     | Blank | Comment | LineComment => false
     end.

(** Division stands after an operand, a regular expression after a sign. *)
Definition placed (prev : option element) (e : element) : bool :=
  if sign ["/"; "/="]%string e then
    match prev with
    | Some p => match fst p with Punct => is_text [")"; "]"; "}"]%string (snd p) | _ => true end
    | None => false
    end
  else if kind_eqb (fst e) Regex then
    match prev with
    | Some p => kind_eqb (fst p) Punct && negb (is_text [")"; "]"; "}"; "."; "..."; "?."]%string (snd p))
    | None => true
    end
  else true.

(** [e] may directly follow [p]: an engine reads two tokens, not both are words, no number follows
    three dots, and no equal sign an operator that does not take one. *)
Definition direct_ok (p e : element) : bool :=
  negb (runs_on p (snd e))
  && negb (word p && word e)
  && negb (sign ["..."]%string p && kind_eqb (fst e) Number)
  && negb (sign ["++"; "--"; "=>"; "&="; "|="; "&&="; "||="; "??="]%string p && starts (N.eqb 0x3D) (snd e)).

(** [prev]: the token before; [direct]: nothing stands behind it. *)
Fixpoint plain (prev : option element) (direct : bool) (l : list item) : bool :=
  match l with
  | [] => true
  | Between g :: r =>
      between Idle g && match g with [] => false | _ => true end
      && (if direct then match prev with Some p => negb (runs_on p g) | None => true end else true)
      && plain prev false r
  | Piece e :: r =>
      plain_piece e && placed prev e
      && (if direct then match prev with Some p => direct_ok p e | None => true end else true)
      && plain (Some e) true r
  end.

(** Where no blank is put, no token runs on into the next one. *)
Fixpoint apart (l : list element) : bool :=
  match l with
  | a :: r => match r with b :: _ => spaced a b || negb (runs_on a (snd b)) | [] => true end && apart r
  | [] => true
  end.

(** The grammar, as far as [goal] tells, has a regular expression where one is written, and a
    division where one is written. *)
Variable goal : list element -> bool.

Fixpoint goal_ok (past : list element) (l : list element) : bool :=
  match l with
  | [] => true
  | e :: r =>
      (if kind_eqb (fst e) Regex then goal past
       else if sign ["/"; "/="]%string e then negb (goal past) else true)
      && goal_ok (next_past past e) r
  end.

End Plain.
