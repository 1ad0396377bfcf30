(** Specification vocabulary for CSS, independent of the model: a lexer, lexical items,
    and the lexical conditions used in the theorems. *)
From Coq Require Import String List NArith ZArith Bool.
From Verif Require Import Base.
Import ListNotations.
Open Scope N_scope.

(** ** Pieces

    A source is read as a sequence of pieces. *)
Inductive piece :=
| PChar (c : N)     (* a character of a word *)
| PBs               (* a backslash; the character after it is a [PChar], whatever it is *)
| PBlank            (* a blank, tab, line feed or carriage return *)
| PStr (t : str)    (* a string literal, with its quotes *)
| PCom (b : str)    (* a comment, with its body *)
| PLic (b : str)    (* a licence comment: opened by slash star and one of ! or star *)
| PPunct (c : N).   (* a punctuation character *)

Inductive lexerr := UnclosedString | UnclosedComment.

Definition blank_char (c : N) : bool := (c =? 0x20) || (c =? 0x9) || (c =? 0xA) || (c =? 0xD).

Definition punct_char (c : N) : bool :=
  existsb (N.eqb c) (S_ ",>(){}[]:;/+=*|~$^").

(** The rest of a string literal after its opening quote [q], up to and including the closing
    one; a backslash protects the character after it. *)
Fixpoint str_body (q : N) (s : str) : option (str * str) :=
  match s with
  | [] => None
  | c :: r =>
      if c =? 0x5C then
        match r with
        | [] => None
        | d :: r' => option_map (fun x => (c :: d :: fst x, snd x)) (str_body q r')
        end
      else if c =? q then Some ([c], r)
      else option_map (fun x => (c :: fst x, snd x)) (str_body q r)
  end.

(** What stands before the first star slash, and what follows it. *)
Fixpoint com_body (s : str) : option (str * str) :=
  match s with
  | [] => None
  | c :: r =>
      if (c =? 0x2A) && match r with d :: _ => d =? 0x2F | [] => false end
      then Some ([], tl r)
      else option_map (fun x => (c :: fst x, snd x)) (com_body r)
  end.

(** The comment whose opening slash star stands before [s]. *)
Definition comment_at (s : str) : option (piece * str) :=
  let plain := option_map (fun x => (PCom (fst x), snd x)) (com_body s) in
  match s with
  | c :: r =>
      if (c =? 0x21) || ((c =? 0x2A) && negb match r with d :: _ => d =? 0x2F | [] => false end)
      then option_map (fun x => (PLic (fst x), snd x)) (com_body r)
      else plain
  | [] => plain
  end.

Definition pcons (p : piece) (x : list piece * option lexerr) : list piece * option lexerr :=
  (p :: fst x, snd x).

(** The pieces of a source, and the literal or comment left open at its end, if any. *)
Fixpoint lexf (n : nat) (s : str) : list piece * option lexerr :=
  match n with
  | O => ([], None)
  | S n =>
      match s with
      | [] => ([], None)
      | c :: r =>
          if c =? 0x5C then
            match r with
            | [] => ([PBs], None)
            | d :: r' => pcons PBs (pcons (PChar d) (lexf n r'))
            end
          else if (c =? 0x27) || (c =? 0x22) then
            match str_body c r with
            | Some (t, r') => pcons (PStr (c :: t)) (lexf n r')
            | None => ([], Some UnclosedString)
            end
          else if (c =? 0x2F) && match r with d :: _ => d =? 0x2A | [] => false end then
            match comment_at (tl r) with
            | Some (p, r') => pcons p (lexf n r')
            | None => ([], Some UnclosedComment)
            end
          else if blank_char c then pcons PBlank (lexf n r)
          else if punct_char c then pcons (PPunct c) (lexf n r)
          else pcons (PChar c) (lexf n r)
      end
  end.

Definition lex (s : str) : list piece * option lexerr := lexf (length s) s.

(** ** Lexical items: a word is a maximal run of word characters and escapes *)
Inductive item :=
| IWord (t : str) | IStr (t : str) | ILic (b : str) | IPunct (c : N).

Definition flush (w : str) (l : list item) : list item :=
  match w with [] => l | _ => IWord w :: l end.

Fixpoint items_from (w : str) (ps : list piece) : list item :=
  match ps with
  | [] => flush w []
  | PChar c :: r => items_from (w ++ [c]) r
  | PBs :: r => items_from (w ++ [0x5C]) r
  | PBlank :: r | PCom _ :: r => flush w (items_from [] r)
  | PStr t :: r => flush w (IStr t :: items_from [] r)
  | PLic b :: r => flush w (ILic b :: items_from [] r)
  | PPunct c :: r => flush w (IPunct c :: items_from [] r)
  end.

(** The lexical items of a source; blanks and comments only separate. *)
Definition items (s : str) : list item := items_from [] (fst (lex s)).

(** The licence comments and the other comments of a source. *)
Definition licences (s : str) : list str :=
  flat_map (fun p => match p with PLic b => [b] | _ => [] end) (fst (lex s)).
Definition comments (s : str) : list str :=
  flat_map (fun p => match p with PCom b => [b] | _ => [] end) (fst (lex s)).

(** ** Well-formedness: the only errors *)

(** Scan the pieces with the number of open braces and whether a bracket is open; the first
    problem met. *)
Fixpoint problem (depth : nat) (bracket : bool) (ps : list piece) (e : option lexerr) : option str :=
  match ps with
  | [] =>
      match e with
      | None => None
      | Some UnclosedString => Some (S_ "Unclosed string")
      | Some UnclosedComment => Some (S_ "Unclosed comment")
      end
  | PPunct c :: r =>
      if c =? 0x5B then
        if bracket then Some (S_ "Already in attribute selector") else problem depth true r e
      else if c =? 0x5D then
        if bracket then problem depth false r e else Some (S_ "Unexpected ']'")
      else if c =? 0x7B then problem (S depth) bracket r e
      else if c =? 0x7D then
        match depth with
        | O => Some (S_ "Too much '}'")
        | S d => problem d bracket r e
        end
      else problem depth bracket r e
  | _ :: r => problem depth bracket r e
  end.

Definition css_problem (s : str) : option str := problem 0 false (fst (lex s)) (snd (lex s)).

(** ** The three layouts that are not safe *)

Definition separator (p : piece) : Prop := p = PBlank \/ exists b, p = PCom b.
Definition word_piece (p : piece) : Prop := p = PBs \/ exists c, p = PChar c.

(** A slash, separators, then star and equal sign next to each other. *)
Definition slash_star_equal (ps : list piece) : Prop :=
  exists pre gap post,
    ps = pre ++ PPunct 0x2F :: gap ++ PPunct 0x2A :: PPunct 0x3D :: post /\ Forall separator gap.

(** A word, separators, then a word that starts with an escape. *)
Definition blank_before_escape (ps : list piece) : Prop :=
  exists pre w gap post,
    ps = pre ++ w :: gap ++ PBs :: post /\ word_piece w /\ gap <> [] /\ Forall separator gap.

(** Does a run of plain word characters start after these pieces?  It does unless they end
    with a backslash (the next character is escaped) or with a plain word character. *)
Definition run_starts (pre : list piece) : Prop :=
  (forall pre', pre <> pre' ++ [PBs]) /\
  (forall pre' c, pre = pre' ++ [PChar c] -> exists pre'', pre' = pre'' ++ [PBs]).

(** An at-keyword directly followed by an escape. *)
Definition escape_in_at_keyword (ps : list piece) : Prop :=
  exists pre name post,
    ps = pre ++ PChar 0x40 :: map PChar name ++ PBs :: post /\ name <> [] /\ run_starts pre.

Definition regular (s : str) : Prop :=
  ~ slash_star_equal (fst (lex s)) /\
  ~ blank_before_escape (fst (lex s)) /\
  ~ escape_in_at_keyword (fst (lex s)).
