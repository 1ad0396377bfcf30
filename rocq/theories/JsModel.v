(** Model of src/js/token.rs. *)
From Coq Require Import String List NArith ZArith Bool DecimalN.
From Verif Require Import Base.
Import ListNotations.
Open Scope N_scope.

(** enum ReservedChar (token.rs 7-38). *)
Inductive rchar :=
| Comma | OpenParenthese | CloseParenthese | OpenCurlyBrace | CloseCurlyBrace
| OpenBracket | CloseBracket | Colon | SemiColon | Dot | Quote | DoubleQuote
| ExclamationMark | QuestionMark | Slash | Modulo | Star | Minus | Plus | EqualSign
| Backslash | Space | Tab | Backline | LessThan | SuperiorThan | Pipe | Ampersand
| BackTick.

(** derived PartialEq of ReservedChar (token.rs 7). *)
Definition rchar_eq_dec (a b : rchar) : {a = b} + {a <> b}.
Proof. decide equality. Defined.

Definition rchar_eqb (a b : rchar) : bool := if rchar_eq_dec a b then true else false.

(** ReservedChar::is_white_character (token.rs 41-45). *)
Definition rchar_white (c : rchar) : bool :=
  match c with Space | Tab | Backline => true | _ => false end.

(** Display for ReservedChar (token.rs 48-86). *)
Definition rchar_show (c : rchar) : N :=
  match c with
  | Comma => 0x2C | OpenParenthese => 0x28 | CloseParenthese => 0x29
  | OpenCurlyBrace => 0x7B | CloseCurlyBrace => 0x7D
  | OpenBracket => 0x5B | CloseBracket => 0x5D
  | Colon => 0x3A | SemiColon => 0x3B | Dot => 0x2E
  | Quote => 0x27 | DoubleQuote => 0x22
  | ExclamationMark => 0x21 | QuestionMark => 0x3F
  | Slash => 0x2F | Modulo => 0x25 | Star => 0x2A | Minus => 0x2D | Plus => 0x2B
  | EqualSign => 0x3D | Backslash => 0x5C
  | Space => 0x20 | Tab => 0x9 | Backline => 0xA
  | LessThan => 0x3C | SuperiorThan => 0x3E
  | Pipe => 0x7C | Ampersand => 0x26 | BackTick => 0x60
  end.

(** TryFrom<char> for ReservedChar (token.rs 88-126). *)
Definition rchar_of (c : N) : option rchar :=
  if c =? 0x2C then Some Comma
  else if c =? 0x28 then Some OpenParenthese
  else if c =? 0x29 then Some CloseParenthese
  else if c =? 0x7B then Some OpenCurlyBrace
  else if c =? 0x7D then Some CloseCurlyBrace
  else if c =? 0x5B then Some OpenBracket
  else if c =? 0x5D then Some CloseBracket
  else if c =? 0x3A then Some Colon
  else if c =? 0x3B then Some SemiColon
  else if c =? 0x2E then Some Dot
  else if c =? 0x27 then Some Quote
  else if c =? 0x22 then Some DoubleQuote
  else if c =? 0x21 then Some ExclamationMark
  else if c =? 0x3F then Some QuestionMark
  else if c =? 0x2F then Some Slash
  else if c =? 0x25 then Some Modulo
  else if c =? 0x2A then Some Star
  else if c =? 0x2D then Some Minus
  else if c =? 0x2B then Some Plus
  else if c =? 0x3D then Some EqualSign
  else if c =? 0x5C then Some Backslash
  else if c =? 0x20 then Some Space
  else if c =? 0x9 then Some Tab
  else if (c =? 0xA) || (c =? 0xD) then Some Backline
  else if c =? 0x3C then Some LessThan
  else if c =? 0x3E then Some SuperiorThan
  else if c =? 0x7C then Some Pipe
  else if c =? 0x26 then Some Ampersand
  else if c =? 0x60 then Some BackTick
  else None.

(** enum Keyword, its Display and TryFrom<&str> (token.rs 127-160, 168-208, 210-249). *)
Inductive keyword :=
| KBreak
| KCase
| KCatch
| KConst
| KContinue
| KDefault
| KDo
| KElse
| KFalse
| KFinally
| KFunction
| KFor
| KIf
| KIn
| KInstanceOf
| KLet
| KNew
| KNull
| KPrivate
| KProtected
| KPublic
| KReturn
| KSwitch
| KThis
| KThrow
| KTrue
| KTry
| KTypeof
| KStatic
| KVar
| KWhile.

Definition keyword_show (k : keyword) : str :=
  match k with
  | KBreak => S_ "break"
  | KCase => S_ "case"
  | KCatch => S_ "catch"
  | KConst => S_ "const"
  | KContinue => S_ "continue"
  | KDefault => S_ "default"
  | KDo => S_ "do"
  | KElse => S_ "else"
  | KFalse => S_ "false"
  | KFinally => S_ "finally"
  | KFunction => S_ "function"
  | KFor => S_ "for"
  | KIf => S_ "if"
  | KIn => S_ "in"
  | KInstanceOf => S_ "instanceof"
  | KLet => S_ "let"
  | KNew => S_ "new"
  | KNull => S_ "null"
  | KPrivate => S_ "private"
  | KProtected => S_ "protected"
  | KPublic => S_ "public"
  | KReturn => S_ "return"
  | KSwitch => S_ "switch"
  | KThis => S_ "this"
  | KThrow => S_ "throw"
  | KTrue => S_ "true"
  | KTry => S_ "try"
  | KTypeof => S_ "typeof"
  | KStatic => S_ "static"
  | KVar => S_ "var"
  | KWhile => S_ "while"
  end.

Definition keyword_of (s : str) : option keyword :=
  if str_eqb s (S_ "break") then Some KBreak
  else if str_eqb s (S_ "case") then Some KCase
  else if str_eqb s (S_ "catch") then Some KCatch
  else if str_eqb s (S_ "const") then Some KConst
  else if str_eqb s (S_ "continue") then Some KContinue
  else if str_eqb s (S_ "default") then Some KDefault
  else if str_eqb s (S_ "do") then Some KDo
  else if str_eqb s (S_ "else") then Some KElse
  else if str_eqb s (S_ "false") then Some KFalse
  else if str_eqb s (S_ "finally") then Some KFinally
  else if str_eqb s (S_ "function") then Some KFunction
  else if str_eqb s (S_ "for") then Some KFor
  else if str_eqb s (S_ "if") then Some KIf
  else if str_eqb s (S_ "in") then Some KIn
  else if str_eqb s (S_ "instanceof") then Some KInstanceOf
  else if str_eqb s (S_ "let") then Some KLet
  else if str_eqb s (S_ "new") then Some KNew
  else if str_eqb s (S_ "null") then Some KNull
  else if str_eqb s (S_ "private") then Some KPrivate
  else if str_eqb s (S_ "protected") then Some KProtected
  else if str_eqb s (S_ "public") then Some KPublic
  else if str_eqb s (S_ "return") then Some KReturn
  else if str_eqb s (S_ "switch") then Some KSwitch
  else if str_eqb s (S_ "this") then Some KThis
  else if str_eqb s (S_ "throw") then Some KThrow
  else if str_eqb s (S_ "true") then Some KTrue
  else if str_eqb s (S_ "try") then Some KTry
  else if str_eqb s (S_ "typeof") then Some KTypeof
  else if str_eqb s (S_ "static") then Some KStatic
  else if str_eqb s (S_ "var") then Some KVar
  else if str_eqb s (S_ "while") then Some KWhile
  else None.

(** Keyword::requires_before (token.rs 163-165). *)
Definition keyword_requires_before (k : keyword) : bool :=
  match k with KIn | KInstanceOf => true | _ => false end.

(** enum Condition and its Display (token.rs 251-284). *)
Inductive condition :=
| And | Or | DifferentThan | SuperDifferentThan | EqualTo | SuperEqualTo
| CSuperiorThan | SuperiorOrEqualTo | InferiorThan | InferiorOrEqualTo.

Definition condition_show (c : condition) : str :=
  match c with
  | And => S_ "&&" | Or => S_ "||" | DifferentThan => S_ "!=" | SuperDifferentThan => S_ "!=="
  | EqualTo => S_ "==" | SuperEqualTo => S_ "===" | CSuperiorThan => S_ ">"
  | SuperiorOrEqualTo => S_ ">=" | InferiorThan => S_ "<" | InferiorOrEqualTo => S_ "<="
  end.

(** TryFrom<ReservedChar> for Condition (token.rs 286-296). *)
Definition condition_of (c : rchar) : option condition :=
  match c with
  | SuperiorThan => Some CSuperiorThan
  | LessThan => Some InferiorThan
  | _ => None
  end.

(** enum Operation and its Display (token.rs 298-311, 327-347). *)
Inductive operation :=
| Addition | AdditionEqual | Subtract | SubtractEqual | Multiply | MultiplyEqual
| Divide | DivideEqual | OModulo | ModuloEqual | Equal.

Definition operation_show (o : operation) : str :=
  match o with
  | Addition => S_ "+" | AdditionEqual => S_ "+=" | Subtract => S_ "-"
  | SubtractEqual => S_ "-=" | Multiply => S_ "*" | MultiplyEqual => S_ "*="
  | Divide => S_ "/" | DivideEqual => S_ "/=" | OModulo => S_ "%" | ModuloEqual => S_ "%="
  | Equal => S_ "="
  end.

(** TryFrom<ReservedChar> for Operation (token.rs 349-363). *)
Definition operation_of (c : rchar) : option operation :=
  match c with
  | Plus => Some Addition
  | Minus => Some Subtract
  | Slash => Some Divide
  | Star => Some Multiply
  | Modulo => Some OModulo
  | EqualSign => Some Equal
  | _ => None
  end.

(** enum Token (token.rs 365-384).  [Number] holds a [usize]. *)
Inductive token :=
| TKeyword (k : keyword)
| TChar (c : rchar)
| TString (s : str)
| TComment (s : str)
| TLicense (s : str)
| TOther (s : str)
| TRegex (regex : str) (is_global is_interactive : bool)
| TCondition (c : condition)
| TOperation (o : operation)
| TCreatedVarDecl (s : str)
| TCreatedVar (s : str)
| TNumber (n : N)
| TFloatingNumber (s : str).

(** derived PartialEq of Token (token.rs 365). *)
Definition token_eq_dec (a b : token) : {a = b} + {a <> b}.
Proof. decide equality; try apply bool_dec; try apply str_eq_dec; try apply N.eq_dec; decide equality. Defined.

Definition token_eqb (a b : token) : bool := if token_eq_dec a b then true else false.

(** Display for [usize]: decimal digits. *)
Fixpoint uint_show (d : Decimal.uint) : str :=
  match d with
  | Decimal.Nil => []
  | Decimal.D0 r => 0x30 :: uint_show r
  | Decimal.D1 r => 0x31 :: uint_show r
  | Decimal.D2 r => 0x32 :: uint_show r
  | Decimal.D3 r => 0x33 :: uint_show r
  | Decimal.D4 r => 0x34 :: uint_show r
  | Decimal.D5 r => 0x35 :: uint_show r
  | Decimal.D6 r => 0x36 :: uint_show r
  | Decimal.D7 r => 0x37 :: uint_show r
  | Decimal.D8 r => 0x38 :: uint_show r
  | Decimal.D9 r => 0x39 :: uint_show r
  end.

Definition number_show (n : N) : str := uint_show (N.to_uint n).

(** Digits to a number, [None] for a non-digit. *)
Fixpoint uint_of (s : str) : option Decimal.uint :=
  match s with
  | [] => Some Decimal.Nil
  | c :: r =>
      match uint_of r with
      | None => None
      | Some d =>
          if c =? 0x30 then Some (Decimal.D0 d)
          else if c =? 0x31 then Some (Decimal.D1 d)
          else if c =? 0x32 then Some (Decimal.D2 d)
          else if c =? 0x33 then Some (Decimal.D3 d)
          else if c =? 0x34 then Some (Decimal.D4 d)
          else if c =? 0x35 then Some (Decimal.D5 d)
          else if c =? 0x36 then Some (Decimal.D6 d)
          else if c =? 0x37 then Some (Decimal.D7 d)
          else if c =? 0x38 then Some (Decimal.D8 d)
          else if c =? 0x39 then Some (Decimal.D9 d)
          else None
      end
  end.

(** [usize::from_str] and [u64::from_str] of the standard library, for a 64-bit target: an
    optional [+], at least one digit, no overflow. *)
Definition u64_of (s : str) : option N :=
  let digits := match s with c :: r => if c =? 0x2B then r else s | [] => s end in
  match digits with
  | [] => None
  | _ =>
      match uint_of digits with
      | Some d => let n := N.of_uint d in if n <? 2 ^ 64 then Some n else None
      | None => None
      end
  end.

(** [f64::from_str(s).is_ok()] of the standard library: the documented grammar
    Sign? ( inf | infinity | nan | Number ), case-insensitive,
    Number ::= ( Digit+ | Digit+ . Digit* | Digit* . Digit+ ) ( e Sign? Digit+ )? . *)
Definition is_digit (c : N) : bool := (0x30 <=? c) && (c <=? 0x39).

Definition ascii_lower (c : N) : N := if (0x41 <=? c) && (c <=? 0x5A) then c + 32 else c.

Definition drop_sign (s : str) : str :=
  match s with c :: r => if (c =? 0x2B) || (c =? 0x2D) then r else s | [] => s end.

(** Number of leading digits, and what follows. *)
Fixpoint skip_digits (s : str) : nat * str :=
  match s with
  | c :: r => if is_digit c then let (n, t) := skip_digits r in (S n, t) else (0%nat, s)
  | [] => (0%nat, [])
  end.

Definition float_exponent (s : str) : bool :=
  match s with
  | [] => true
  | c :: r =>
      (ascii_lower c =? 0x65)
      && (let (n, t) := skip_digits (drop_sign r) in
          negb (Nat.eqb n 0) && match t with [] => true | _ => false end)
  end.

Definition float_number (s : str) : bool :=
  let (n, t) := skip_digits s in
  match t with
  | c :: r =>
      if c =? 0x2E then
        let (m, u) := skip_digits r in
        negb (Nat.eqb (n + m) 0) && float_exponent u
      else negb (Nat.eqb n 0) && float_exponent t
  | [] => negb (Nat.eqb n 0)
  end.

Definition f64_ok (s : str) : bool :=
  let t := drop_sign s in
  let l := map ascii_lower t in
  str_eqb l (S_ "inf") || str_eqb l (S_ "infinity") || str_eqb l (S_ "nan") || float_number t.

(** Display for Token (token.rs 386-415), as the successive [write_str] calls.  (With a
    failing formatter the regex flags are still written after a failed write of the body:
    see [write_token] in JsUtilModel.v.) *)
Definition token_chunks (t : token) : list str :=
  match t with
  | TKeyword x => [keyword_show x]
  | TChar x => [[rchar_show x]]
  | TString x | TComment x | TOther x => [x]
  | TLicense x => [S_ "/*!"; x; S_ "*/"]
  | TRegex r g i =>
      [S_ "/"; r; S_ "/"] ++ (if g then [S_ "g"] else []) ++ (if i then [S_ "i"] else [])
  | TCondition x => [condition_show x]
  | TOperation x => [operation_show x]
  | TCreatedVarDecl x => [x]
  | TCreatedVar x => [x]
  | TNumber x => [number_show x]
  | TFloatingNumber x => [x]
  end.

Definition token_show (t : token) : str := concat (token_chunks t).

(** Token::is_comment .. is_floating_number (token.rs 418-523). *)
Definition is_comment (t : token) : bool := match t with TComment _ => true | _ => false end.
Definition is_license (t : token) : bool := match t with TLicense _ => true | _ => false end.
Definition is_reserved_char (t : token) : bool := match t with TChar _ => true | _ => false end.
Definition get_char (t : token) : option rchar := match t with TChar c => Some c | _ => None end.
Definition eq_char (k : rchar) (t : token) : bool :=
  match t with TChar c => rchar_eqb c k | _ => false end.
Definition operation_eq_dec (a b : operation) : {a = b} + {a <> b}.
Proof. decide equality. Defined.
Definition eq_operation (k : operation) (t : token) : bool :=
  match t with TOperation o => if operation_eq_dec o k then true else false | _ => false end.
Definition is_operation (t : token) : bool := match t with TOperation _ => true | _ => false end.
Definition is_condition (t : token) : bool := match t with TCondition _ => true | _ => false end.
Definition is_other (t : token) : bool := match t with TOther _ => true | _ => false end.
Definition get_other (t : token) : option str := match t with TOther s => Some s | _ => None end.
Definition is_white_character (t : token) : bool :=
  match t with TChar c => rchar_white c | _ => false end.
Definition is_keyword (t : token) : bool := match t with TKeyword _ => true | _ => false end.
Definition is_string (t : token) : bool := match t with TString _ => true | _ => false end.
Definition get_string_of (t : token) : option str := match t with TString s => Some s | _ => None end.
Definition is_regex (t : token) : bool := match t with TRegex _ _ _ => true | _ => false end.
Definition is_number (t : token) : bool := match t with TNumber _ => true | _ => false end.
Definition is_floating_number (t : token) : bool :=
  match t with TFloatingNumber _ => true | _ => false end.

(** Token::get_required (token.rs 525-534): is a blank required before this token. *)
Definition get_required (t : token) : bool :=
  match t with
  | TKeyword _ | TOther _ | TCreatedVarDecl _ | TNumber _ | TFloatingNumber _ => true
  | _ => false
  end.

(** Token::requires_before (token.rs 536-541). *)
Definition requires_before (t : token) : bool :=
  match t with TKeyword k => keyword_requires_before k | _ => false end.

(** ** MyPeekable (token.rs 846-916)

    [inner] is the CharIndices: the byte offset of its front, and the characters left. *)
Record peekable := {
  ipos : nat; irest : str;
  saved : list (nat * N);
  peeked : option (nat * N);
  is_saving : bool
}.

(** MyPeekable::new (token.rs 854-861). *)
Definition peekable_new (s : str) : peekable :=
  {| ipos := 0; irest := s; saved := []; peeked := None; is_saving := false |}.

(** CharIndices::next of the standard library. *)
Definition inner_next (it : peekable) : option (nat * N) * peekable :=
  match irest it with
  | [] => (None, it)
  | c :: r => (Some (ipos it, c),
               {| ipos := ipos it + len_utf8 c; irest := r; saved := saved it;
                  peeked := peeked it; is_saving := is_saving it |})
  end.

Definition set_saved (it : peekable) (l : list (nat * N)) : peekable :=
  {| ipos := ipos it; irest := irest it; saved := l; peeked := peeked it;
     is_saving := is_saving it |}.
Definition set_peeked (it : peekable) (p : option (nat * N)) : peekable :=
  {| ipos := ipos it; irest := irest it; saved := saved it; peeked := p;
     is_saving := is_saving it |}.
Definition set_saving (it : peekable) (b : bool) : peekable :=
  {| ipos := ipos it; irest := irest it; saved := saved it; peeked := peeked it;
     is_saving := b |}.

(** [if let Some(p) = self.peeked { self.saved.push(p); }] *)
Definition save_peeked (it : peekable) : peekable :=
  match peeked it with Some p => set_saved it (saved it ++ [p]) | None => it end.

(** start_save, drop_save, stop_save (token.rs 863-881). *)
Definition start_save (it : peekable) : peekable := save_peeked (set_saving it true).
Definition drop_save (it : peekable) : peekable := set_saved (set_saving it false) [].
Definition stop_save (it : peekable) : peekable :=
  set_peeked (save_peeked (set_saving it false)) None.

(** peek (token.rs 884-894). *)
Definition peek (it : peekable) : option (nat * N) * peekable :=
  match peeked it with
  | Some p => (Some p, it)
  | None =>
      let (p, it1) := inner_next it in
      let it2 := set_peeked it1 p in
      (p, if is_saving it then save_peeked it2 else it2)
  end.

(** Iterator::next (token.rs 900-915). *)
Definition next (it : peekable) : option (nat * N) * peekable :=
  match peeked it with
  | Some p => (Some p, set_peeked it None)
  | None =>
      if negb (is_saving it) then
        match saved it with
        | p :: l => (Some p, set_saved it l)
        | [] => inner_next it
        end
      else
        match inner_next it with
        | (Some r, it') => (Some r, set_saved it' (saved it' ++ [r]))
        | (None, it') => (None, it')
        end
  end.

(** Characters still to be delivered; every loop below runs with fuel one more than it. *)
Definition left_over (it : peekable) : nat :=
  length (saved it) + (match peeked it with Some _ => 1 | None => 0 end) + length (irest it).

(** get_line_comment (token.rs 545-561).  [start_pos] is already incremented.  Result: the
    token, the new [start_pos], the iterator. *)
Fixpoint line_comment_loop (fuel : nat) (source : str) (it : peekable) (start_pos : nat)
  : outcome (option token * nat * peekable) :=
  match fuel with
  | O => OutOfFuel
  | S n =>
      match next it with
      | (None, it') => Ok (None, start_pos, it')
      | (Some (pos, c), it') =>
          match rchar_of c with
          | Some Backline =>
              let! s := oslice (slice source start_pos pos) in
              Ok (Some (TComment s), pos, it')
          | _ => line_comment_loop n source it' start_pos
          end
      end
  end.

Definition get_line_comment (source : str) (it : peekable) (start_pos : nat) :=
  line_comment_loop (S (left_over it)) source it (S start_pos).

(** The [while back > 0] loop of get_regex (token.rs 569-592): can a regex start after the
    tokens [v] (in reverse order)? *)
Fixpoint regex_allowed (v : list token) : bool :=
  match v with
  | [] => true
  | t :: r =>
      if is_white_character t || is_comment t || is_license t then regex_allowed r
      else match t with
           | TChar SemiColon | TChar Colon | TChar Comma | TChar OpenBracket
           | TChar OpenParenthese | TChar ExclamationMark | TChar OpenCurlyBrace
           | TChar QuestionMark | TChar Backline | TChar Pipe | TChar Ampersand => true
           | _ => is_operation t || is_condition t
           end
  end.

(** The flags loop of get_regex (token.rs 603-611). *)
Fixpoint flags_loop (fuel : nat) (it : peekable) (g i : bool) (add : nat)
  : outcome (bool * bool * nat * peekable) :=
  match fuel with
  | O => OutOfFuel
  | S n =>
      let (p, it1) := peek it in
      match p with
      | Some (_, c) =>
          if c =? 0x69 then flags_loop n (snd (next it1)) g true (S add)
          else if c =? 0x67 then flags_loop n (snd (next it1)) true i (S add)
          else Ok (g, i, add, it1)
      | None => Ok (g, i, add, it1)
      end
  end.

(** The [while let] loop of get_regex (token.rs 594-626). *)
Fixpoint regex_loop (fuel : nat) (source : str) (it : peekable) (start_pos : nat)
  : outcome (option token * nat * peekable) :=
  match fuel with
  | O => OutOfFuel
  | S n =>
      match next it with
      | (None, it') => Ok (None, start_pos, stop_save it')
      | (Some (pos, c), it') =>
          if c =? 0x5C then regex_loop n source (snd (next it')) start_pos
          else
            match rchar_of c with
            | Some Slash =>
                let! (g, i, add, it2) := flags_loop (S (left_over it')) it' false false 0 in
                let! s := oslice (slice source (S start_pos) pos) in
                Ok (Some (TRegex s g i), (pos + add)%nat, drop_save it2)
            | Some Backline => Ok (None, start_pos, stop_save it')
            | _ => regex_loop n source it' start_pos
            end
      end
  end.

(** get_regex (token.rs 563-627). *)
Definition get_regex (source : str) (it : peekable) (start_pos : nat) (v : list token)
  : outcome (option token * nat * peekable) :=
  if regex_allowed v then
    let it' := start_save it in regex_loop (S (left_over it')) source it' start_pos
  else Ok (None, start_pos, it).

(** Checked [usize] subtraction (debug build): underflow panics. *)
Definition usub (a b : nat) : outcome nat :=
  if Nat.leb b a then Ok (a - b)%nat else Panic.

(** The [for] loop of get_comment (token.rs 651-662): the final [current_pos]. *)
Fixpoint comment_loop (fuel : nat) (it : peekable) (prev : rchar) (current_pos : nat)
  : outcome (nat * peekable) :=
  match fuel with
  | O => OutOfFuel
  | S n =>
      match next it with
      | (None, it') => Ok (current_pos, it')
      | (Some (pos, c), it') =>
          match rchar_of c with
          | Some k =>
              if rchar_eqb k Slash && rchar_eqb prev Star then
                let! p := usub pos 2 in Ok (p, it')
              else comment_loop n it' k pos
          | None => comment_loop n it' Space pos
          end
      end
  end.

(** get_comment (token.rs 629-668).  [a..=b] is the slice [a..b+1]. *)
Definition get_comment (source : str) (it : peekable) (start_pos : nat)
  : outcome (token * nat * peekable) :=
  let start1 := S start_pos in
  let (n, it1) := next it in
  let '(license, prev, start2) :=
    match n with
    | Some (_, c) =>
        if c =? 0x21 then (true, Quote, S start1)
        else (false, match rchar_of c with Some k => k | None => Quote end, start1)
    | None => (false, Quote, start1)
    end in
  let! (cur, it2) := comment_loop (S (left_over it1)) it1 prev start2 in
  let! last := usub (blen source) 1 in
  let cur' := Nat.min cur last in
  let! s := oslice (slice source start2 (S cur')) in
  Ok (if license then TLicense s else TComment s, (cur' + 2)%nat, it2).

(** get_string (token.rs 670-692). *)
Fixpoint string_loop (fuel : nat) (source : str) (it : peekable) (start_pos : nat) (start : rchar)
  : outcome (option token * nat * peekable) :=
  match fuel with
  | O => OutOfFuel
  | S n =>
      match next it with
      | (None, it') => Ok (None, start_pos, it')
      | (Some (pos, c), it') =>
          if c =? 0x5C then string_loop n source (snd (next it')) start_pos start
          else
            match rchar_of c with
            | Some k =>
                if rchar_eqb k start then
                  let! s := oslice (slice source start_pos (pos + 1)) in
                  Ok (Some (TString s), pos, it')
                else string_loop n source it' start_pos start
            | None => string_loop n source it' start_pos start
            end
      end
  end.

Definition get_string (source : str) (it : peekable) (start_pos : nat) (start : rchar) :=
  string_loop (S (left_over it)) source it start_pos start.

(** MAX_BACKTICK_NESTING (token.rs 697). *)
Definition max_backtick_nesting : N := 1000.

(** get_backtick_string (token.rs 699-753).  [backtick_loop] is the outer [while let];
    [interp_loop] is the inner [loop] of an interpolation, whose result says whether it was
    left by [break] ([true]) or by [return Ok(None)] ([false]).  [count] is an [i32]; its
    overflow would need 2^31 braces and is not modelled. *)
Fixpoint backtick_loop (fuel : nat) (source : str) (it : peekable) (start_pos : nat) (depth : N)
  : outcome (option token * nat * peekable) :=
  match fuel with
  | O => OutOfFuel
  | S n =>
      match next it with
      | (None, it') => Ok (None, start_pos, it')
      | (Some (pos, c), it') =>
          if c =? 0x5C then backtick_loop n source (snd (next it')) start_pos depth
          else if c =? 0x24 then
            let (p, it2) := peek it' in
            if match p with Some (_, d) => d =? 0x7B | None => false end then
              let! (b, it3) := interp_loop n source it2 depth 0%Z in
              if b then backtick_loop n source it3 start_pos depth
              else Ok (None, start_pos, it3)
            else backtick_loop n source it2 start_pos depth
          else if c =? 0x60 then
            let! s := oslice (slice source start_pos (pos + 1)) in
            Ok (Some (TString s), pos, it')
          else backtick_loop n source it' start_pos depth
      end
  end
with interp_loop (fuel : nat) (source : str) (it : peekable) (depth : N) (count : Z)
  : outcome (bool * peekable) :=
  match fuel with
  | O => OutOfFuel
  | S n =>
      match next it with
      | (None, it') => Ok (false, it')
      | (Some (pos, c), it') =>
          if c =? 0x5C then interp_loop n source (snd (next it')) depth count
          else if (c =? 0x22) || (c =? 0x27) then
            let! (_, it2) :=
              string_loop n source it' pos (if c =? 0x22 then DoubleQuote else Quote) in
            interp_loop n source it2 depth count
          else if c =? 0x60 then
            if max_backtick_nesting <=? depth then Err (S_ "Too nested backtick (`) string")
            else
              let! (_, it2) := backtick_loop n source it' pos (depth + 1) in
              interp_loop n source it2 depth count
          else if c =? 0x7B then interp_loop n source it' depth (count + 1)%Z
          else if c =? 0x7D then
            if Z.eqb (count - 1) 0 then Ok (true, it')
            else interp_loop n source it' depth (count - 1)%Z
          else interp_loop n source it' depth count
      end
  end.

Definition get_backtick_string (source : str) (it : peekable) (start_pos : nat) (depth : N) :=
  backtick_loop (S (left_over it)) source it start_pos depth.

(** first_useful (token.rs 755-763); [v] in reverse order. *)
Fixpoint first_useful (v : list token) : option token :=
  match v with
  | [] => None
  | t :: r => if is_white_character t then first_useful r else Some t
  end.

(** The token of a word: the inner part of fill_other (token.rs 767-775). *)
Definition word_token (s : str) : token :=
  match keyword_of s with
  | Some k => TKeyword k
  | None =>
      match u64_of s with
      | Some n => TNumber n
      | None => if f64_ok s then TFloatingNumber s else TOther s
      end
  end.

(** fill_other (token.rs 765-777); [v] in reverse order. *)
Definition fill_other (source : str) (v : list token) (start pos : nat) : outcome (list token) :=
  if Nat.ltb start pos then
    let! s := oslice (slice source start pos) in Ok (word_token s :: v)
  else Ok v.

(** handle_equal_sign (token.rs 779-833): the new last token, when it applies. *)
Definition equal_sign (v : list token) : option token :=
  match v with
  | TOperation Equal :: _ => Some (TCondition EqualTo)
  | TCondition EqualTo :: _ => Some (TCondition SuperEqualTo)
  | TChar ExclamationMark :: _ => Some (TCondition DifferentThan)
  | TCondition DifferentThan :: _ => Some (TCondition SuperDifferentThan)
  | TOperation Divide :: _ => Some (TOperation DivideEqual)
  | TOperation Multiply :: _ => Some (TOperation MultiplyEqual)
  | TOperation Addition :: _ => Some (TOperation AdditionEqual)
  | TOperation Subtract :: _ => Some (TOperation SubtractEqual)
  | TOperation OModulo :: _ => Some (TOperation ModuloEqual)
  | TCondition CSuperiorThan :: _ => Some (TCondition SuperiorOrEqualTo)
  | TCondition InferiorThan :: _ => Some (TCondition InferiorOrEqualTo)
  | _ => None
  end.

(** check_if_number (token.rs 835-844); [x as u8] keeps the low byte. *)
Definition check_if_number (it : peekable) (start pos : nat) (source : str)
  : outcome (bool * peekable) :=
  let! s := oslice (slice source start pos) in
  if existsb (fun c => c =? 0x2E) s then Ok (false, it)
  else match u64_of s with
       | Some _ => Ok (true, it)
       | None =>
           let (p, it') := peek it in
           match p with
           | Some (_, x) =>
               let b := x mod 256 in Ok ((0x30 <=? b) && (b <=? 0x39), it')
           | None => Ok (false, it')
           end
       end.

(** The characters that let a number continue after a dot (token.rs 935). *)
Definition after_dot : str :=
  S_ "0123456789,; " ++ [0x9; 0xA] ++ S_ "<>/*&|{}[]-+=~%^:!".

(** The last arm of the match (token.rs 1005-1012). *)
Definition plain_token (c : rchar) : token :=
  match operation_of c with
  | Some o => TOperation o
  | None => match condition_of c with
            | Some o => TCondition o
            | None => TChar c
            end
  end.

Definition last_is (f : token -> bool) (v : list token) : bool :=
  match v with t :: _ => f t | [] => false end.

Definition push_opt (o : option token) (v : list token) : list token :=
  match o with Some t => t :: v | None => v end.

(** What one reserved character does after the dot test and fill_other (token.rs 947-1013).
    [v] in reverse order.  Result: the new [v], [pos] and iterator. *)
Definition reserved_step (source : str) (v : list token) (pos : nat) (c : rchar) (it : peekable)
  : outcome (list token * nat * peekable) :=
  let other (it : peekable) :=
    match (if rchar_eqb c EqualSign then equal_sign v else None) with
    | Some t => Ok (t :: tl v, pos, it)
    | None => Ok (plain_token c :: v, pos, it)
    end in
  match c with
  | Quote | DoubleQuote =>
      let! (o, pos', it') := get_string source it pos c in Ok (push_opt o v, pos', it')
  | BackTick =>
      let! (o, pos', it') := get_backtick_string source it pos 0 in Ok (push_opt o v, pos', it')
  | Slash =>
      if last_is (eq_operation Divide) v then
        let! (o, pos', it') := get_line_comment source it pos in Ok (push_opt o (tl v), pos', it')
      else
        let (p, it1) := peek it in
        if match p with
           | Some (_, d) => negb (d =? 0x2F) && negb (d =? 0x2A)
                            && negb (match first_useful v with Some t => is_other t | None => false end)
           | None => false
           end
        then
          let! (o, pos', it') := get_regex source it1 pos v in
          match o with
          | Some r => Ok (r :: v, pos', it')
          | None => Ok (TOperation Divide :: v, pos', it')
          end
        else other it1
  | Star =>
      if last_is (eq_operation Divide) v then
        let! (t, pos', it') := get_comment source it pos in Ok (t :: tl v, pos', it')
      else other it
  | Pipe =>
      if last_is (eq_char Pipe) v then Ok (TCondition Or :: tl v, pos, it) else other it
  | Ampersand =>
      if last_is (eq_char Ampersand) v then Ok (TCondition And :: tl v, pos, it) else other it
  | _ => other it
  end.

(** The test at a dot (token.rs 932-945).  Result: [None] for [continue], or the new [v],
    [start]; and the iterator. *)
Definition dot_step (source : str) (v : list token) (start pos : nat) (c : rchar) (it : peekable)
  : outcome (option (list token * nat) * peekable) :=
  if rchar_eqb c Dot then
    let! (num, it1) := check_if_number it start pos source in
    if num then
      let (p, it2) := peek it1 in
      match p with
      | Some (_, x) =>
          if existsb (fun d => d =? x) after_dot then Ok (None, it2)
          else
            let! v1 := fill_other source v start pos in Ok (Some (v1, pos), it2)
      | None => Ok (None, it2)
      end
    else Ok (Some (v, start), it1)
  else Ok (Some (v, start), it).

(** The loop of tokenize (token.rs 923-1016).  Result: [v] in source order. *)
Fixpoint tokenize_loop (fuel : nat) (source : str) (v : list token) (start : nat) (it : peekable)
  : outcome (list token) :=
  match fuel with
  | O => OutOfFuel
  | S n =>
      match next it with
      | (None, _) => let! v1 := fill_other source v start (blen source) in Ok (rev v1)
      | (Some (pos, ch), it1) =>
          match rchar_of ch with
          | None => tokenize_loop n source v start it1
          | Some c =>
              let! (o, it2) := dot_step source v start pos c it1 in
              match o with
              | None => tokenize_loop n source v start it2
              | Some (v1, start1) =>
                  let! v2 := fill_other source v1 start1 pos in
                  let! (v3, pos', it3) := reserved_step source v2 pos c it2 in
                  tokenize_loop n source v3 (S pos') it3
              end
          end
      end
  end.

(** tokenize (token.rs 918-1018), js::simple_minify (tools.rs 618-620). *)
Definition tokenize (source : str) : outcome (list token) :=
  tokenize_loop (S (length source)) source [] 0 (peekable_new source).
