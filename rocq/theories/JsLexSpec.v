(** Lexical specification for the JavaScript tokenizer.

    [lexes] says how a source text that has no unterminated literal, comment or regular
    expression is cut into tokens.  It works on the text only: no positions, no iterator, no
    look-ahead buffer.  Sources outside the relation are those for which tokenize has to give
    up on a literal, a comment or a regular expression it started to read. *)
From Coq Require Import String List NArith ZArith Bool.
From Verif Require Import Base JsModel.
Import ListNotations.
Open Scope N_scope.

Definition mem_char (c : N) (l : str) : bool := existsb (N.eqb c) l.

(** Line ends and blanks. *)
Definition newline (c : N) : bool := (c =? 0xA) || (c =? 0xD).

(** The characters that are not part of words (a dot may be, see [dot_joins]). *)
Definition punctuation : str :=
  S_ ",(){}[]:;.'!?/%*-+=\ <>|&`" ++ [0x22; 0x9; 0xA; 0xD].

Definition word_char (c : N) : bool := negb (mem_char c punctuation).

(** Words: keywords, numbers, other words.  [word_token] (JsModel) is the classification by
    the standard library's number parsers; C49 proves that it is [classified] below. *)
Definition flush (w : str) (v : list token) : list token :=
  match w with [] => v | _ => word_token w :: v end.

(** A dot continues the word [w] before it, [s] being what follows: in a decimal integer when a
    delimiter, a digit or the end follows, and in anything else when a digit follows; never in
    a word that has a dot already. *)
Definition integer (w : str) : bool :=
  match u64_of w with Some _ => true | None => false end.

Definition number_delimiter (c : N) : bool :=
  mem_char c (S_ ",; <>/*&|{}[]-+=~%^:!") || (c =? 0x9) || (c =? 0xA).

Definition dot_joins (w s : str) : bool :=
  negb (mem_char 0x2E w)
  && match s with
     | [] => integer w
     | c :: _ => is_digit c || (integer w && number_delimiter c)
     end.

(** Punctuation that is a token by itself. *)
Definition simple_punct (c : N) : option token :=
  if c =? 0x2C then Some (TChar Comma)
  else if c =? 0x28 then Some (TChar OpenParenthese)
  else if c =? 0x29 then Some (TChar CloseParenthese)
  else if c =? 0x7B then Some (TChar OpenCurlyBrace)
  else if c =? 0x7D then Some (TChar CloseCurlyBrace)
  else if c =? 0x5B then Some (TChar OpenBracket)
  else if c =? 0x5D then Some (TChar CloseBracket)
  else if c =? 0x3A then Some (TChar Colon)
  else if c =? 0x3B then Some (TChar SemiColon)
  else if c =? 0x3F then Some (TChar QuestionMark)
  else if c =? 0x5C then Some (TChar Backslash)
  else if c =? 0x20 then Some (TChar Space)
  else if c =? 0x9 then Some (TChar Tab)
  else if newline c then Some (TChar Backline)
  else None.

(** Operators; the longest one that fits is read. *)
Definition operators : list (str * token) :=
  [ (S_ "=", TOperation Equal); (S_ "==", TCondition EqualTo); (S_ "===", TCondition SuperEqualTo);
    (S_ "!", TChar ExclamationMark); (S_ "!=", TCondition DifferentThan);
    (S_ "!==", TCondition SuperDifferentThan);
    (S_ "+", TOperation Addition); (S_ "+=", TOperation AdditionEqual);
    (S_ "-", TOperation Subtract); (S_ "-=", TOperation SubtractEqual);
    (S_ "*", TOperation Multiply); (S_ "*=", TOperation MultiplyEqual);
    (S_ "%", TOperation OModulo); (S_ "%=", TOperation ModuloEqual);
    (S_ ">", TCondition CSuperiorThan); (S_ ">=", TCondition SuperiorOrEqualTo);
    (S_ "<", TCondition InferiorThan); (S_ "<=", TCondition InferiorOrEqualTo);
    (S_ "&", TChar Ampersand); (S_ "&&", TCondition And);
    (S_ "|", TChar Pipe); (S_ "||", TCondition Or) ].

Fixpoint prefix (p s : str) : bool :=
  match p, s with
  | [], _ => true
  | a :: p', b :: s' => (a =? b) && prefix p' s'
  | _ :: _, [] => false
  end.

(** No operator longer than [o] is a prefix of [o ++ s]. *)
Definition longest (o s : str) : bool :=
  forallb (fun q => negb (prefix (fst q) (o ++ s) && Nat.ltb (length o) (length (fst q)))) operators.

(** String literals between two quotes [q]. *)
Inductive string_body (q : N) : str -> Prop :=
| sb_nil : string_body q []
| sb_char : forall c s, c <> q -> c <> 0x5C -> string_body q s -> string_body q (c :: s)
| sb_escape : forall c s, string_body q s -> string_body q (0x5C :: c :: s).

(** Template literals between two backticks, [d] being the nesting depth, and the text of an
    interpolation from inside [k] braces to its closing brace. *)
Inductive template_body : N -> str -> Prop :=
| tb_nil : forall d, template_body d []
| tb_char : forall d c s, c <> 0x60 -> c <> 0x5C -> c <> 0x24 ->
    template_body d s -> template_body d (c :: s)
| tb_escape : forall d c s, template_body d s -> template_body d (0x5C :: c :: s)
| tb_dollar : forall d s, hd_error s <> Some 0x7B -> template_body d s -> template_body d (0x24 :: s)
| tb_interpolation : forall d i s, interpolation d 1 i -> template_body d s ->
    template_body d (0x24 :: 0x7B :: i ++ s)
with interpolation : N -> nat -> str -> Prop :=
| ip_end : forall d, interpolation d 1 [0x7D]
| ip_close : forall d k s, interpolation d (S k) s -> interpolation d (S (S k)) (0x7D :: s)
| ip_open : forall d k s, interpolation d (S k) s -> interpolation d k (0x7B :: s)
| ip_char : forall d k c s, mem_char c [0x7B; 0x7D; 0x5C; 0x22; 0x27; 0x60] = false ->
    interpolation d k s -> interpolation d k (c :: s)
| ip_escape : forall d k c s, interpolation d k s -> interpolation d k (0x5C :: c :: s)
| ip_string : forall d k q b s, (q = 0x22 \/ q = 0x27) -> string_body q b ->
    interpolation d k s -> interpolation d k (q :: b ++ q :: s)
| ip_template : forall d k b s, d < 1000 -> template_body (d + 1) b ->
    interpolation d k s -> interpolation d k (0x60 :: b ++ 0x60 :: s).

(** Regular expressions: the body between the slashes, and where they may start ([v] are the
    tokens before, last first). *)
Inductive regex_body : str -> Prop :=
| rb_nil : regex_body []
| rb_char : forall c s, c <> 0x2F -> c <> 0x5C -> newline c = false ->
    regex_body s -> regex_body (c :: s)
| rb_escape : forall c s, regex_body s -> regex_body (0x5C :: c :: s).

Definition flag (c : N) : bool := (c =? 0x67) || (c =? 0x69).

Definition insignificant (t : token) : bool :=
  match t with
  | TComment _ | TLicense _ | TChar Space | TChar Tab | TChar Backline => true
  | _ => false
  end.

Fixpoint significant (v : list token) : option token :=
  match v with
  | t :: r => if insignificant t then significant r else Some t
  | [] => None
  end.

Definition regex_after (t : token) : bool :=
  match t with
  | TChar SemiColon | TChar Colon | TChar Comma | TChar OpenBracket | TChar OpenParenthese
  | TChar ExclamationMark | TChar OpenCurlyBrace | TChar QuestionMark | TChar Pipe
  | TChar Ampersand | TOperation _ | TCondition _ => true
  | _ => false
  end.

Definition regex_here (v : list token) : bool :=
  match significant v with Some t => regex_after t | None => true end.

(** Comments: the text before the first star-slash. *)
Fixpoint has_comment_end (s : str) : bool :=
  match s with
  | a :: (b :: _) as r => ((a =? 0x2A) && (b =? 0x2F)) || has_comment_end r
  | _ => false
  end.

(** [c ++ "*"] contains no star-slash. *)
Definition comment_body (c : str) : bool := negb (has_comment_end (c ++ [0x2A])).

(** Decimal numbers. *)
Definition digits (s : str) : Prop := Forall (fun c => 0x30 <= c <= 0x39) s.
Definition value (s : str) : N := fold_left (fun n c => 10 * n + (c - 0x30)) s 0.

Inductive exponent : str -> Prop :=
| ex_none : exponent []
| ex_some : forall c d, (c = 0x65 \/ c = 0x45) -> d <> [] -> digits d -> exponent (c :: d).

(** The texts of floating point numbers without a sign. *)
Inductive float_text : str -> Prop :=
| ft_integer : forall i e, i <> [] -> digits i -> exponent e -> float_text (i ++ e)
| ft_point : forall i f e, i ++ f <> [] -> digits i -> digits f -> exponent e ->
    float_text (i ++ 0x2E :: f ++ e)
| ft_name : forall s, In (map ascii_lower s) [S_ "inf"; S_ "infinity"; S_ "nan"] -> float_text s.

Definition small_integer (w : str) : Prop := w <> [] /\ digits w /\ value w < 2 ^ 64.

Inductive classified (w : str) : token -> Prop :=
| cl_keyword : forall k, w = keyword_show k -> classified w (TKeyword k)
| cl_number : small_integer w -> classified w (TNumber (value w))
| cl_float : ~ small_integer w -> float_text w -> classified w (TFloatingNumber w)
| cl_other : (forall k, w <> keyword_show k) -> ~ small_integer w -> ~ float_text w ->
    classified w (TOther w).

(** [open_line l s]: [l] is the rest of a line and [s] what follows it; no slash of the line could
    close a regular expression, and none of its characters makes the tokenizer look ahead. *)
Definition open_line (l s : str) : Prop :=
  Forall (fun c => newline c = false /\ mem_char c [0x2F; 0x2E; 0x60; 0x5C] = false) l
  /\ (s = [] \/ exists n r, s = n :: r /\ newline n = true).

(** [reads_token v w s v' w' s']: with tokens [v] read (last first), the word [w] begun and the
    text [s] to come, reading one character of a word, or one other token, leads to [v'], [w']
    and [s']. *)
Inductive reads_token : list token -> str -> str -> list token -> str -> str -> Prop :=
| rd_word : forall v w c s, word_char c = true -> reads_token v w (c :: s) v (w ++ [c]) s
| rd_word_dot : forall v w s, dot_joins w s = true ->
    reads_token v w (0x2E :: s) v (w ++ [0x2E]) s
| rd_dot : forall v w s, dot_joins w s = false ->
    reads_token v w (0x2E :: s) (TChar Dot :: flush w v) [] s
| rd_punct : forall v w c t s, simple_punct c = Some t ->
    reads_token v w (c :: s) (t :: flush w v) [] s
| rd_operator : forall v w o t s, In (o, t) operators -> longest o s = true ->
    reads_token v w (o ++ s) (t :: flush w v) [] s
| rd_divide : forall v w s,
    (s = [] \/ regex_here (flush w v) = false) ->
    (forall c, hd_error s = Some c -> mem_char c (S_ "/*=") = false) ->
    reads_token v w (0x2F :: s) (TOperation Divide :: flush w v) [] s
| rd_divide_equal : forall v w s, regex_here (flush w v) = false ->
    reads_token v w (0x2F :: 0x3D :: s) (TOperation DivideEqual :: flush w v) [] s
| rd_string : forall v w q b s, (q = 0x22 \/ q = 0x27) -> string_body q b ->
    reads_token v w (q :: b ++ q :: s) (TString (q :: b ++ [q]) :: flush w v) [] s
| rd_template : forall v w b s, template_body 0 b ->
    reads_token v w (0x60 :: b ++ 0x60 :: s) (TString (0x60 :: b ++ [0x60]) :: flush w v) [] s
| rd_line_comment : forall v w b n s,
    Forall (fun c => newline c = false) b -> newline n = true ->
    reads_token v w (0x2F :: 0x2F :: b ++ n :: s) (TComment b :: flush w v) [] s
| rd_comment : forall v w b s, comment_body b = true -> hd_error b <> Some 0x21 ->
    reads_token v w (0x2F :: 0x2A :: b ++ 0x2A :: 0x2F :: s) (TComment b :: flush w v) [] s
| rd_license : forall v w b s, comment_body b = true ->
    reads_token v w (0x2F :: 0x2A :: 0x21 :: b ++ 0x2A :: 0x2F :: s) (TLicense b :: flush w v) [] s
| rd_regex : forall v w b f s,
    regex_here (flush w v) = true -> regex_body b ->
    (exists c, hd_error b = Some c /\ mem_char c (S_ "/*") = false) ->
    Forall (fun c => flag c = true) f -> (forall c, hd_error s = Some c -> flag c = false) ->
    reads_token v w (0x2F :: b ++ 0x2F :: f ++ s)
      (TRegex b (mem_char 0x67 f) (mem_char 0x69 f) :: flush w v) [] s
| rd_open : forall v w l s,
    regex_here (flush w v) = true -> open_line l s ->
    (exists c, hd_error (l ++ s) = Some c /\ mem_char c (S_ "/*=") = false) ->
    reads_token v w (0x2F :: l ++ s) (TOperation Divide :: flush w v) [] (l ++ s)
| rd_open_equal : forall v w l s,
    regex_here (flush w v) = true -> open_line l s ->
    reads_token v w (0x2F :: 0x3D :: l ++ s) (TOperation DivideEqual :: flush w v) [] (l ++ s).

(** Any number of steps. *)
Inductive reads : list token -> str -> str -> list token -> str -> str -> Prop :=
| reads_none : forall v w s, reads v w s v w s
| reads_more : forall v w s v1 w1 s1 v2 w2 s2,
    reads_token v w s v1 w1 s1 -> reads v1 w1 s1 v2 w2 s2 -> reads v w s v2 w2 s2.

(** The whole of [s] is read and gives the tokens [ts]. *)
Definition lexes (s : str) (ts : list token) : Prop :=
  exists v w, reads [] [] s v w [] /\ ts = rev (flush w v).

(** No slash on the last line. *)
Definition last_line_slashless (s : str) : Prop :=
  forall p l, s = p ++ 0x2F :: l -> exists c, In c l /\ newline c = true.

(** The other texts that can be met with the tokens [v] before: a literal, comment or regular
    expression is begun and does not end. *)
Inductive unclosed (v : list token) : str -> Prop :=
| uc_string : forall q r, (q = 0x22 \/ q = 0x27) ->
    ~ (exists b s, string_body q b /\ r = b ++ q :: s) -> unclosed v (q :: r)
| uc_template : forall r,
    ~ (exists b s, template_body 0 b /\ r = b ++ 0x60 :: s) -> unclosed v (0x60 :: r)
| uc_line_comment : forall r, Forall (fun c => newline c = false) r -> unclosed v (0x2F :: 0x2F :: r)
| uc_comment : forall r, has_comment_end r = false -> unclosed v (0x2F :: 0x2A :: r)
| uc_regex : forall c r, regex_here v = true -> mem_char c (S_ "/*") = false ->
    ~ (exists b s, regex_body b /\ c :: r = b ++ 0x2F :: s) ->
    ~ (exists l s, c :: r = l ++ s /\ open_line l s) -> unclosed v (0x2F :: c :: r).

(** [too_deep d s]: inside a template literal at depth [d], the text [s] opens a template literal
    at a depth beyond 1000. *)
Inductive too_deep : N -> str -> Prop :=
| td_char : forall d c s, c <> 0x60 -> c <> 0x5C -> c <> 0x24 -> too_deep d s -> too_deep d (c :: s)
| td_escape : forall d c s, too_deep d s -> too_deep d (0x5C :: c :: s)
| td_dollar : forall d s, hd_error s <> Some 0x7B -> too_deep d s -> too_deep d (0x24 :: s)
| td_after : forall d i s, interpolation d 1 i -> too_deep d s -> too_deep d (0x24 :: 0x7B :: i ++ s)
| td_inside : forall d s, too_deep_in d 1 s -> too_deep d (0x24 :: 0x7B :: s)
with too_deep_in : N -> nat -> str -> Prop :=
| ti_close : forall d k s, too_deep_in d (S k) s -> too_deep_in d (S (S k)) (0x7D :: s)
| ti_open : forall d k s, too_deep_in d (S k) s -> too_deep_in d k (0x7B :: s)
| ti_char : forall d k c s, mem_char c [0x7B; 0x7D; 0x5C; 0x22; 0x27; 0x60] = false ->
    too_deep_in d k s -> too_deep_in d k (c :: s)
| ti_escape : forall d k c s, too_deep_in d k s -> too_deep_in d k (0x5C :: c :: s)
| ti_string : forall d k q b s, (q = 0x22 \/ q = 0x27) -> string_body q b ->
    too_deep_in d k s -> too_deep_in d k (q :: b ++ q :: s)
| ti_template : forall d k b s, d < 1000 -> template_body (d + 1) b ->
    too_deep_in d k s -> too_deep_in d k (0x60 :: b ++ 0x60 :: s)
| ti_inner : forall d k s, d < 1000 -> too_deep (d + 1) s -> too_deep_in d k (0x60 :: s)
| ti_limit : forall d k s, 1000 <= d -> too_deep_in d k (0x60 :: s).

(** The error message of tokenize. *)
Definition nesting_error : str := S_ "Too nested backtick (`) string".

(** [spells p t]: the source text [p] is written for the token [t]. *)
Inductive spells : str -> token -> Prop :=
| sp_word : forall p t, p <> [] -> Forall (fun c => word_char c = true \/ c = 0x2E) p ->
    classified p t -> spells p t
| sp_dot : spells [0x2E] (TChar Dot)
| sp_punct : forall c t, simple_punct c = Some t -> spells [c] t
| sp_operator : forall o t, In (o, t) operators -> spells o t
| sp_divide : spells [0x2F] (TOperation Divide)
| sp_divide_equal : spells [0x2F; 0x3D] (TOperation DivideEqual)
| sp_string : forall q b, (q = 0x22 \/ q = 0x27) -> string_body q b ->
    spells (q :: b ++ [q]) (TString (q :: b ++ [q]))
| sp_template : forall b, template_body 0 b ->
    spells (0x60 :: b ++ [0x60]) (TString (0x60 :: b ++ [0x60]))
| sp_line_comment : forall b n, Forall (fun c => newline c = false) b -> newline n = true ->
    spells (0x2F :: 0x2F :: b ++ [n]) (TComment b)
| sp_comment : forall b, comment_body b = true ->
    spells (0x2F :: 0x2A :: b ++ [0x2A; 0x2F]) (TComment b)
| sp_license : forall b, comment_body b = true ->
    spells (0x2F :: 0x2A :: 0x21 :: b ++ [0x2A; 0x2F]) (TLicense b)
| sp_regex : forall b f, regex_body b -> Forall (fun c => flag c = true) f ->
    spells (0x2F :: b ++ 0x2F :: f) (TRegex b (mem_char 0x67 f) (mem_char 0x69 f)).

(** Sources without slash in which every string and template literal is closed. *)
Inductive closed_literals : str -> Prop :=
| cs_nil : closed_literals []
| cs_char : forall c s, mem_char c [0x22; 0x27; 0x60; 0x2F] = false ->
    closed_literals s -> closed_literals (c :: s)
| cs_string : forall q b s, (q = 0x22 \/ q = 0x27) -> string_body q b ->
    closed_literals s -> closed_literals (q :: b ++ q :: s)
| cs_template : forall b s, template_body 0 b ->
    closed_literals s -> closed_literals (0x60 :: b ++ 0x60 :: s).

(** [reprints p q]: the text [q] is [p] up to the spelling of a line end or of an integer. *)
Inductive reprints : str -> str -> Prop :=
| rp_same : forall p, reprints p p
| rp_newline : reprints [0xD] [0xA]
| rp_integer : forall z p, Forall (fun c => c = 0x30) z -> p <> [] -> digits p -> reprints (z ++ p) p.

(** [ends_in v s o]: with the tokens [v] read (last first) and [s] left, which cannot be read
    further, the result is [o]. *)
Inductive ends_in (v : list token) : str -> outcome (list token) -> Prop :=
| ei_end : ends_in v [] (Ok (rev v))
| ei_string : forall q r, (q = 0x22 \/ q = 0x27) ->
    ~ (exists b s, string_body q b /\ r = b ++ q :: s) -> ends_in v (q :: r) (Ok (rev (flush r v)))
| ei_template : forall r, ~ (exists b s, template_body 0 b /\ r = b ++ 0x60 :: s) ->
    ~ too_deep 0 r -> ends_in v (0x60 :: r) (Ok (rev (flush r v)))
| ei_deep : forall r, too_deep 0 r -> ends_in v (0x60 :: r) (Err nesting_error)
| ei_line_empty : ends_in v [0x2F; 0x2F] (Ok (rev v))
| ei_line : forall c r, Forall (fun c => newline c = false) (c :: r) -> c < 0x80 ->
    ends_in v (0x2F :: 0x2F :: c :: r) (Ok (rev (flush r v)))
| ei_line_panic : forall c r, Forall (fun c => newline c = false) (c :: r) -> 0x80 <= c ->
    ends_in v (0x2F :: 0x2F :: c :: r) Panic
| ei_comment : forall r, has_comment_end r = false -> hd_error r <> Some 0x21 ->
    (r = [] \/ exists x c, r = x ++ [c] /\ c < 0x80) ->
    ends_in v (0x2F :: 0x2A :: r) (Ok (rev (TComment r :: v)))
| ei_license : forall r, has_comment_end (0x21 :: r) = false ->
    (r = [] \/ exists x c, r = x ++ [c] /\ c < 0x80) ->
    ends_in v (0x2F :: 0x2A :: 0x21 :: r) (Ok (rev (TLicense r :: v)))
| ei_comment_panic : forall x c, has_comment_end (x ++ [c]) = false -> 0x80 <= c ->
    ends_in v (0x2F :: 0x2A :: x ++ [c]) Panic
| ei_regex : forall c r o, regex_here v = true -> mem_char c (S_ "/*") = false ->
    ~ (exists b s, regex_body b /\ c :: r = b ++ 0x2F :: s) ->
    ~ (exists l s, c :: r = l ++ s /\ open_line l s) -> ends_in v (0x2F :: c :: r) o.
