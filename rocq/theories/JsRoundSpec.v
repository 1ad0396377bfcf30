(** Specification for the round trip of the JS minifier: which neighbours cannot be read back
    once they are printed side by side, and the tokens of the printed text.

    It uses the token type, its Display, and [separator] (JsUtilSpec), [operators] and
    [dot_joins] (JsLexSpec). *)
From Coq Require Import String List NArith Bool Lia.
From Verif Require Import Base JsModel JsUtilSpec JsLexSpec.
Import ListNotations.
Open Scope N_scope.

(** Words: keywords, names and numbers. *)
Definition wordy (t : token) : bool :=
  match t with TKeyword _ | TOther _ | TNumber _ | TFloatingNumber _ => true | _ => false end.

Definition word_text (p : option token) : str :=
  match p with Some t => if wordy t then token_show t else [] | None => [] end.

(** What is printed after [a] when [b] is the next token; only its first character matters. *)
Definition follow (a : token) (b : option token) : str :=
  match b with Some b => separator a b ++ token_show b | None => [] end.

(** One more character makes [o] another operator. *)
Definition extends (o : str) (s : str) : bool :=
  match s with
  | c :: _ => existsb (fun q => str_eqb (fst q) (o ++ [c])) operators
  | [] => false
  end.

Definition starts_with (f : N -> bool) (s : str) : bool :=
  match s with c :: _ => f c | [] => false end.

Definition ends_with_dot (s : str) : bool :=
  match rev s with c :: _ => c =? 0x2E | [] => false end.

(** [glued p a b]: the token [a] between the tokens [p] and [b] (if any) cannot be told from
    its neighbours in the printed text:
    - a number with a word directly behind (a line feed was dropped), or a number that ends in
      a dot with something behind that would not end it;
    - a dot that would become part of the number or word before it;
    - a slash that would open a comment or become another operator;
    - an operator that would become a longer one;
    - a regular expression with a letter behind that would be read as a flag. *)
Definition glued (p : option token) (a : token) (b : option token) : bool :=
  match a with
  | TNumber _ | TFloatingNumber _ =>
      match b with Some b => word_right b && negb (is_in b) | None => false end
      || (ends_with_dot (token_show a) && negb (dot_joins (removelast (token_show a)) (follow a b)))
  | TChar Dot => dot_joins (word_text p) (follow a b)
  | TOperation Divide => starts_with (fun c => mem_char c (S_ "/*=")) (follow a b)
  | TOperation _ | TCondition _ | TChar _ => extends (token_show a) (follow a b)
  | TRegex _ _ _ => starts_with flag (follow a b)
  | _ => false
  end.

(** Nothing printed for the tokens [r] ends a line, and there is no slash, dot, backtick or
    backslash in it. *)
Definition quiet_text (r : list token) : bool :=
  forallb (fun t => forallb (fun c => negb (newline c) && negb (mem_char c [0x2F; 0x2E; 0x60; 0x5C]))
                            (token_show t)) r.

(** [stray v a r]: the slash [a] between the tokens [v] (last first) and [r] stands where the
    tokenizer looks for a regular expression, as in [x++ / y], and the text behind it may be
    taken for one. *)
Definition stray (v : list token) (a : token) (r : list token) : bool :=
  match a with
  | TOperation Divide | TOperation DivideEqual => regex_here v && negb (quiet_text r)
  | _ => false
  end.

(** No token of [ts] is glued, [v] being the tokens before (last first), and no slash is taken
    for the start of a regular expression. *)
Fixpoint apart (v : list token) (ts : list token) : bool :=
  match ts with
  | [] => true
  | a :: r => negb (glued (hd_error v) a (hd_error r)) && negb (stray v a r) && apart (a :: v) r
  end.

(** The tokens with a blank wherever the printer puts one. *)
Fixpoint spaced (ts : list token) : list token :=
  match ts with
  | [] => []
  | a :: r =>
      a :: match r with
           | [] => []
           | b :: _ => (match separator a b with [] => [] | _ => [TChar Space] end) ++ spaced r
           end
  end.

(** An [in] or [instanceof] right behind a token that is neither a word, a character, a string
    nor a blank: the printer puts a blank where the source had none. *)
Definition crowded (a b : token) : bool :=
  is_in b
  && match a with TLicense _ | TRegex _ _ _ | TOperation _ | TCondition _ => true | _ => false end.

Fixpoint crowds (ts : list token) : nat :=
  match ts with
  | a :: ((b :: _) as r) => ((if crowded a b then 1 else 0) + crowds r)%nat
  | _ => 0%nat
  end.
