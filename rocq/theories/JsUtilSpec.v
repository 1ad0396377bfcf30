(** Specifications for the token-list functions of the JS minifier.  They use only the token
    type and its Display. *)
From Coq Require Import String List NArith Bool Lia.
From Verif Require Import Base JsModel.
Import ListNotations.
Open Scope N_scope.

(** Comments and whitespace. *)
Definition useless (t : token) : bool :=
  match t with
  | TComment _ | TChar Space | TChar Tab | TChar Backline => true
  | _ => false
  end.

Definition is_semicolon (t : token) : Prop := t = TChar SemiColon.

(** Keep the elements marked [true]. *)
Fixpoint select {A} (mask : list bool) (l : list A) : list A :=
  match mask, l with
  | b :: mask', a :: l' => if b then a :: select mask' l' else select mask' l'
  | _, _ => []
  end.

(** ** clean_tokens_except: when a token is dropped

    [closing f after]: the first token of [after] that is not a droppable blank is a closing
    curly brace, or there is none. *)
Definition droppable (f : token -> bool) (t : token) : Prop := useless t = true /\ f t = true.

Definition closing (f : token -> bool) (after : list token) : Prop :=
  Forall (droppable f) after
  \/ exists pre r, after = pre ++ TChar CloseCurlyBrace :: r /\ Forall (droppable f) pre.

(** [t] may be dropped, [before] being the tokens kept so far. *)
Definition may_drop (f : token -> bool) (before : list token) (t : token) (after : list token) : Prop :=
  f t = true
  /\ (useless t = true
      \/ (t = TChar SemiColon /\ (before = [] \/ closing f after))).

(** [t] may be kept.  A semicolon right after a kept semicolon is not looked at. *)
Definition may_keep (f : token -> bool) (before : list token) (t : token) (after : list token) : Prop :=
  f t = false
  \/ (useless t = false
      /\ (t = TChar SemiColon ->
          before <> []
          /\ (~ closing f after \/ exists b, before = b ++ [TChar SemiColon]))).

(** Words: tokens made of identifier characters. *)
Definition word_left (t : token) : bool :=
  match t with TKeyword _ | TOther _ => true | _ => false end.

Definition word_right (t : token) : bool :=
  match t with
  | TKeyword _ | TOther _ | TNumber _ | TFloatingNumber _ | TCreatedVarDecl _ => true
  | _ => false
  end.

Definition is_in (t : token) : bool :=
  match t with TKeyword KIn | TKeyword KInstanceOf => true | _ => false end.

Definition char_or_string (t : token) : bool :=
  match t with TChar _ | TString _ => true | _ => false end.

(** The separator printed between two adjacent tokens. *)
Definition separator (a b : token) : str :=
  if (word_left a && word_right b) || (is_in b && negb (char_or_string a)) then [0x20] else [].

Fixpoint joined (ts : list token) : str :=
  match ts with
  | [] => []
  | a :: r =>
      token_show a
      ++ match r with
         | [] => []
         | b :: _ => separator a b ++ joined r
         end
  end.

(** A declarator [name = value] or [name ,] / [name ;] at position [n] of a token list:
    [declares ts n (Some v)] when only blanks, one equal sign and blanks separate the name
    from its value at [v] (no line feed before the equal sign), [declares ts n None] when
    blanks without line feed separate the name from a comma or semicolon. *)
Definition is_name (t : token) : bool := match t with TOther _ => true | _ => false end.

Definition is_value (t : token) : bool :=
  match t with
  | TString _ | TOther _ | TRegex _ _ _ | TNumber _ | TFloatingNumber _ => true
  | _ => false
  end.

Definition same_line_blank (t : token) : bool :=
  match t with TComment _ | TChar Space | TChar Tab => true | _ => false end.

Definition between (f : token -> bool) (ts : list token) (i j : nat) : Prop :=
  forall k t, (i < k)%nat -> (k < j)%nat -> nth_error ts k = Some t -> f t = true.

Definition declares (ts : list token) (n : nat) (r : option nat) : Prop :=
  (exists t, nth_error ts n = Some t /\ is_name t = true) /\
  match r with
  | Some v =>
      exists e t,
        (n < e)%nat /\ (e < v)%nat
        /\ nth_error ts e = Some (TOperation Equal)
        /\ nth_error ts v = Some t /\ is_value t = true
        /\ between same_line_blank ts n e /\ between useless ts e v
  | None =>
      exists e t,
        (n < e)%nat /\ nth_error ts e = Some t
        /\ (t = TChar Comma \/ t = TChar SemiColon)
        /\ between same_line_blank ts n e
  end.

(** Where a search may start: at [let] / [var], or at a name that follows, across blanks, one
    of these or a comma (the token at index 0 is not looked at). *)
Definition search_from (ts : list token) (pos start : nat) : Prop :=
  (exists k, nth_error ts pos = Some (TKeyword k) /\ (k = KLet \/ k = KVar) /\ start = S pos)
  \/ (exists s, nth_error ts pos = Some (TOther s) /\ (0 < pos)%nat /\ start = pos
      /\ exists q, (q < pos)%nat /\ between useless ts q pos
         /\ (q = 0%nat
             \/ nth_error ts q = Some (TChar Comma)
             \/ nth_error ts q = Some (TKeyword KLet)
             \/ nth_error ts q = Some (TKeyword KVar))).

(** Alphanumeric ASCII. *)
Definition alnum (c : N) : bool :=
  ((0x61 <=? c) && (c <=? 0x7A)) || ((0x41 <=? c) && (c <=? 0x5A)) || ((0x30 <=? c) && (c <=? 0x39)).
