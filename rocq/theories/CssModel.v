(** Model of src/css/token.rs and src/css/mod.rs. *)
From Coq Require Import String List NArith ZArith Bool.
From Verif Require Import Base.
Import ListNotations.
Open Scope N_scope.

(** enum ReservedChar (token.rs 9-34). *)
Inductive rchar :=
| Comma | SuperiorThan | OpenParenthese | CloseParenthese | OpenCurlyBrace
| CloseCurlyBrace | OpenBracket | CloseBracket | Colon | SemiColon | Slash
| Plus | EqualSign | Space | Tab | Backline | Star | Quote | DoubleQuote
| Pipe | Tilde | Dollar | Circumflex | Backslash.

(** derived PartialEq of ReservedChar (token.rs 8). *)
Definition rchar_eq_dec (a b : rchar) : {a = b} + {a <> b}.
Proof. decide equality. Defined.

Definition rchar_eqb (a b : rchar) : bool := if rchar_eq_dec a b then true else false.

(** Display for ReservedChar (token.rs 36-69). *)
Definition rchar_show (c : rchar) : N :=
  match c with
  | Comma => 0x2C
  | OpenParenthese => 0x28
  | CloseParenthese => 0x29
  | OpenCurlyBrace => 0x7B
  | CloseCurlyBrace => 0x7D
  | OpenBracket => 0x5B
  | CloseBracket => 0x5D
  | Colon => 0x3A
  | SemiColon => 0x3B
  | Slash => 0x2F
  | Star => 0x2A
  | Plus => 0x2B
  | EqualSign => 0x3D
  | Space => 0x20
  | Tab => 0x9
  | Backline => 0xA
  | SuperiorThan => 0x3E
  | Quote => 0x27
  | DoubleQuote => 0x22
  | Pipe => 0x7C
  | Tilde => 0x7E
  | Dollar => 0x24
  | Circumflex => 0x5E
  | Backslash => 0x5C
  end.

(** TryFrom<char> for ReservedChar (token.rs 71-103). *)
Definition rchar_of (c : N) : option rchar :=
  if c =? 0x27 then Some Quote
  else if c =? 0x22 then Some DoubleQuote
  else if c =? 0x2C then Some Comma
  else if c =? 0x28 then Some OpenParenthese
  else if c =? 0x29 then Some CloseParenthese
  else if c =? 0x7B then Some OpenCurlyBrace
  else if c =? 0x7D then Some CloseCurlyBrace
  else if c =? 0x5B then Some OpenBracket
  else if c =? 0x5D then Some CloseBracket
  else if c =? 0x3A then Some Colon
  else if c =? 0x3B then Some SemiColon
  else if c =? 0x2F then Some Slash
  else if c =? 0x2A then Some Star
  else if c =? 0x2B then Some Plus
  else if c =? 0x3D then Some EqualSign
  else if c =? 0x20 then Some Space
  else if c =? 0x9 then Some Tab
  else if (c =? 0xA) || (c =? 0xD) then Some Backline
  else if c =? 0x3E then Some SuperiorThan
  else if c =? 0x7C then Some Pipe
  else if c =? 0x7E then Some Tilde
  else if c =? 0x24 then Some Dollar
  else if c =? 0x5E then Some Circumflex
  else if c =? 0x5C then Some Backslash
  else None.

(** ReservedChar::is_useless (token.rs 106-110). *)
Definition rchar_useless (c : rchar) : bool :=
  match c with Space | Tab | Backline => true | _ => false end.

(** enum Operator (token.rs 118-124). *)
Inductive operator := OpPlus | OpMultiply | OpMinus | OpModulo | OpDivide.

(** Display for Operator (token.rs 126-140). *)
Definition operator_show (o : operator) : N :=
  match o with
  | OpPlus => 0x2B | OpMultiply => 0x2A | OpMinus => 0x2D | OpModulo => 0x25 | OpDivide => 0x2F
  end.

(** TryFrom<ReservedChar> for Operator (token.rs 157-168).
    (TryFrom<char> for Operator, 142-155, is never called.) *)
Definition operator_of (c : rchar) : option operator :=
  match c with
  | Slash => Some OpDivide
  | Star => Some OpMultiply
  | Plus => Some OpPlus
  | _ => None
  end.

(** ReservedChar::is_operator (token.rs 112-114). *)
Definition rchar_is_operator (c : rchar) : bool :=
  match operator_of c with Some _ => true | None => false end.

(** enum SelectorElement (token.rs 171-177). *)
Inductive selement :=
| PseudoClass (s : str) | Class (s : str) | Id (s : str) | Tag (s : str) | Media (s : str).

(** enum SelectorOperator (token.rs 228-239). *)
Inductive soperator :=
| OneAttributeEquals | EqualsOrStartsWithFollowedByDash | EndsWith | FirstStartsWith | Contains.

(** enum Token (token.rs 254-265). *)
Inductive token :=
| TComment (s : str)
| TLicense (s : str)
| TChar (c : rchar)
| TOther (s : str)
| TSelectorElement (e : selement)
| TString (s : str)
| TSelectorOperator (o : soperator)
| TOperator (o : operator).

(** Display for SelectorElement (token.rs 215-225), as the successive [write_str] calls. *)
Definition selement_chunks (e : selement) : list str :=
  match e with
  | Class c => [S_ "."; c]
  | Id i => [S_ "#"; i]
  | Tag t => [t]
  | Media m => [S_ "@"; m; S_ " "]
  | PseudoClass p => [S_ ":"; p]
  end.

(** Display for SelectorOperator (token.rs 241-251). *)
Definition soperator_show (o : soperator) : str :=
  match o with
  | OneAttributeEquals => S_ "~="
  | EqualsOrStartsWithFollowedByDash => S_ "|="
  | EndsWith => S_ "$="
  | FirstStartsWith => S_ "^="
  | Contains => S_ "*="
  end.

(** Display for Token (token.rs 267-282), as the successive [write_str] calls. *)
Definition token_chunks (t : token) : list str :=
  match t with
  | TComment c => [c]
  | TLicense l => [S_ "/*!"; l; S_ "*/" ++ [0xA]]
  | TChar c => [[rchar_show c]]
  | TOther s => [s]
  | TSelectorElement e => selement_chunks e
  | TString s => [s]
  | TSelectorOperator o => [soperator_show o]
  | TOperator o => [[operator_show o]]
  end.

Definition token_show (t : token) : str := concat (token_chunks t).

(** Token::is_comment .. is_operator (token.rs 285-325). *)
Definition is_comment (t : token) : bool := match t with TComment _ => true | _ => false end.
Definition is_char (t : token) : bool := match t with TChar _ => true | _ => false end.
Definition get_char (t : token) : option rchar := match t with TChar c => Some c | _ => None end.
Definition is_useless (t : token) : bool := match t with TChar c => rchar_useless c | _ => false end.
Definition is_a_media (t : token) : bool :=
  match t with TSelectorElement (Media _) => true | _ => false end.
Definition is_a_selector_element (t : token) : bool :=
  match t with TSelectorElement _ => true | _ => false end.
Definition is_a_license (t : token) : bool := match t with TLicense _ => true | _ => false end.
Definition is_operator (t : token) : bool :=
  match t with TOperator _ => true | TChar c => rchar_is_operator c | _ => false end.

(** [t == Token::Char(k)] (derived PartialEq, token.rs 253). *)
Definition is_the_char (k : rchar) (t : token) : bool :=
  match t with TChar c => rchar_eqb c k | _ => false end.

(** [matches!(t, Token::Other(_))]. *)
Definition is_other (t : token) : bool := match t with TOther _ => true | _ => false end.

(** [o.is_some_and(f)], also used for [matches!(v.get(i + 1), Some(..))]. *)
Definition some_and {A} (f : A -> bool) (o : option A) : bool :=
  match o with Some a => f a | None => false end.

(** [char::is_alphabetic] of the standard library on ASCII. *)
Definition ascii_alphabetic (c : N) : bool :=
  ((0x41 <=? c) && (c <=? 0x5A)) || ((0x61 <=? c) && (c <=? 0x7A)).

(** Checked [usize] subtraction: underflow is a panic (in a release build the
    wrapped value is out of range for the slice that uses it). *)
Definition usub (a b : nat) : outcome nat :=
  if Nat.leb b a then Ok (a - b)%nat else Panic.

Section Alphabetic.

(** [char::is_alphabetic] outside ASCII: left open. *)
Variable alpha : N -> bool.

Definition is_alphabetic (c : N) : bool := if c <? 0x80 then ascii_alphabetic c else alpha c.

(** TryFrom<&str> for SelectorElement (token.rs 179-213); [None] is [Err(_)]. *)
Definition selement_of (value : str) : option selement :=
  let nonempty (v : str) (k : str -> selement) :=
    match v with [] => None | _ => Some (k v) end in
  match value with
  | c :: v =>
      if c =? 0x2E then nonempty v Class
      else if c =? 0x23 then nonempty v Id
      else if c =? 0x40 then nonempty v Media
      else if c =? 0x3A then nonempty v PseudoClass
      else if is_alphabetic c then Some (Tag value)
      else None
  | [] => None   (* the blank of [unwrap_or] is not alphabetic *)
  end.

(** The [for (pos, c) in iterator] loop of get_comment (token.rs 359-371).  [builder] is
    License or Comment.  Result: the token, the new [start_pos], and the iterator after it
    (position and characters). *)
Fixpoint comment_loop (source : str) (builder : str -> token) (content_start_pos : nat)
  (prev : rchar) (pos : nat) (rest : str) : outcome (option (token * nat * nat * str)) :=
  match rest with
  | [] => Ok None
  | c :: r =>
      match rchar_of c with
      | Some k =>
          if rchar_eqb k Slash && rchar_eqb prev Star then
            let! e := usub pos 1 in
            let! body := oslice (slice source content_start_pos e) in
            Ok (Some (builder body, pos, (pos + len_utf8 c)%nat, r))
          else comment_loop source builder content_start_pos k (pos + len_utf8 c) r
      | None => comment_loop source builder content_start_pos Space (pos + len_utf8 c) r
      end
  end.

(** get_comment (token.rs 337-372); [pos], [rest] are the iterator. *)
Definition get_comment (source : str) (pos : nat) (rest : str) (start_pos : nat)
  : outcome (option (token * nat * nat * str)) :=
  let content_start_pos := S start_pos in
  match rest with
  | [] => comment_loop source TComment content_start_pos Quote pos []
  | c :: r =>
      if (c =? 0x21)
         || ((c =? 0x2A) && negb (some_and (fun d => d =? 0x2F) (hd_error r)))
      then comment_loop source TLicense (S content_start_pos) Quote (pos + len_utf8 c) r
      else
        let prev := match rchar_of c with Some k => k | None => Quote end in
        comment_loop source TComment content_start_pos prev (pos + len_utf8 c) r
  end.

(** get_string (token.rs 374-395). *)
Fixpoint get_string (source : str) (pos : nat) (rest : str) (start_pos : nat) (start : rchar)
  : outcome (option (token * nat * nat * str)) :=
  match rest with
  | [] => Ok None
  | c :: r =>
      if c =? 0x5C then
        match r with
        | [] => Ok None
        | d :: r' => get_string source (pos + len_utf8 c + len_utf8 d) r' start_pos start
        end
      else
        match rchar_of c with
        | Some k =>
            if rchar_eqb k start then
              let! t := oslice (slice source start_pos (pos + 1)) in
              Ok (Some (TString t, pos, (pos + len_utf8 c)%nat, r))
            else get_string source (pos + len_utf8 c) r start_pos start
        | None => get_string source (pos + len_utf8 c) r start_pos start
        end
  end.

(** fill_other (token.rs 397-429).  The vector [v] is kept in reverse: its head is
    [v.last()]. *)
Definition fill_other (source : str) (v : list token) (start pos : nat)
  (is_in_block : Z) (is_in_media is_in_attribute_selector : bool) : outcome (list token) :=
  if Nat.ltb start pos then
    if negb is_in_attribute_selector
       && ((Z.eqb is_in_block 0 && negb is_in_media) || (is_in_media && Z.eqb is_in_block 1))
    then
      let is_pseudo_class := some_and (is_the_char Colon) (hd_error v) in
      let add := if is_pseudo_class then 1%nat else 0%nat in
      let! from := usub start add in
      let! t := oslice (slice source from pos) in
      match selement_of t with
      | Some e => Ok (TSelectorElement e :: (if is_pseudo_class then tl v else v))
      | None =>
          let! u := oslice (slice source start pos) in
          Ok (TOther u :: v)
      end
    else
      let! u := oslice (slice source start pos) in
      Ok (TOther u :: v)
  else Ok v.

(** The inner match of the [=] case (token.rs 529-543). *)
Definition equal_operator (v : list token) : option soperator :=
  match hd_error v with
  | Some (TChar Tilde) => Some OneAttributeEquals
  | Some (TChar Pipe) => Some EqualsOrStartsWithFollowedByDash
  | Some (TChar Dollar) => Some EndsWith
  | Some (TChar Circumflex) => Some FirstStartsWith
  | Some (TChar Star) => Some Contains
  | _ => None
  end.

(** The condition under which a blank is pushed (token.rs 555-569). *)
Definition push_blank (v : list token) : bool :=
  match hd_error v with
  | Some t =>
      negb (is_useless t)
      && (negb (is_char t) || is_operator t
          || is_the_char CloseParenthese t || is_the_char CloseBracket t)
  | None => false
  end.

(** Local variables of tokenize (token.rs 433-438); [tv] is [v] in reverse.  [is_in_block]
    is an [isize]; its overflow would need a source of 2^63 bytes and is not modelled. *)
Record tstate := {
  tv : list token; tstart : nat; tblock : Z; tmedia : bool; tattr : bool
}.

(** What one reserved character does (token.rs 471-575), after fill_other and the update of
    [is_in_media].  [rest] and [npos] are the iterator.  Result: the new [v], [pos],
    [is_in_block], [is_in_media], [is_in_attribute_selector], and the iterator. *)
Definition reserved_step (source : str) (v : list token) (pos : nat) (k : rchar)
  (block : Z) (media attr : bool) (npos : nat) (rest : str)
  : outcome (list token * nat * Z * bool * bool * nat * str) :=
  match k with
  | Backslash =>
      let v1 := TChar Backslash :: v in
      match rest with
      | d :: r =>
          let! u := oslice (slice source npos (npos + len_utf8 d)) in
          Ok (TOther u :: v1, (pos + len_utf8 d)%nat, block, media, attr, (npos + len_utf8 d)%nat, r)
      | [] => Ok (v1, pos, block, media, attr, npos, rest)
      end
  | Quote | DoubleQuote =>
      let! o := get_string source npos rest pos k in
      match o with
      | Some (t, pos', npos', r) => Ok (t :: v, pos', block, media, attr, npos', r)
      | None => Err (S_ "Unclosed string")
      end
  | OpenBracket =>
      if attr then Err (S_ "Already in attribute selector")
      else Ok (TChar k :: v, pos, block, media, true, npos, rest)
  | CloseBracket =>
      if negb attr then Err (S_ "Unexpected ']'")
      else Ok (TChar k :: v, pos, block, media, false, npos, rest)
  | OpenCurlyBrace => Ok (TChar k :: v, pos, (block + 1)%Z, media, attr, npos, rest)
  | CloseCurlyBrace =>
      let block' := (block - 1)%Z in
      if Z.ltb block' 0 then Err (S_ "Too much '}'")
      else Ok (TChar k :: v, pos, block', if Z.eqb block' 0 then false else media, attr, npos, rest)
  | EqualSign =>
      match equal_operator v with
      | Some o => Ok (TSelectorOperator o :: tl v, pos, block, media, attr, npos, rest)
      | None => Ok (TChar k :: v, pos, block, media, attr, npos, rest)
      end
  | Slash =>
      if some_and (fun d => d =? 0x2A) (hd_error rest) then
        let! o := get_comment source (npos + 1) (tl rest) (pos + 1) in
        match o with
        | Some (t, pos', npos', r) => Ok (t :: v, pos', block, media, attr, npos', r)
        | None => Err (S_ "Unclosed comment")
        end
      else Ok (TChar k :: v, pos, block, media, attr, npos, rest)
  | _ =>
      if rchar_eqb k SemiColon && Z.eqb block 0
      then Ok (TChar k :: v, pos, block, false, attr, npos, rest)
      else if negb (rchar_useless k)
      then Ok (TChar k :: v, pos, block, media, attr, npos, rest)
      else if push_blank v
      then Ok (TChar Space :: v, pos, block, media, attr, npos, rest)
      else match operator_of k with
           | Some o => Ok (TOperator o :: v, pos, block, media, attr, npos, rest)
           | None => Ok (v, pos, block, media, attr, npos, rest)
           end
  end.

(** The loop of tokenize (token.rs 440-578).  Result: [v] (in source order). *)
Fixpoint tokenize_loop (fuel : nat) (source : str) (st : tstate) (pos : nat) (rest : str)
  : outcome (list token) :=
  match fuel with
  | O => OutOfFuel
  | S n =>
      match rest with
      | [] =>
          let! v := fill_other source (tv st) (tstart st) (blen source)
                      (tblock st) (tmedia st) (tattr st) in
          Ok (rev v)
      | c :: r =>
          let npos := (pos + len_utf8 c)%nat in
          match rchar_of c with
          | None => tokenize_loop n source st npos r
          | Some k =>
              let! v := fill_other source (tv st) (tstart st) pos
                          (tblock st) (tmedia st) (tattr st) in
              let media := tmedia st || some_and is_a_media (hd_error v) in
              let! (v', pos', block', media', attr', npos', r') :=
                reserved_step source v pos k (tblock st) media (tattr st) npos r in
              tokenize_loop n source
                {| tv := v'; tstart := S pos'; tblock := block'; tmedia := media'; tattr := attr' |}
                npos' r'
          end
      end
  end.

(** [v[i]]: an index out of bounds panics. *)
Definition index {A} (v : list A) (i : nat) : outcome A :=
  match nth_error v i with Some t => Ok t | None => Panic end.

(** [v[i] = x]. *)
Fixpoint update {A} (v : list A) (i : nat) (x : A) : list A :=
  match v, i with
  | [], _ => []
  | _ :: r, O => x :: r
  | a :: r, S j => a :: update r j x
  end.

(** The value of [retain] for a blank or a comment with a previous retained token
    (token.rs 609-664).  [len - 1] in line 658 cannot underflow: [i < len]. *)
Definition retain_blank (prev : token) (next : option token) (is_in_calc : bool) : bool :=
  if is_the_char CloseBracket prev then
    negb (some_and (fun t => is_useless t || is_the_char OpenCurlyBrace t) next)
  else if is_other prev
          && some_and (fun t => is_other t || is_the_char OpenParenthese t) next then true
  else if is_a_selector_element prev && some_and (is_the_char Star) next then true
  else if is_the_char Star prev && some_and is_a_selector_element next then true
  else if (is_the_char Star prev || is_the_char Circumflex prev || is_the_char Dollar prev
           || is_the_char Tilde prev)
          && some_and (is_the_char EqualSign) next then true
  else if is_the_char Slash prev && some_and (is_the_char Star) next then true
  else if is_in_calc && is_useless prev then false
  else if negb is_in_calc then
    negb (((is_char prev && negb (is_the_char CloseParenthese prev))
           || is_a_media prev || is_a_license prev)
          || some_and (fun t => is_char t && negb (is_the_char OpenBracket t)) next)
  else true.

(** [v[i] == Token::Other("calc")] (token.rs 596). *)
Definition is_calc (t : token) : bool :=
  match t with TOther s => str_eqb s (S_ "calc") | _ => false end.

(** The update of [is_in_calc] and [paren] (token.rs 596-605).  [paren] is an [i32]; its
    overflow would need 2^31 parentheses and is not modelled. *)
Definition calc_step (t : token) (is_in_calc : bool) (paren : Z) : bool * Z :=
  if is_calc t then (true, paren)
  else if is_in_calc then
    if is_the_char CloseParenthese t then (negb (Z.eqb (paren - 1) 0), (paren - 1)%Z)
    else if is_the_char OpenParenthese t then (true, (paren + 1)%Z)
    else (true, paren)
  else (false, paren).

(** The [while] loop of clean_tokens (token.rs 595-676), with fuel for [v.len() - i].
    Result: [v] with its replacements, and [b] in reverse. *)
Fixpoint clean_loop (fuel : nat) (v : list token) (i : nat) (previous : option nat)
  (is_in_calc : bool) (paren : Z) (b : list bool) : outcome (list token * list bool) :=
  if negb (Nat.ltb i (length v)) then Ok (v, b)
  else
  match fuel with
  | O => OutOfFuel
  | S n =>
      let! t := index v i in
      let (calc, paren') := calc_step t is_in_calc paren in
      if is_useless t || is_comment t then
        let! retain :=
          match previous with
          | Some p =>
              let! prev := index v p in
              Ok (retain_blank prev (nth_error v (S i)) calc)
          | None => Ok true
          end in
        let v' := if retain && is_comment t then update v i (TChar Space) else v in
        clean_loop n v' (S i) (if retain then Some i else previous) calc paren' (retain :: b)
      else clean_loop n v (S i) (Some i) calc paren' (true :: b)
  end.

(** [v.retain(|_| b.next().unwrap())] (token.rs 678-679). *)
Fixpoint retain_list (v : list token) (b : list bool) : outcome (list token) :=
  match v with
  | [] => Ok []
  | t :: r =>
      match b with
      | [] => Panic
      | x :: b' =>
          let! r' := retain_list r b' in
          Ok (if x then t :: r' else r')
      end
  end.

(** clean_tokens (token.rs 582-681). *)
Definition clean_tokens (v : list token) : outcome (list token) :=
  let! (v', b) := clean_loop (length v) v 0 None false 0 [] in
  if Nat.eqb (length v') (length b) then retain_list v' (rev b) else Panic.

(** tokenize (token.rs 432-580). *)
Definition tokenize (source : str) : outcome (list token) :=
  let! v := tokenize_loop (S (length source)) source
              {| tv := []; tstart := 0; tblock := 0; tmedia := false; tattr := false |} 0 source in
  clean_tokens v.

(** Display for Tokens (token.rs 695-702), css::minify(..).to_string() (mod.rs 21-23, 33-37). *)
Definition css_minify (s : str) : outcome str :=
  let! ts := tokenize s in Ok (concat (map token_show ts)).

(** Tokens::write (token.rs 686-693), Minified::write (mod.rs 27-31): the bytes the writer
    holds, and whether it succeeded.  [write_all] of an empty chunk does not reach the writer. *)
Definition css_write (s : str) (w : writer) : outcome (list N * bool) :=
  let! ts := tokenize s in
  Ok (write_chunks
        (map encode (filter (fun c => match c with [] => false | _ => true end)
                       (concat (map token_chunks ts)))) w).

End Alphabetic.
