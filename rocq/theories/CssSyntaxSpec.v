(** The tokens that a CSS parser reads, after CSS Syntax Module Level 3 (section 4), with the
    parse errors that the standard names.  Independent of the model and of the lexer of CssSpec. *)
From Coq Require Import String List NArith Bool.
From Verif Require Import Base CssSpec CssGapSpec.
Import ListNotations.
Open Scope N_scope.

(** ** Code points (4.2) *)

Definition newline (c : N) : bool := (c =? 0xA) || (c =? 0xD) || (c =? 0xC).
Definition white (c : N) : bool := newline c || (c =? 0x9) || (c =? 0x20).
Definition digit (c : N) : bool := (0x30 <=? c) && (c <=? 0x39).
Definition hex_digit (c : N) : bool :=
  digit c || ((0x41 <=? c) && (c <=? 0x46)) || ((0x61 <=? c) && (c <=? 0x66)).
(** A null character is replaced by U+FFFD before tokenization, which is not ASCII. *)
Definition name_start (c : N) : bool := ascii_letter c || (0x80 <=? c) || (c =? 0x5F) || (c =? 0).
Definition name_char (c : N) : bool := name_start c || digit c || (c =? 0x2D).
Definition quote (c : N) : bool := (c =? 0x22) || (c =? 0x27).
Definition non_printable (c : N) : bool :=
  ((1 <=? c) && (c <=? 8)) || (c =? 0xB) || ((0xE <=? c) && (c <=? 0x1F)) || (c =? 0x7F).

(** ** Tokens; punctuation is a delimiter too *)

Inductive ctoken :=
| CIdent (v : str) | CFunction (v : str) | CAt (v : str) | CHash (id : bool) (v : str)
| CString (v : str) | CBadString | CUrl (v : str) | CBadUrl | CDelim (c : N)
| CNumber (repr : str) | CPercentage (repr : str) | CDimension (repr unit : str)
| CSpace | CComment | CCdo | CCdc.

(** A token, whether there was a parse error, what follows the token. *)
Definition taken : Type := ctoken * bool * str.

(** ** Checks on the next code points (4.3.8 - 4.3.10) *)

Definition valid_escape (s : str) : bool :=
  match s with
  | c :: r => (c =? 0x5C) && match r with d :: _ => negb (newline d) | [] => true end
  | [] => false
  end.

Definition starts_name (s : str) : bool :=
  match s with
  | c :: r =>
      if c =? 0x2D then
        match r with d :: _ => name_start d || (d =? 0x2D) | [] => false end || valid_escape r
      else name_start c || valid_escape s
  | [] => false
  end.

Definition starts_digit (s : str) : bool := match s with c :: _ => digit c | [] => false end.
Definition starts_dot_digit (s : str) : bool :=
  match s with c :: r => (c =? 0x2E) && starts_digit r | [] => false end.
Definition starts_number (s : str) : bool :=
  starts_digit s || starts_dot_digit s
  || match s with
     | c :: r => ((c =? 0x2B) || (c =? 0x2D)) && (starts_digit r || starts_dot_digit r)
     | [] => false
     end.

(** ** Parts of tokens *)

Fixpoint skip_white (s : str) : str :=
  match s with c :: r => if white c then skip_white r else s | [] => [] end.

(** One white space; a carriage return and a line feed are one. *)
Definition eat_white (s : str) : str :=
  match s with
  | c :: r =>
      if white c then
        match r with d :: r' => if (c =? 0xD) && (d =? 0xA) then r' else r | [] => [] end
      else s
  | [] => []
  end.

Fixpoint take_hex (n : nat) (s : str) : str * str :=
  match n, s with
  | S n, c :: r => if hex_digit c then (c :: fst (take_hex n r), snd (take_hex n r)) else ([], s)
  | _, _ => ([], s)
  end.

Definition hex_value (c : N) : N :=
  if digit c then c - 0x30 else if c <=? 0x46 then c - 0x37 else c - 0x57.

Definition code_point (h : str) : N :=
  let n := fold_left (fun n c => n * 16 + hex_value c) h 0 in
  if (n =? 0) || ((0xD800 <=? n) && (n <=? 0xDFFF)) || (0x10FFFF <? n) then 0xFFFD else n.

(** An escaped code point (4.3.7), after the backslash. *)
Definition take_escape (s : str) : N * bool * str :=
  match s with
  | [] => (0xFFFD, true, [])
  | c :: r =>
      if hex_digit c then
        (code_point (c :: fst (take_hex 5 r)), false, eat_white (snd (take_hex 5 r)))
      else (c, false, r)
  end.

(** An ident sequence (4.3.11). *)
Fixpoint take_name (n : nat) (s : str) : str * bool * str :=
  match n, s with
  | S n, c :: r =>
      if name_char c then let '(v, e, x) := take_name n r in (c :: v, e, x)
      else if valid_escape s then
        let '(d, e, x) := take_escape r in
        let '(v, e', x') := take_name n x in (d :: v, e || e', x')
      else ([], false, s)
  | _, _ => ([], false, s)
  end.

Fixpoint take_digits (s : str) : str * str :=
  match s with
  | c :: r => if digit c then (c :: fst (take_digits r), snd (take_digits r)) else ([], s)
  | [] => ([], [])
  end.

Definition take_sign (s : str) : str * str :=
  match s with c :: r => if (c =? 0x2B) || (c =? 0x2D) then ([c], r) else ([], s) | [] => ([], []) end.

Definition take_fraction (s : str) : str * str :=
  if starts_dot_digit s then (0x2E :: fst (take_digits (tl s)), snd (take_digits (tl s))) else ([], s).

Definition take_exponent (s : str) : str * str :=
  match s with
  | c :: r =>
      if ((c =? 0x65) || (c =? 0x45)) && starts_digit (snd (take_sign r)) then
        (c :: fst (take_sign r) ++ fst (take_digits (snd (take_sign r))), snd (take_digits (snd (take_sign r))))
      else ([], s)
  | [] => ([], [])
  end.

(** A number as written (4.3.12). *)
Definition take_number (s : str) : str * str :=
  let (a, s1) := take_sign s in
  let (b, s2) := take_digits s1 in
  let (c, s3) := take_fraction s2 in
  let (d, s4) := take_exponent s3 in
  (a ++ b ++ c ++ d, s4).

(** ** Tokens of several code points *)

(** A comment (4.3.2), after its opening. *)
Fixpoint take_comment (s : str) : taken :=
  match s with
  | [] => (CComment, true, [])
  | c :: r =>
      match r with
      | d :: r' => if (c =? 0x2A) && (d =? 0x2F) then (CComment, false, r') else take_comment r
      | [] => (CComment, true, [])
      end
  end.

(** A string (4.3.5), after its opening quote [q]. *)
Fixpoint take_string (n : nat) (q : N) (s : str) (v : str) : taken :=
  match n, s with
  | S n, c :: r =>
      if c =? q then (CString v, false, r)
      else if newline c then (CBadString, true, s)
      else if c =? 0x5C then
        match r with
        | [] => (CString v, true, [])
        | d :: _ =>
            if newline d then take_string n q (eat_white r) v
            else let '(x, _, r') := take_escape r in take_string n q r' (v ++ [x])
        end
      else take_string n q r (v ++ [c])
  | _, _ => (CString v, true, [])
  end.

(** What is left after a bad url (4.3.14). *)
Fixpoint after_bad_url (n : nat) (s : str) : str :=
  match n, s with
  | S n, c :: r =>
      if c =? 0x29 then r
      else if valid_escape s then after_bad_url n (snd (take_escape r))
      else after_bad_url n r
  | _, _ => []
  end.

(** A url (4.3.6), after its leading white space. *)
Fixpoint take_url (n : nat) (s : str) (v : str) : taken :=
  match n, s with
  | S n, c :: r =>
      if c =? 0x29 then (CUrl v, false, r)
      else if white c then
        match skip_white r with
        | [] => (CUrl v, true, [])
        | d :: r' => if d =? 0x29 then (CUrl v, false, r') else (CBadUrl, true, after_bad_url n (d :: r'))
        end
      else if quote c || (c =? 0x28) || non_printable c then (CBadUrl, true, after_bad_url n r)
      else if c =? 0x5C then
        if valid_escape s then let '(x, e, r') := take_escape r in take_url n r' (v ++ [x])
        else (CBadUrl, true, after_bad_url n r)
      else take_url n r (v ++ [c])
  | _, _ => (CUrl v, true, [])
  end.

Definition lower_letter (c : N) : N := if (0x41 <=? c) && (c <=? 0x5A) then c + 0x20 else c.
Definition is_url (v : str) : bool := str_eqb (map lower_letter v) (S_ "url").

(** Names, functions and urls (4.3.4). *)
Definition take_ident_like (s : str) : taken :=
  let '(v, e, r) := take_name (length s) s in
  match r with
  | c :: r' =>
      if c =? 0x28 then
        if is_url v && negb match skip_white r' with d :: _ => quote d | [] => false end
        then let '(t, e', x) := take_url (length r') (skip_white r') [] in (t, e || e', x)
        else (CFunction v, e, r')
      else (CIdent v, e, r)
  | [] => (CIdent v, e, r)
  end.

(** Numbers, percentages and dimensions (4.3.3). *)
Definition take_numeric (s : str) : taken :=
  let (x, r) := take_number s in
  if starts_name r then let '(u, e, r') := take_name (length r) r in (CDimension x u, e, r')
  else match r with
       | c :: r' => if c =? 0x25 then (CPercentage x, false, r') else (CNumber x, false, r)
       | [] => (CNumber x, false, r)
       end.

(** ** One token (4.3.1) *)

Definition consume (s : str) : taken :=
  match s with
  | [] => (CSpace, false, [])
  | c :: r =>
      if white c then (CSpace, false, skip_white r)
      else if (c =? 0x2F) && match r with d :: _ => d =? 0x2A | [] => false end then take_comment (tl r)
      else if quote c then take_string (length r) c r []
      else if c =? 0x23 then
        if match r with d :: _ => name_char d | [] => false end || valid_escape r
        then let '(v, e, x) := take_name (length r) r in (CHash (starts_name r) v, e, x)
        else (CDelim c, false, r)
      else if (c =? 0x2B) || (c =? 0x2E) then
        if starts_number s then take_numeric s else (CDelim c, false, r)
      else if c =? 0x2D then
        if starts_number s then take_numeric s
        else if match r with d :: f :: _ => (d =? 0x2D) && (f =? 0x3E) | _ => false end
        then (CCdc, false, tl (tl r))
        else if starts_name s then take_ident_like s
        else (CDelim c, false, r)
      else if c =? 0x3C then
        if match r with d :: f :: g :: _ => (d =? 0x21) && (f =? 0x2D) && (g =? 0x2D) | _ => false end
        then (CCdo, false, tl (tl (tl r)))
        else (CDelim c, false, r)
      else if c =? 0x40 then
        if starts_name r then let '(v, e, x) := take_name (length r) r in (CAt v, e, x)
        else (CDelim c, false, r)
      else if c =? 0x5C then
        if valid_escape s then take_ident_like s else (CDelim c, true, r)
      else if digit c then take_numeric s
      else if name_start c then take_ident_like s
      else (CDelim c, false, r)
  end.

(** All tokens, each with whether it has a parse error. *)
Fixpoint tokens_of (n : nat) (s : str) : list (ctoken * bool) :=
  match n, s with
  | S n, _ :: _ => let '(t, e, r) := consume s in (t, e) :: tokens_of n r
  | _, _ => []
  end.

Definition css_tokens (s : str) : list (ctoken * bool) := tokens_of (length s) s.

(** The tokens a parser works with: without white space and comments. *)
Definition significant (t : ctoken) : bool := match t with CSpace | CComment => false | _ => true end.
Definition syntax (s : str) : list ctoken := filter significant (map fst (css_tokens s)).

Definition error_free (s : str) : Prop := Forall (fun x => snd x = false) (css_tokens s).

(** ** Layouts that keep the tokens *)

(** Is the text [v], directly after token [t], read as part of it or otherwise than alone? *)
Definition runs_on (t : ctoken) (v : str) : bool :=
  match t, v with
  | CIdent x, c :: _ => (c =? 0x28) || ((c =? 0x3E) && str_eqb x (S_ "--"))
  | CDimension _ u, c :: _ => (c =? 0x2B) && (str_eqb u (S_ "e") || str_eqb u (S_ "E"))
  | CDelim d, c :: _ =>
      if d =? 0x2B then digit c || starts_dot_digit v else (d =? 0x2F) && (c =? 0x2A)
  | _, _ => false
  end.

(** The text of pieces. *)
Definition piece_text (p : piece) : str :=
  match p with
  | PChar c | PPunct c => [c]
  | PBs => [0x5C]
  | PBlank => [0x20]
  | PStr t => t
  | PCom b => 0x2F :: 0x2A :: b ++ [0x2A; 0x2F]
  | PLic b => 0x2F :: 0x2A :: 0x21 :: b ++ [0x2A; 0x2F]
  end.
Definition text (ps : list piece) : str := flat_map piece_text ps.

(** The plain word characters at the end of the pieces. *)
Definition run_step (x : bool * str) (p : piece) : bool * str :=
  match p with
  | PChar c => if fst x then (false, []) else (false, snd x ++ [c])
  | PBs => (true, [])
  | _ => (false, [])
  end.
Definition last_run (ps : list piece) : str := snd (fold_left run_step ps (false, [])).

Definition gap_piece (p : piece) : bool := match p with PBlank | PCom _ | PLic _ => true | _ => false end.
Definition word_piece_b (p : piece) : bool := match p with PChar _ | PBs => true | _ => false end.

(** Chunks are cut at blanks and comments, and after a word that starts with an at sign. *)
Definition cut (pre post : list piece) : bool :=
  match rev pre with [] => true | p :: _ => gap_piece p end
  || match post with
     | [] => true
     | p :: _ => gap_piece p
         || (match last_run pre with c :: _ :: _ => c =? 0x40 | _ => false end && negb (word_piece_b p))
     end.

Definition chunk (pre c post : list piece) : Prop :=
  c <> [] /\ Forall (fun p => gap_piece p = false) c /\ cut pre (c ++ post) = true /\ cut (pre ++ c) post = true /\
  forall c1 c2, c = c1 ++ c2 -> c1 <> [] -> c2 <> [] -> cut (pre ++ c1) (c2 ++ post) = false.

Definition last_token (s : str) : ctoken := last (map fst (css_tokens s)) CSpace.

(** The text ends with an escape by number: a blank after it would belong to it. *)
Definition ends_hex (s : str) : Prop :=
  exists a h, s = a ++ 0x5C :: h /\ (1 <= length h <= 6)%nat /\ Forall (fun c => hex_digit c = true) h.

(** Places where C20 shows that the blank stays. *)
Definition blank_kept (ps pre post : list piece) : Prop :=
  exists q a b r, pre = q ++ [a] /\ post = b :: r /\
  ((exists c, a = PChar c) /\ b = PPunct 0x28 /\ (in_declaration pre \/ in_at_head pre) \/
   inside_calc pre /\ calc_called ps /\ (closes a \/ calc_operator a) /\ (a = PPunct 0x5D -> b <> PPunct 0x7B)).

(** A sheet is tidy if each chunk is read without parse error when it stands alone and does not
    end within or right after an escape, and if no gap holds apart what would run together: a
    name and a parenthesis, a plus sign and a number, a slash and a star, a string and an
    escape. *)
Definition tidy (ps : list piece) : Prop :=
  forall pre c post, ps = pre ++ c ++ post -> chunk pre c post ->
  error_free (text c) /\
  ~ ends_hex (text c) /\
  (forall q d, text c = q ++ [d] -> white d = false /\ d <> 0x5C) /\
  (forall q q' d, c = q ++ [PPunct d] -> text q <> q' ++ [0x5C]) /\
  (forall q t g r, c = q ++ [PStr t] -> post = g ++ PBs :: r -> ~ Forall separator g) /\
  (forall g r, post = g ++ r -> Forall separator g -> match r with x :: _ => ~ separator x | [] => True end ->
     runs_on (last_token (text c)) (text r) = false \/ g <> [] /\ blank_kept ps (pre ++ c) r).
