(** Plain style sheets: the parts they are written in, what may stand between two parts, and the
    text that css::minify is expected to make of them.  Independent of the model. *)
From Coq Require Import String Arith List NArith Bool.
From Verif Require Import Base.
Import ListNotations.
Open Scope N_scope.

(** ** How a sheet is written *)

(** A word (tag, class, number, name, ...), a pseudo class with its colon, an at-keyword, a string
    with its quotation marks, a punctuation mark, one of the operators [~= |= $= ^= *=], a licence
    comment with the character (an exclamation mark or a star) that makes it one, a backslash with the
    character it escapes. *)
Inductive part :=
| Word (w : str) | Pseudo (w : str) | At (w : str) | Quoted (t : str) | Sign (c : N) | Match (c : N)
| Licence (c : N) (b : str) | Escape (c : N).

Inductive filler := Blank (c : N) | Comment (b : str).
Inductive item := Between (g : list filler) | Piece (p : part).

Definition comment_text (b : str) : str := [0x2F; 0x2A] ++ b ++ [0x2A; 0x2F].

Definition filler_text (f : filler) : str := match f with Blank c => [c] | Comment b => comment_text b end.

Definition part_text (p : part) : str :=
  match p with
  | Word w => w
  | Pseudo w => 0x3A :: w
  | At w => 0x40 :: w
  | Quoted t => t
  | Sign c => [c]
  | Match c => [c; 0x3D]
  | Licence c b => comment_text (c :: b)
  | Escape c => [0x5C; c]
  end.

Definition item_text (i : item) : str :=
  match i with Between g => flat_map filler_text g | Piece p => part_text p end.
Definition text (l : list item) : str := flat_map item_text l.

(** ** Characters *)

Definition among (l : str) (c : N) : bool := existsb (N.eqb c) l.
Definition signs : str := S_ ",>(){}[]:;/+=*|~$^".
Definition blanks : str := [0x20; 0x9; 0xA; 0xD].

Definition word_char (c : N) : bool := negb (among signs c || among blanks c || among [0x22; 0x27; 0x5C] c).
Definition a_word (w : str) : bool := match w with [] => false | _ => forallb word_char w end.
Definition begins (f : N -> bool) (s : str) : bool := match s with c :: _ => f c | [] => false end.

(** No star followed by a slash. *)
Fixpoint endless (b : str) : bool :=
  match b with
  | [] => true
  | c :: r => negb ((c =? 0x2A) && begins (N.eqb 0x2F) r) && endless r
  end.

(** What follows the opening quotation mark [q]: up to the closing one, which comes last. *)
Fixpoint closes_at_end (q : N) (s : str) : bool :=
  match s with
  | [] => false
  | c :: r =>
      if c =? 0x5C then match r with [] => false | _ :: r' => closes_at_end q r' end
      else if c =? q then match r with [] => true | _ => false end
      else closes_at_end q r
  end.

(** ** Where a part stands *)

Inductive kind := KWord | KElement | KAt | KText | KLicence | KEscape | KSign (c : N).

(** Open braces; in an at-rule; in an attribute selector; from the name calc to the end of its
    parentheses, and how many of these are open; the part before. *)
Record place := {
  depth : nat; at_rule : bool; bracket : bool; calc : bool; parens : nat; last : option kind
}.

Definition start : place :=
  {| depth := 0; at_rule := false; bracket := false; calc := false; parens := 0; last := None |}.

(** Selectors stand outside braces, and in the braces of an at-rule. *)
Definition selects (x : place) : bool :=
  negb (bracket x) && (if at_rule x then Nat.eqb (depth x) 1 else Nat.eqb (depth x) 0).

Definition after (c : N) (x : place) : bool :=
  match last x with Some (KSign d) => d =? c | _ => false end.

Section Plain.
(** The letters outside ASCII. *)
Variable letter_u : N -> bool.

Definition letter (c : N) : bool :=
  if c <? 0x80 then ((0x41 <=? c) && (c <=? 0x5A)) || ((0x61 <=? c) && (c <=? 0x7A)) else letter_u c.

(** A tag, a class or an identifier. *)
Definition names (w : str) : bool :=
  match w with
  | c :: r => letter c || (among (S_ ".#") c && match r with [] => false | _ => true end)
  | [] => false
  end.

Definition kind_of (x : place) (p : part) : kind :=
  match p with
  | Word w => if selects x && negb (after 0x3A x) && names w then KElement else KWord
  | Pseudo _ => KElement
  | At _ => KAt
  | Quoted _ | Match _ => KText
  | Licence _ _ => KLicence
  | Escape _ => KEscape
  | Sign c => KSign c
  end.

Definition is_escape (p : part) : bool := match p with Escape _ => true | _ => false end.
Definition is_sign (c : N) (p : part) : bool := match p with Sign d => d =? c | _ => false end.

Definition step (x : place) (p : part) : place :=
  let k := kind_of x p in
  let opens := calc x && is_sign 0x28 p in
  let shuts := calc x && is_sign 0x29 p in
  let n := if opens then S (parens x) else if shuts then pred (parens x) else parens x in
  {| depth := if is_sign 0x7B p then S (depth x) else if is_sign 0x7D p then pred (depth x) else depth x;
     at_rule :=
       match k with
       | KAt => true
       | _ => if is_sign 0x7D p && Nat.leb (depth x) 1 || is_sign 0x3B p && Nat.eqb (depth x) 0
              then false else at_rule x
       end;
     bracket := if is_sign 0x5B p then true else if is_sign 0x5D p then false else bracket x;
     calc :=
       match k, p with
       | KWord, Word w => calc x || str_eqb w (S_ "calc")
       | _, _ => calc x && negb (shuts && Nat.eqb n 0)
       end;
     parens := n;
     last := Some k |}.

(** ** The text that is expected *)

Definition is_k (c : N) (b : option kind) : bool := match b with Some (KSign d) => d =? c | _ => false end.

(** A word, a string, a licence, an opening bracket, or the end. *)
Definition free (b : option kind) : bool := match b with Some (KSign d) => d =? 0x5B | _ => true end.

(** Is a blank kept between [a] and [b]?  [c]: inside calc. *)
Definition keeps (c : bool) (a : kind) (b : option kind) : bool :=
  match a with
  | KWord | KEscape => is_k 0x28 b || c || free b
  | KElement => is_k 0x2A b || c || free b
  | KText => c || free b
  | KAt => false
  | KLicence => c
  | KSign d =>
      if d =? 0x5D then negb (is_k 0x7B b)
      else if (d =? 0x2A) && match b with Some KElement | Some KAt => true | _ => false end then true
      else if (d =? 0x2F) && is_k 0x2A b then true
      else if c then among (S_ ")+*/") d
      else (d =? 0x29) && free b
  end.

Definition is_comment (f : filler) : bool := match f with Comment _ => true | _ => false end.

Definition next_kind (x : place) (l : list item) : option kind :=
  match l with Piece p :: _ => Some (kind_of x p) | _ => None end.

(** At the beginning blanks go, and comments leave one blank. *)
Definition stays (x : place) (g : list filler) (b : option kind) : bool :=
  match last x with
  | None => existsb is_comment g
  | Some a => keeps (calc x) a b
  end.

(** An at-keyword is followed by a blank, a licence by a line end. *)
Definition shown (p : part) : str :=
  match p with
  | At _ => part_text p ++ [0x20]
  | Licence _ b => comment_text (0x21 :: b) ++ [0xA]
  | _ => part_text p
  end.

Fixpoint compact (x : place) (l : list item) : str :=
  match l with
  | [] => []
  | Between g :: r => (if stays x g (next_kind x r) then [0x20] else []) ++ compact x r
  | Piece p :: r => shown p ++ compact (step x p) r
  end.

(** ** Plain sheets *)

Definition filler_ok (f : filler) : bool :=
  match f with
  | Blank c => among blanks c
  | Comment b => endless b && negb (begins (among (S_ "!*")) b)
  end.

Definition part_ok (x : place) (p : part) : bool :=
  (if calc x && Nat.eqb (parens x) 0 then is_sign 0x28 p else true)
  && match p with
     | Word w =>
         a_word w
         && negb (selects x && negb (after 0x3A x) && begins (N.eqb 0x40) w && Nat.ltb 1 (length w))
     | Pseudo w => selects x && a_word w
     | At w => selects x && negb (after 0x3A x) && negb (calc x) && a_word w
     | Quoted t => match t with q :: r => among [0x22; 0x27] q && closes_at_end q r | [] => false end
     | Sign c =>
         among signs c
         && (if c =? 0x5B then negb (bracket x) else if c =? 0x5D then bracket x
             else if c =? 0x7D then negb (Nat.eqb (depth x) 0) else true)
     | Match c => among (S_ "~|$^*") c
     | Licence c b => endless b && ((c =? 0x21) || (c =? 0x2A) && negb (begins (N.eqb 0x2F) b))
     | Escape _ => true
     end.

(** An equal sign after a character that would make an operator of it. *)
Definition would_match (x : place) (p : part) : bool :=
  is_sign 0x3D p && match last x with Some (KSign d) => among (S_ "~|$^*") d | _ => false end.

Definition wordy (p : part) : bool := match p with Word _ | At _ => true | _ => false end.

(** [p] may stand directly after what is before. *)
Definition direct_ok (x : place) (p : part) : bool :=
  negb (would_match x p)
  && negb (after 0x2F x && begins (N.eqb 0x2A) (part_text p))
  && negb (wordy p && match last x with
                      | Some KWord | Some KElement | Some KAt => true
                      | Some (KSign d) => (d =? 0x3A) && selects x
                      | _ => false
                      end).

(** Comments, if any, come first, and there is but one. *)
Definition leads (g : list filler) : bool :=
  match g with Comment _ :: r => negb (existsb is_comment r) | _ => negb (existsb is_comment g) end.

(** [g] may stand before [p], or at the end.  ([/ *=] would come out as the beginning of a comment, and
    before an escape nothing is kept.) *)
Definition gap_ok (x : place) (g : list filler) (p : option part) : bool :=
  let b := match p with Some p => Some (kind_of x p) | None => None end in
  match p with
  | Some p =>
      negb (would_match x p)
      && negb (match last x with Some KAt => is_sign 0x2A p | _ => false end)
      && (negb (after 0x2F x && match p with Match c => c =? 0x2A | _ => false end) && negb (is_escape p))
      && (if wordy p && after 0x3A x && selects x then negb (existsb is_comment g) else true)
  | None => true
  end
  && (if calc x then negb (existsb is_comment g) else true)
  && match last x with
     | Some a =>
         match a with
         | KWord | KElement | KText | KEscape => keeps (calc x) a b || leads g
         | KSign d => if (d =? 0x29) || (d =? 0x5D) then keeps (calc x) a b || leads g else true
         | _ => true
         end
     | None => true
     end.

(** [g]: the gap before, if any. *)
Fixpoint plain (x : place) (g : option (list filler)) (l : list item) : bool :=
  match l with
  | [] => match g with Some g => gap_ok x g None | None => true end
  | Between g' :: r =>
      match g with
      | Some _ => false
      | None =>
          match g' with [] => false | _ => true end && forallb filler_ok g' && plain x (Some g') r
      end
  | Piece p :: r =>
      part_ok x p
      && match g with Some g => gap_ok x g (Some p) | None => direct_ok x p end
      && plain (step x p) None r
  end.

End Plain.
