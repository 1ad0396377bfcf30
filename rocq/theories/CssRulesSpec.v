(** Style sheets as rules: how the grammar of CSS allows them to be laid out, and the text that
    css::minify is expected to make of them.  Independent of the model. *)
From Coq Require Import String Arith List NArith Bool.
From Verif Require Import Base CssPlainSpec.
Import ListNotations.
Open Scope N_scope.

(** ** Rules *)

(** A class or an identifier. *)
Inductive mark := Class (n : str) | Ident (n : str).

Inductive element := Tag (n : str) | Any.

(** [x], [x=v] and, with an operator such as [~=], [x~=v]; the value is a word or a string. *)
Inductive value_of := Bare (v : str) | Text (v : str).
Inductive test := Has | Equals (v : value_of) | Matches (c : N) (v : value_of).

(** [a.b#c[d].e:f.g:not(h, i)]: an element, classes and identifiers, and then attribute selectors,
    pseudo classes, pseudo elements and functions, each with classes and identifiers behind it.  The
    argument of a function is [2n+1] or a list of selectors; selectors are compound selectors with
    combinators between them. *)
Inductive combinator := Descendant | Child | Next | Later.

Inductive compound := Compound (e : option element) (m : list mark) (d : list (detail * list mark))
with detail :=
| HasAttribute (n : str) (t : test) | PseudoClass (n : str) | PseudoElement (n : str) | Function (n : str) (a : argument)
with argument := Nth (w : str) (plus : option str) | Among (x : selector) (l : list selector)
with selector := Selector (c : compound) (l : list (combinator * compound)).

(** Expressions in calc: words, operators and parentheses. *)
Inductive sum := Sum (o : operand) (l : list (N * operand))
with operand := Value (w : str) | Parens (e : sum).

Inductive separator := Space | Comma | Slash.

(** Values of declarations: words, strings, functions of values, calc, urls with their address. *)
Inductive values := Values (t : term) (l : list (separator * term))
with term := TWord (w : str) | TString (t : str) | TCall (f : str) (v : values) | TCalc (e : sum)
| TUrl (f : str) (a : value_of).

Record declaration := { property : str; set_to : values }.

(** [closed]: a semicolon follows the last declaration. *)
Record rule := { selectors : selector * list selector; declarations : list declaration; closed : bool }.

(** What stands between an at-keyword and its block: words, strings, urls, media features and pages
    such as [:first] and [wide:first], separated by blanks and commas. *)
Inductive condition :=
| CWord (w : str) | CString (t : str) | CFeature (n : str) (v : option str) | CUrl (f : str) (a : value_of)
| CPage (w : option str) (p : str).

(** In the block of an at-rule: rules, and [0%, 50% { ... }]. *)
Inductive inner := Ruled (r : rule) | Frame (w : str) (l : list str) (d : list declaration) (closed : bool).

(** In the block of an at-rule such as [@font-face] there are declarations ([AtBody]).  A notice is a
    comment [/*! ... */]. *)
Inductive entry :=
| Rule (r : rule)
| AtStatement (k : str) (c : condition) (l : list (bool * condition))
| AtBlock (k : str) (c : option (condition * list (bool * condition))) (l : list inner)
| AtBody (k : str) (c : option (condition * list (bool * condition))) (d : list declaration) (closed : bool)
| Notice (b : str).

Definition sheet : Type := list entry.

(** ** Layouts *)

(** What may stand before a part: nothing; blanks and comments or nothing; blanks or nothing; something
    with a blank in it; blanks; something after an at-keyword, or nothing unless a word follows. *)
Inductive slot := Tight | Loose | Blanks | Needed | Spread | AfterAt.

Notation chunk := (slot * part)%type.

Definition is_blank (f : filler) : bool := match f with CssPlainSpec.Blank _ => true | Comment _ => false end.

(** After a word, a string or a closing parenthesis or bracket there is at most one comment, which
    comes first (otherwise one blank stays). *)
Definition roomy (prev : option part) : bool :=
  match prev with Some (Sign c) => negb (among (S_ ")]") c) | Some (Licence _ _) => true | _ => false end.

Definition is_word (p : part) : bool := match p with Word _ => true | _ => false end.

Definition gap_fits (prev : option part) (s : slot) (p : part) (g : list filler) : bool :=
  forallb filler_ok g
  && match s with
     | Tight => match g with [] => true | _ => false end
     | Loose => roomy prev || leads g
     | Blanks => forallb is_blank g
     | Needed => existsb is_blank g
     | Spread => forallb is_blank g && match g with [] => false | _ => true end
     | AfterAt => match g with [] => negb (is_word p) | _ => true end
     end.

Definition gap_text (g : list filler) : str := flat_map filler_text g.

Inductive laid_out : option part -> list chunk -> str -> Prop :=
| lo_end : forall prev g, forallb filler_ok g = true -> match prev with None => forallb is_blank g = true | _ => True end ->
    laid_out prev [] (gap_text g)
| lo_part : forall prev s p l g r, gap_fits prev s p g = true -> laid_out (Some p) l r ->
    laid_out prev ((s, p) :: l) (gap_text g ++ part_text p ++ r).

(** The text that is expected: nothing where nothing is needed, one blank where one is, and a line end
    after a notice. *)
Definition slot_text (s : slot) : str := match s with Needed | Spread | AfterAt => [0x20] | _ => [] end.
Definition line_end (p : part) : str := match p with Licence _ _ => [0xA] | _ => [] end.
Definition canonical (l : list chunk) : str := flat_map (fun c => slot_text (fst c) ++ part_text (snd c) ++ line_end (snd c)) l.

(** ** How rules are written *)

Definition sign (s : slot) (x : string) : chunk := (s, Sign (hd 0 (S_ x))).

Definition mark_text (m : mark) : str := match m with Class n => 0x2E :: n | Ident n => 0x23 :: n end.
Definition marks_text (l : list mark) : str := flat_map mark_text l.
Definition word (s : slot) (w : str) : list chunk := match w with [] => [] | _ => [(s, Word w)] end.

Definition value_chunk (s : slot) (v : value_of) : chunk := match v with Bare w => (s, Word w) | Text t => (s, Quoted t) end.

Definition test_chunks (t : test) : list chunk :=
  match t with
  | Has => []
  | Equals v => [sign Loose "="; value_chunk Loose v]
  | Matches c v => [(Tight, Match c); value_chunk Tight v]
  end.

(** The slot before the first part is given, the others are tight. *)
Definition first_tight (s : slot) (l : list chunk) : list chunk :=
  match l with (_, p) :: r => (s, p) :: r | [] => [] end.

Definition head_chunks (e : option element) (m : list mark) : list chunk :=
  match e with
  | Some (Tag n) => word Tight (n ++ marks_text m)
  | Some Any => sign Tight "*" :: word Tight (marks_text m)
  | None => word Tight (marks_text m)
  end.

Definition element_of (c : compound) : option element := match c with Compound e _ _ => e end.
Definition marks (c : compound) : list mark := match c with Compound _ m _ => m end.
Definition details (c : compound) : list (detail * list mark) := match c with Compound _ _ d => d end.

(** An attribute selector at the end, after which a blank would be kept. *)
Definition ends_in_bracket (c : compound) : bool :=
  match rev (details c) with (HasAttribute _ _, []) :: _ => true | _ => false end.

Definition before_sign (c : compound) : slot := if ends_in_bracket c then Tight else Loose.

Definition last_compound (x : selector) : compound := match x with Selector c l => List.last (map snd l) c end.

Definition comb_chunk (c : compound) (k : combinator) : list chunk :=
  match k with
  | Descendant => []
  | Child => [sign (before_sign c) ">"]
  | Next => [sign (before_sign c) "+"]
  | Later => [sign (before_sign c) "~"]
  end.
Definition comb_slot (k : combinator) : slot := match k with Descendant => Needed | _ => Loose end.

(** With combinators between; [f] writes a compound selector. *)
Definition rest_with (f : slot -> compound -> list chunk) : compound -> list (combinator * compound) -> list chunk :=
  fix go c l := match l with [] => [] | (k, d) :: r => comb_chunk c k ++ f (comb_slot k) d ++ go d r end.

(** Selectors after [x], with commas, and [stop] after the last; [f] writes a selector. *)
Definition list_with (f : slot -> selector -> list chunk) (stop : compound -> chunk) : selector -> list selector -> list chunk :=
  fix go x l :=
    match l with
    | [] => [stop (last_compound x)]
    | y :: r => sign (before_sign (last_compound x)) "," :: f Loose y ++ go y r
    end.

Fixpoint compound_chunks (s : slot) (c : compound) : list chunk :=
  match c with
  | Compound e m d => first_tight s (head_chunks e m ++ flat_map (fun x => detail_chunks Tight (fst x) (snd x)) d)
  end
with detail_chunks (s : slot) (d : detail) (m : list mark) : list chunk :=
  match d with
  | HasAttribute n t => sign s "[" :: (Loose, Word n) :: test_chunks t ++ sign Loose "]" :: word Tight (marks_text m)
  | PseudoClass n => [(s, Pseudo (n ++ marks_text m))]
  | PseudoElement n => [sign s ":"; (Tight, Pseudo (n ++ marks_text m))]
  | Function n a => (s, Pseudo n) :: sign Tight "(" :: argument_chunks a ++ word Tight (marks_text m)
  end
with argument_chunks (a : argument) : list chunk :=
  match a with
  | Nth w p => (Loose, Word w) :: match p with Some v => [sign Loose "+"; (Loose, Word v)] | None => [] end ++ [sign Loose ")"]
  | Among x l => selector_chunks Loose x ++ list_with selector_chunks (fun c => sign (before_sign c) ")") x l
  end
with selector_chunks (s : slot) (x : selector) : list chunk :=
  match x with Selector c l => compound_chunks s c ++ rest_with compound_chunks c l end.

Fixpoint sum_chunks (s : slot) (e : sum) : list chunk :=
  match e with
  | Sum o l => operand_chunks s o ++ flat_map (fun x => (Spread, if fst x =? 0x2D then Word [0x2D] else Sign (fst x)) :: operand_chunks Spread (snd x)) l
  end
with operand_chunks (s : slot) (o : operand) : list chunk :=
  match o with
  | Value w => [(s, Word w)]
  | Parens e => sign s "(" :: sum_chunks Blanks e ++ [sign Tight ")"]
  end.

(** The parts of an address: words, signs and operators. *)
Fixpoint address_parts (a : str) : list part :=
  match a with
  | [] => []
  | c :: r =>
      let l := address_parts r in
      if word_char c then match l with Word w :: m => Word (c :: w) :: m | _ => Word [c] :: l end
      else match l with
           | Sign d :: m => if (d =? 0x3D) && among (S_ "~|$^*") c then Match c :: m else Sign c :: l
           | _ => Sign c :: l
           end
  end.

(** Nothing but blanks around the address, and nothing in it. *)
Definition url_chunks (s : slot) (f : str) (a : value_of) : list chunk :=
  (s, Word f) :: sign Tight "("
  :: first_tight Blanks (map (pair Tight) (match a with Bare w => address_parts w | Text t => [Quoted t] end))
  ++ [sign Blanks ")"].

Fixpoint values_chunks (s : slot) (v : values) : list chunk :=
  match v with
  | Values t l =>
      term_chunks s t
      ++ flat_map (fun x => match fst x with
                            | Space => term_chunks Needed (snd x)
                            | Comma => sign Loose "," :: term_chunks Loose (snd x)
                            | Slash => sign Loose "/" :: term_chunks Loose (snd x)
                            end) l
  end
with term_chunks (s : slot) (t : term) : list chunk :=
  match t with
  | TWord w => [(s, Word w)]
  | TString t => [(s, Quoted t)]
  | TCall f v => (s, Word f) :: sign Tight "(" :: values_chunks Loose v ++ [sign Loose ")"]
  | TCalc e => (s, Word (S_ "calc")) :: sign Tight "(" :: sum_chunks Blanks e ++ [sign Tight ")"]
  | TUrl f a => url_chunks s f a
  end.

Definition declaration_chunks (d : declaration) : list chunk :=
  (Loose, Word (property d)) :: sign Loose ":" :: values_chunks Loose (set_to d).

Fixpoint declarations_chunks (l : list declaration) (closed : bool) : list chunk :=
  match l with
  | [] => []
  | d :: r =>
      declaration_chunks d
      ++ match r with
         | [] => if closed then [sign Loose ";"] else []
         | _ => sign Loose ";" :: declarations_chunks r closed
         end
  end.

(** In the block of an at-rule nothing stands before the colon, and no comment after it. *)
Definition direct_declaration (d : declaration) : list chunk :=
  (Loose, Word (property d)) :: sign Tight ":" :: values_chunks Blanks (set_to d).

Fixpoint direct_declarations (l : list declaration) (closed : bool) : list chunk :=
  match l with
  | [] => []
  | d :: r =>
      direct_declaration d
      ++ match r with
         | [] => if closed then [sign Loose ";"] else []
         | _ => sign Loose ";" :: direct_declarations r closed
         end
  end.

Definition rule_chunks (s : slot) (r : rule) : list chunk :=
  selector_chunks s (fst (selectors r))
  ++ list_with selector_chunks (fun _ => sign Loose "{") (fst (selectors r)) (snd (selectors r))
  ++ declarations_chunks (declarations r) (closed r) ++ [sign Loose "}"].

Definition inner_chunks (x : inner) : list chunk :=
  match x with
  | Ruled r => rule_chunks Loose r
  | Frame w l d c =>
      (Loose, Word w) :: flat_map (fun v => [sign Loose ","; (Loose, Word v)]) l
      ++ sign Loose "{" :: declarations_chunks d c ++ [sign Loose "}"]
  end.

Definition condition_chunks (s : slot) (c : condition) : list chunk :=
  match c with
  | CWord w => [(s, Word w)]
  | CString t => [(s, Quoted t)]
  | CFeature n v =>
      sign s "(" :: (Loose, Word n)
      :: match v with Some w => [sign Loose ":"; (Loose, Word w)] | None => [] end ++ [sign Loose ")"]
  | CUrl f a => url_chunks s f a
  | CPage (Some w) p => [(s, Word w); sign Tight ":"; (Tight, Word p)]
  | CPage None p => [sign s ":"; (Tight, Word p)]
  end.

(** [true]: after a comma. *)
Definition conditions_chunks (c : condition) (l : list (bool * condition)) : list chunk :=
  condition_chunks AfterAt c
  ++ flat_map (fun x : bool * condition => if fst x then sign Loose "," :: condition_chunks Loose (snd x) else condition_chunks Needed (snd x)) l.

Definition entry_chunks (s : slot) (e : entry) : list chunk :=
  match e with
  | Rule r => rule_chunks s r
  | AtStatement k c l => (s, At k) :: conditions_chunks c l ++ [sign Loose ";"]
  | AtBlock k c l =>
      (s, At k)
      :: match c with Some (c, m) => conditions_chunks c m ++ [sign Loose "{"] | None => [sign AfterAt "{"] end
      ++ flat_map inner_chunks l ++ [sign Loose "}"]
  | AtBody k c d cl =>
      (s, At k)
      :: match c with Some (c, m) => conditions_chunks c m ++ [sign Loose "{"] | None => [sign AfterAt "{"] end
      ++ direct_declarations d cl ++ [sign Loose "}"]
  | Notice b => [(s, Licence 0x21 b)]
  end.

(** Nothing but blanks at the beginning (a comment would leave a blank). *)
Definition sheet_chunks (l : sheet) : list chunk :=
  match l with [] => [] | e :: r => entry_chunks Blanks e ++ flat_map (entry_chunks Loose) r end.

(** ** The rules that are considered *)

Definition name_char (c : N) : bool :=
  (0x61 <=? c) && (c <=? 0x7A) || (0x41 <=? c) && (c <=? 0x5A) || (0x30 <=? c) && (c <=? 0x39) || among (S_ "-_") c
  || (0x80 <=? c) && word_char c.

Definition is_name (n : str) : bool := match n with [] => false | _ => forallb name_char n end.

(** Names of tags begin with a letter. *)
Definition is_tag (n : str) : bool :=
  is_name n && match n with c :: _ => (0x61 <=? c) && (c <=? 0x7A) || (0x41 <=? c) && (c <=? 0x5A) | [] => false end.

Definition is_value (w : str) : bool := a_word w && negb (str_eqb w (S_ "calc")).
Definition is_string (t : str) : bool := match t with q :: r => among [0x22; 0x27] q && closes_at_end q r | [] => false end.

Definition mark_fine (m : mark) : bool := match m with Class n | Ident n => is_name n end.
Definition value_fine (v : value_of) : bool := match v with Bare w => is_value w | Text t => is_string t end.

Definition test_fine (t : test) : bool :=
  match t with Has => true | Equals v => value_fine v | Matches c v => among (S_ "~|$^*") c && value_fine v end.

(** A number, or [2n], [-n] and the like. *)
Definition is_nth (w : str) : bool :=
  a_word w && match w with c :: _ => (0x30 <=? c) && (c <=? 0x39) || (c =? 0x2D) | [] => false end.

(** Only the sign [*]. *)
Definition just_any (c : compound) : bool :=
  match element_of c, marks c, details c with Some Any, [], [] => true | _, _, _ => false end.

(** Begins with a tag, class or identifier. *)
Definition begins_named (c : compound) : bool :=
  match element_of c, marks c with Some (Tag _), _ => true | None, _ :: _ => true | _, _ => false end.

Definition begins_with (f : detail -> bool) (c : compound) : bool :=
  match element_of c, marks c, details c with None, [], (d, _) :: _ => f d | _, _, _ => false end.

Definition is_class (d : detail) : bool := match d with PseudoClass _ | Function _ _ => true | _ => false end.
Definition is_pseudo_element (d : detail) : bool := match d with PseudoElement _ => true | _ => false end.

Definition begins_any (c : compound) : bool := match element_of c with Some Any => true | _ => false end.

(** A function at the end. *)
Definition ends_in_paren (c : compound) : bool := match rev (details c) with (Function _ _, []) :: _ => true | _ => false end.

(** Where minify keeps the blank of a descendant combinator. *)
Definition descends (c d : compound) : bool :=
  if just_any c then begins_named d || begins_with is_class d
  else ends_in_bracket c || negb (begins_with is_pseudo_element d) && negb (ends_in_paren c && begins_any d).

Definition rest_fine (f : compound -> bool) : compound -> list (combinator * compound) -> bool :=
  fix go c l :=
    match l with
    | [] => true
    | (k, d) :: r => f d && match k with Descendant => descends c d | _ => true end && go d r
    end.

Fixpoint compound_fine (c : compound) : bool :=
  match c with
  | Compound e m d =>
      match e with
      | Some (Tag n) => is_tag n
      | Some Any => true
      | None => match m, d with [], [] => false | _, _ => true end
      end && forallb mark_fine m && forallb (fun x => detail_fine (fst x) && forallb mark_fine (snd x)) d
  end
with detail_fine (d : detail) : bool :=
  match d with
  | HasAttribute n t => is_value n && test_fine t
  | PseudoClass n | PseudoElement n => is_name n
  | Function n a => is_name n && argument_fine a
  end
with argument_fine (a : argument) : bool :=
  match a with
  | Nth w p => is_nth w && match p with Some v => is_nth v | None => true end
  | Among x l => selector_fine x && forallb selector_fine l
  end
with selector_fine (x : selector) : bool :=
  match x with Selector c l => compound_fine c && rest_fine compound_fine c l end.

Fixpoint sum_fine (e : sum) : bool :=
  match e with Sum o l => operand_fine o && forallb (fun x => among (S_ "+-*/") (fst x) && operand_fine (snd x)) l end
with operand_fine (o : operand) : bool :=
  match o with Value w => is_value w | Parens e => sum_fine e end.

(** The name url, in capital or small letters. *)
Definition is_url (f : str) : bool :=
  str_eqb (map (fun c => if (0x41 <=? c) && (c <=? 0x5A) then c + 0x20 else c) f) (S_ "url").

(** [/*] would begin a comment. *)
Fixpoint no_comment (a : str) : bool :=
  match a with [] => true | c :: r => negb ((c =? 0x2F) && begins (N.eqb 0x2A) r) && no_comment r end.

(** No blanks, quotation marks, backslashes, brackets and braces, and no [calc] that is a word by itself. *)
Definition address_fine (a : value_of) : bool :=
  match a with
  | Bare w =>
      forallb (fun c => word_char c || among (S_ ",>:;/+=*|~$^") c) w && no_comment w
      && forallb (fun p => match p with Word v => negb (str_eqb v (S_ "calc")) | _ => true end) (address_parts w)
  | Text t => is_string t
  end.
Definition url_fine (f : str) (a : value_of) : bool := is_value f && is_url f && address_fine a.

Fixpoint values_fine (v : values) : bool :=
  match v with Values t l => term_fine t && forallb (fun x => term_fine (snd x)) l end
with term_fine (t : term) : bool :=
  match t with
  | TWord w => is_value w
  | TString t => is_string t
  | TCall f v => is_value f && negb (is_url f) && values_fine v
  | TCalc e => sum_fine e
  | TUrl f a => url_fine f a
  end.

Definition declaration_fine (d : declaration) : bool := is_value (property d) && values_fine (set_to d).

(** A semicolon follows a declaration. *)
Definition body_fine (d : list declaration) (closed : bool) : bool :=
  forallb declaration_fine d && match d with [] => negb closed | _ => true end.
Definition rule_fine (r : rule) : bool :=
  selector_fine (fst (selectors r)) && forallb selector_fine (snd (selectors r)) && body_fine (declarations r) (closed r).
Definition inner_fine (x : inner) : bool :=
  match x with Ruled r => rule_fine r | Frame w l d c => is_nth w && forallb is_nth l && body_fine d c end.

Definition condition_fine (c : condition) : bool :=
  match c with
  | CWord w => is_value w
  | CString t => is_string t
  | CFeature n v => is_value n && match v with Some w => is_value w | None => true end
  | CUrl f a => url_fine f a && match a with Bare w => forallb (fun c => negb (c =? 0x3B)) w | Text _ => true end
  | CPage w p => is_value p && match w with Some w => is_value w | None => true end
  end.

(** A feature follows a blank only after a word; a page without a name is the first or follows a comma. *)
Fixpoint conditions_fine (c : condition) (l : list (bool * condition)) : bool :=
  condition_fine c
  && match l with
     | [] => true
     | (comma, d) :: r =>
         (comma || match d, c with CFeature _ _, CWord _ => true | CFeature _ _, _ | CPage None _, _ => false | _, _ => true end)
         && conditions_fine d r
     end.

(** The at-rules with declarations in their blocks, with or without a prefix such as [-ms-]. *)
Definition described : list string :=
  ["font-face"; "page"; "counter-style"; "property"; "viewport"; "font-palette-values"; "color-profile"; "position-try";
   "view-transition"; "-ms-viewport"; "-o-viewport"]%string.
Definition describes (k : str) : bool := existsb (fun x => str_eqb k (S_ x)) described.

(** There no word begins with [@], and calc is left out. *)
Definition no_at (w : str) : bool := negb (begins (N.eqb 0x40) w).

Fixpoint direct_values (v : values) : bool :=
  match v with Values t l => direct_term t && forallb (fun x => direct_term (snd x)) l end
with direct_term (t : term) : bool :=
  match t with
  | TWord w => no_at w
  | TString _ => true
  | TCall f v => no_at f && direct_values v
  | TCalc _ => false
  | TUrl _ a => match a with Bare w => forallb (fun c => negb (c =? 0x40)) w | Text _ => true end
  end.
Definition direct_fine (d : declaration) : bool := no_at (property d) && direct_values (set_to d).

Definition entry_fine (e : entry) : bool :=
  match e with
  | Rule r => rule_fine r
  | AtStatement k c l => is_name k && conditions_fine c l
  | AtBlock k c l =>
      is_name k && negb (describes k) && match c with Some (c, m) => conditions_fine c m | None => true end && forallb inner_fine l
  | AtBody k c d cl =>
      is_name k && describes k && match c with Some (c, m) => conditions_fine c m | None => true end
      && body_fine d cl && forallb direct_fine d
  | Notice b => endless b
  end.

Definition sheet_fine (l : sheet) : bool := forallb entry_fine l.
