(** Model of src/html.rs (feature html).

    Regular expressions: the ones of the file only repeat single character classes, so a
    pattern is a list of alternatives, each a list of elements that match one character, or a
    run of characters as long (greedy) or as short (lazy) as the rest of the pattern allows.
    Matching is leftmost-first, as in the regex crate: the first place where some alternative
    matches, the first alternative that matches there, each element preferring its own order.
    [(style|script)] inside a pattern is written as two alternatives; [(.|\n)] is the class
    of all characters. *)
From Coq Require Import String List NArith ZArith Bool.
From Verif Require Import Base.
Import ListNotations.
Open Scope N_scope.

Inductive elem :=
| One (p : N -> bool)                       (* one character *)
| Greedy (p : N -> bool) (min : nat)        (* as many as possible, at least [min] *)
| Lazy (p : N -> bool) (min : nat).         (* as few as possible, at least [min] *)

(** The text of each element, and what follows the match. *)
Fixpoint m_seq (r : list elem) : str -> option (list str * str) :=
  match r with
  | [] => fun s => Some ([], s)
  | One p :: r' => fun s =>
      match s with
      | c :: s' => if p c then match m_seq r' s' with Some (l, t) => Some ([c] :: l, t) | None => None end else None
      | [] => None
      end
  | Greedy p min :: r' =>
      (fix go (n : nat) (s : str) {struct s} : option (list str * str) :=
         let stop := match n with
                     | O => match m_seq r' s with Some (l, t) => Some ([] :: l, t) | None => None end
                     | S _ => None
                     end in
         match s with
         | c :: s' =>
             if p c then
               match go (pred n) s' with
               | Some (x :: l, t) => Some ((c :: x) :: l, t)
               | _ => stop
               end
             else stop
         | [] => stop
         end) min
  | Lazy p min :: r' =>
      (fix go (n : nat) (s : str) {struct s} : option (list str * str) :=
         let stop := match n with
                     | O => match m_seq r' s with Some (l, t) => Some ([] :: l, t) | None => None end
                     | S _ => None
                     end in
         match stop with
         | Some x => Some x
         | None =>
             match s with
             | c :: s' =>
                 if p c then
                   match go (pred n) s' with
                   | Some (x :: l, t) => Some ((c :: x) :: l, t)
                   | _ => None
                   end
                 else None
             | [] => None
             end
         end) min
  end.

Definition pattern := list (list elem).

Fixpoint m_alt (r : pattern) (s : str) : option (list str * str) :=
  match r with
  | [] => None
  | a :: r' => match m_seq a s with Some x => Some x | None => m_alt r' s end
  end.

(** [Regex::replace_all] with a function of the captures (here: the texts of the elements).
    No pattern of the file matches the empty text, so that each step consumes a character and
    the length of the text is fuel enough. *)
Fixpoint replace_loop (fuel : nat) (r : pattern) (f : list str -> outcome str) (s : str) : outcome str :=
  match fuel with
  | O => Ok s
  | S n =>
      match m_alt r s with
      | Some (l, t) => let! x := f l in let! y := replace_loop n r f t in Ok (x ++ y)
      | None => match s with
                | [] => Ok []
                | c :: s' => let! y := replace_loop n r f s' in Ok (c :: y)
                end
      end
  end.

Definition re_replace_all (r : pattern) (f : list str -> outcome str) (s : str) : outcome str :=
  replace_loop (length s) r f s.

(** The same with a fixed text (without [$]). *)
Fixpoint subst_loop (fuel : nat) (r : pattern) (by_ : str) (s : str) : str :=
  match fuel with
  | O => s
  | S n =>
      match m_alt r s with
      | Some (_, t) => by_ ++ subst_loop n r by_ t
      | None => match s with [] => [] | c :: s' => c :: subst_loop n r by_ s' end
      end
  end.

Definition re_subst_all (r : pattern) (by_ s : str) : str := subst_loop (length s) r by_ s.

(** [Regex::find_iter]: the texts of the matches. *)
Fixpoint find_loop (fuel : nat) (r : pattern) (s : str) : list str :=
  match fuel with
  | O => []
  | S n =>
      match m_alt r s with
      | Some (l, t) => concat l :: find_loop n r t
      | None => match s with [] => [] | _ :: s' => find_loop n r s' end
      end
  end.

Definition re_find_iter (r : pattern) (s : str) : list str := find_loop (length s) r s.

(** ** Strings *)

(** [str::starts_with], and the rest. *)
Fixpoint strip (p s : str) : option str :=
  match p, s with
  | [], _ => Some s
  | a :: p', b :: s' => if a =? b then strip p' s' else None
  | _ :: _, [] => None
  end.

Definition starts (p s : str) : bool := match strip p s with Some _ => true | None => false end.

(** [str::find(p).is_some()] *)
Fixpoint contains (p s : str) : bool :=
  starts p s || match s with [] => false | _ :: s' => contains p s' end.

(** [str::replace] with a pattern that is not empty. *)
Fixpoint str_replace_loop (fuel : nat) (p by_ s : str) : str :=
  match fuel with
  | O => s
  | S n =>
      match strip p s with
      | Some t => by_ ++ str_replace_loop n p by_ t
      | None => match s with [] => [] | c :: s' => c :: str_replace_loop n p by_ s' end
      end
  end.

Definition str_replace (p by_ s : str) : str := str_replace_loop (length s) p by_ s.

(** [str::trim_start], [str::trim] ([\s] of the regex crate is the same property,
    White_Space, as [char::is_whitespace]). *)
Fixpoint trim_start (s : str) : str :=
  match s with
  | c :: r => if is_whitespace c then trim_start r else s
  | [] => []
  end.

Definition trim_end (s : str) : str := rev (trim_start (rev s)).
Definition trim (s : str) : str := trim_start (trim_end s).

Section Unicode.

(** [\w] and [\d] outside ASCII, and the lower case of characters outside ASCII: left open. *)
Variables (word_u digit_u : N -> bool) (lower_u : N -> str).

Definition ascii_digit (c : N) : bool := (0x30 <=? c) && (c <=? 0x39).
Definition ascii_letter (c : N) : bool := ((0x41 <=? c) && (c <=? 0x5A)) || ((0x61 <=? c) && (c <=? 0x7A)).

Definition is_word (c : N) : bool :=
  if c <? 0x80 then ascii_letter c || ascii_digit c || (c =? 0x5F) else word_u c.
Definition is_dig (c : N) : bool := if c <? 0x80 then ascii_digit c else digit_u c.

(** [str::to_lowercase] (the final sigma is not distinguished). *)
Definition to_lowercase (s : str) : str :=
  flat_map (fun c => if c <? 0x80 then [if (0x41 <=? c) && (c <=? 0x5A) then c + 0x20 else c] else lower_u c) s.

(** ** Patterns *)
Definition lit (s : str) : list elem := map (fun a => One (N.eqb a)) s.
Definition any (c : N) : bool := true.
(** [.] *)
Definition dot (c : N) : bool := negb (c =? 0xA).
(** [[\w|\s]] *)
Definition word_bar_space (c : N) : bool := is_word c || (c =? 0x7C) || is_whitespace c.
Definition quote : str := [0x22].

(** condense_whitespace (html.rs 5-16). *)
Definition re_between_tags : pattern := [[One (N.eqb 0x3E); Greedy is_whitespace 1; One (N.eqb 0x3C)]].
Definition re_spaces : pattern := [[Greedy is_whitespace 2]; [One (fun c => (c =? 0xD) || (c =? 0xA))]].

Definition condense_whitespace (source : str) : str :=
  let lower_source := to_lowercase source in
  if negb (contains (S_ "<textarea") lower_source) && negb (contains (S_ "<pre") lower_source) then
    let source := re_subst_all re_between_tags (S_ "> <") source in
    re_subst_all re_spaces (S_ " ") source
  else trim source.

(** condense (html.rs 18-25). *)
Definition re_style_script : pattern :=
  [lit (S_ "<style") ++ [One word_bar_space; Lazy dot 0; One (N.eqb 0x3E)];
   lit (S_ "<script") ++ [One word_bar_space; Lazy dot 0; One (N.eqb 0x3E)]].
Definition re_type : pattern :=
  [[Lazy is_whitespace 0] ++ lit (S_ "type=" ++ quote) ++ [One word_bar_space; Lazy dot 0; One (N.eqb 0x22)]].

Definition condense (source : str) : outcome str :=
  re_replace_all re_style_script (fun caps => Ok (re_subst_all re_type [] (concat caps))) source.

(** clean_unneeded_tags (html.rs 27-66). *)
Definition useless_tags : list str :=
  map S_ ["</area>"; "</base>"; "<body>"; "</body>"; "</br>"; "</col>"; "</colgroup>"; "</dd>"; "</dt>";
    "<head>"; "</head>"; "</hr>"; "<html>"; "</html>"; "</img>"; "</input>"; "</li>"; "</link>"; "</meta>";
    "</option>"; "</param>"; "<tbody>"; "</tbody>"; "</td>"; "</tfoot>"; "</th>"; "</thead>"; "</tr>";
    "</basefont>"; "</isindex>"; "</param>"]%string.

Definition clean_unneeded_tags (source : str) : str :=
  fold_left (fun res tag => str_replace tag [] res) useless_tags source.

(** remove_comments (html.rs 68-79). *)
Definition re_comment : pattern := [lit (S_ "<!--") ++ [Lazy any 0] ++ lit (S_ "-->")].

Definition remove_comments (source : str) : outcome str :=
  re_replace_all re_comment (fun caps =>
    if starts (S_ "[") (trim (str_replace (S_ "<!--") (S_ " ") (concat caps)))
    then Ok (concat caps) else Ok (S_ " ")) source.

(** unquote_attributes (html.rs 81-149). *)
Definition re_any_tag : pattern := [[One (N.eqb 0x3C); One is_word; Lazy dot 0; One (N.eqb 0x3E)]].
Definition re_extra_spaces : pattern := [[One (N.eqb 0x20); Greedy is_whitespace 1]; [One is_whitespace; Greedy (N.eqb 0x20) 1]].
Definition re_between_words : pattern := [[One is_word; Greedy is_whitespace 1; One is_word]].
Definition re_before_close : pattern := [[One (N.eqb 0x22); Greedy is_whitespace 1; One (N.eqb 0x3E)]].
Definition re_before_close2 : pattern := [[One (N.eqb 0x27); Greedy is_whitespace 1; One (N.eqb 0x3E)]].
Definition re_attribute (q : N) (q' : str) : list elem :=
  [One (N.eqb q); One is_whitespace; Greedy is_whitespace 1; Greedy is_word 1; One (N.eqb 0x3D)] ++ lit q'.
Definition re_extra_spaces2 : pattern :=
  [re_attribute 0x22 [0x22]; re_attribute 0x27 [0x27]; re_attribute 0x22 []; re_attribute 0x27 []].
Definition re_extra_spaces3 : pattern := [[One is_dig; Greedy is_whitespace 1; One (N.eqb 0x3E)]].
Definition value_char (c : N) : bool :=
  ascii_letter c || ascii_digit c || (c =? 0x2D) || (c =? 0x5F) || (c =? 0x2E).
Definition re_quotes : pattern :=
  [[Greedy ascii_letter 1; One (N.eqb 0x3D); One (N.eqb 0x22); Greedy value_char 1; One (N.eqb 0x22)]].

(** The loop over the matches (html.rs 102-117). *)
Fixpoint spaces_loop (m1 m6 : list str) (tag : str) : str :=
  let step r tag := str_replace r (re_subst_all re_extra_spaces (S_ " ") r) tag in
  match m1, m6 with
  | a :: m1', b :: m6' => spaces_loop m1' m6' (step (a ++ b) tag)
  | [], b :: m6' => (fix go l tag := match l with [] => tag | b :: l' => go l' (step b tag) end) (b :: m6') tag
  | a :: m1', [] => spaces_loop m1' [] (step a tag)
  | [], [] => tag
  end.

(** The loop of html.rs 118-133. *)
Fixpoint attributes_loop (ms : list str) (output : str) : outcome str :=
  match ms with
  | [] => Ok output
  | m :: ms' =>
      let c := match m with c :: _ => c | [] => 0 end in
      let! rest := oslice (slice_from m 1) in
      attributes_loop ms'
        (str_replace m ((if c =? 0 then [] else [c]) ++ S_ " " ++ trim_start rest) output)
  end.

(** [quotes_in_tag.replace_all] (html.rs 134-139). *)
Definition unquote_one (caps : list str) : outcome str :=
  let name := nth 0 caps [] in
  let value := nth 3 caps [] in
  Ok (if str_eqb name (S_ "width") || str_eqb name (S_ "height")
      then name ++ S_ "=" ++ value
      else name ++ S_ "=" ++ quote ++ value ++ quote).

Definition unquote_tag (cap : str) : outcome str :=
  if starts (S_ "<!") cap || contains (S_ "</") cap then Ok cap
  else
    let tag := re_subst_all re_before_close (quote ++ S_ ">") cap in
    let tag := re_subst_all re_before_close2 (S_ "'>") tag in
    let tag := spaces_loop (re_find_iter re_between_words tag) (re_find_iter re_extra_spaces3 tag) tag in
    let! output := attributes_loop (re_find_iter re_extra_spaces2 tag) tag in
    let! tag := re_replace_all re_quotes unquote_one output in
    Ok (if str_eqb cap tag then cap else tag).

Definition unquote_attributes (source : str) : outcome str :=
  let! r := re_replace_all re_any_tag (fun caps => unquote_tag (concat caps)) source in
  Ok (trim r).

(** minify (html.rs 152-158). *)
Definition minify (source : str) : outcome str :=
  let! source := remove_comments source in
  let! source := condense source in
  let source := clean_unneeded_tags source in
  let source := condense_whitespace source in
  let! source := unquote_attributes source in
  Ok (trim source).

End Unicode.
