(** Vocabulary for the blanks of a style sheet: where a place lies, and what it means that a
    blank of the source is still there in the output.  Independent of the model. *)
From Coq Require Import String List NArith Bool.
From Verif Require Import Base CssSpec.
Import ListNotations.
Open Scope N_scope.

(** ** Places *)

(** Open braces; an at sign since the last rule ended; inside brackets. *)
Record place := { depth : nat; at_rule : bool; bracket : bool }.

Definition move (x : place) (p : piece) : place :=
  match p with
  | PChar c => {| depth := depth x; at_rule := at_rule x || (c =? 0x40); bracket := bracket x |}
  | PPunct c =>
      if c =? 0x7B then {| depth := S (depth x); at_rule := at_rule x; bracket := bracket x |}
      else if c =? 0x7D then
        {| depth := pred (depth x);
           at_rule := match pred (depth x) with O => false | _ => at_rule x end;
           bracket := bracket x |}
      else if c =? 0x3B then
        {| depth := depth x; at_rule := match depth x with O => false | _ => at_rule x end;
           bracket := bracket x |}
      else if c =? 0x5B then {| depth := depth x; at_rule := at_rule x; bracket := true |}
      else if c =? 0x5D then {| depth := depth x; at_rule := at_rule x; bracket := false |}
      else x
  | _ => x
  end.

Definition place_after (ps : list piece) : place :=
  fold_left move ps {| depth := 0; at_rule := false; bracket := false |}.

(** Where a selector of a top level rule stands. *)
Definition in_selector (ps : list piece) : Prop :=
  depth (place_after ps) = 0%nat /\ at_rule (place_after ps) = false /\ bracket (place_after ps) = false.

(** Where declarations stand: in a top level rule, or in a rule inside an at-rule. *)
Definition in_declaration (ps : list piece) : Prop :=
  (2 <= depth (place_after ps))%nat \/
  (1 <= depth (place_after ps))%nat /\ at_rule (place_after ps) = false.

(** A colon, perhaps with blanks after it. *)
Definition colon_before (q : list piece) : Prop :=
  exists q' g, q = q' ++ PPunct 0x3A :: g /\ Forall (fun p => p = PBlank) g.

(** An at-keyword where a top level rule may start. *)
Definition at_keyword (ps : list piece) : Prop :=
  exists q name, ps = q ++ PChar 0x40 :: map PChar name /\ name <> [] /\ run_starts q /\ in_selector q /\
    ~ colon_before q.

(** The head of an at-rule: after its keyword, before its brace or semicolon. *)
Definition in_at_head (ps : list piece) : Prop :=
  exists k x r, ps = k ++ x :: r /\ at_keyword k /\ ~ word_piece x /\
    Forall (fun p => p <> PPunct 0x7B /\ p <> PPunct 0x7D /\ p <> PPunct 0x3B) (x :: r).

(** ** Gaps *)

(** The source is [pre], a gap of blanks and comments, then [post]. *)
Definition gap_between (s : str) (pre gap post : list piece) : Prop :=
  fst (lex s) = pre ++ gap ++ post /\ gap <> [] /\ Forall separator gap.

(** A comment is among the pieces. *)
Definition commented (ps : list piece) : Prop := Exists (fun p => exists b, p = PCom b) ps.

(** The output has a blank at the same place: the items before it are those of [pre], the
    items after it are those of [post]. *)
Definition blank_stays (o : str) (pre post : list piece) : Prop :=
  exists p1 p2, fst (lex o) = p1 ++ PBlank :: p2 /\
    items_from [] p1 = items_from [] pre /\ items_from [] p2 = items_from [] post.

(** The output has no blank at that place. *)
Definition no_blank (o : str) (pre post : list piece) : Prop :=
  exists p1 p2, fst (lex o) = p1 ++ p2 /\
    items_from [] p1 = items_from [] pre /\ items_from [] p2 = items_from [] post /\
    (forall q g, p1 = q ++ [g] -> ~ separator g) /\ (forall g q, p2 = g :: q -> ~ separator g).

(** ** Kinds of pieces *)

(** The end of a word, a string, a closing parenthesis or bracket. *)
Definition closes (a : piece) : Prop :=
  (exists c, a = PChar c) \/ (exists t, a = PStr t) \/ a = PPunct 0x29 \/ a = PPunct 0x5D.

(** The start of a word without escape, a string, an opening bracket. *)
Definition opens (b : piece) : Prop :=
  (exists c, b = PChar c) \/ (exists t, b = PStr t) \/ b = PPunct 0x5B.

(** The run of plain characters [w] is a simple selector after the pieces [q]: a pseudo class
    directly after a colon, or else a class, an identifier or a tag. *)
Definition ascii_letter (c : N) : bool :=
  ((0x41 <=? c) && (c <=? 0x5A)) || ((0x61 <=? c) && (c <=? 0x7A)).

Definition names_element (w : str) : Prop :=
  match w with
  | c :: r => ascii_letter c = true \/ ((c = 0x2E \/ c = 0x23) /\ r <> [])
  | [] => False
  end.

Definition simple_selector (q : list piece) (w : str) : Prop :=
  run_starts q /\ w <> [] /\
  ((exists q', q = q' ++ [PPunct 0x3A]) \/ (names_element w /\ ~ colon_before q)).

(** ** calc *)

Definition calc_name : list piece := map PChar (S_ "calc").

Definition opened (ps : list piece) : nat :=
  length (filter (fun p => match p with PPunct c => c =? 0x28 | _ => false end) ps).
Definition closed (ps : list piece) : nat :=
  length (filter (fun p => match p with PPunct c => c =? 0x29 | _ => false end) ps).

(** No parenthesis of before [ps] is closed in [ps]. *)
Definition stays_open (ps : list piece) : Prop :=
  forall a b, ps = a ++ b -> (closed a <= opened a)%nat.

(** The name calc is only used as a function. *)
Definition calc_called (ps : list piece) : Prop :=
  forall q r, ps = q ++ calc_name ++ r -> run_starts q ->
  match r with PChar _ :: _ => False | _ => True end ->
  exists g r', r = g ++ PPunct 0x28 :: r' /\ Forall separator g.

(** [ps] ends inside the parentheses of a calc of a declaration. *)
Definition inside_calc (ps : list piece) : Prop :=
  exists q g inner, ps = q ++ calc_name ++ g ++ PPunct 0x28 :: inner /\
    run_starts q /\ in_declaration q /\ Forall separator g /\ stays_open inner.

(** An operator of calc that is not a word character ([-] is one). *)
Definition calc_operator (a : piece) : Prop :=
  a = PPunct 0x2B \/ a = PPunct 0x2A \/ a = PPunct 0x2F.

(** ** Needless blanks *)

(** [ps] ends inside the parentheses of a calc, or between its name and the parenthesis. *)
Definition in_calc (ps : list piece) : Prop :=
  exists q g r, ps = q ++ calc_name ++ g ++ r /\ run_starts q /\ Forall separator g /\
    (r = [] \/ exists inner, r = PPunct 0x28 :: inner /\ stays_open inner).

(** A word that starts with an at sign. *)
Definition at_word (ps : list piece) : Prop :=
  exists q name, ps = q ++ PChar 0x40 :: map PChar name /\ name <> [] /\ run_starts q.

(** At most one blank is left at that place of the output. *)
Definition one_blank (o : str) (pre post : list piece) : Prop :=
  exists p1 g p2, fst (lex o) = p1 ++ g ++ p2 /\
    items_from [] p1 = items_from [] pre /\ items_from [] p2 = items_from [] post /\
    (g = [] \/ g = [PBlank]) /\
    (forall q x, p1 = q ++ [x] -> ~ separator x) /\ (forall x q, p2 = x :: q -> ~ separator x).

(** An equal sign is not what comes next. *)
Definition no_equal_next (post : list piece) : Prop :=
  forall g r, post = g ++ PPunct 0x3D :: r -> ~ Forall separator g.

(** What may come after punctuation [c] and a gap: nothing, or a piece that would not join it. *)
Definition allows_next (c : N) (post : list piece) : Prop :=
  match post with
  | [] => True
  | b :: _ => ~ separator b /\ b <> PPunct 0x3D /\ (c = 0x2F -> b <> PPunct 0x2A)
  end.

(** ** Nothing else changes *)

(** A word that starts with an at sign, outside declarations and attribute selectors. *)
Definition rule_word (ps : list piece) : Prop :=
  exists q name, ps = q ++ PChar 0x40 :: map PChar name /\ name <> [] /\ run_starts q /\
    ~ in_declaration q /\ bracket (place_after q) = false.

Definition word_next (ps : list piece) : Prop :=
  match ps with p :: _ => word_piece p | [] => False end.

Definition blank_last (ps : list piece) : Prop := exists q g, ps = q ++ [g] /\ separator g.

(** [tame full s o]: the pieces [o] are what is left of the first pieces [s] of the sheet [full]:
    blanks and comments are kept, dropped or turned into a blank; one blank is added after the
    keyword of an at-rule, unless there is one, and after a licence; all else is kept. *)
Inductive tame (full : list piece) : list piece -> list piece -> Prop :=
| tm_nil : tame full [] []
| tm_keep : forall s o p, tame full s o -> tame full (s ++ [p]) (o ++ [p])
| tm_drop : forall s o p, tame full s o -> separator p -> tame full (s ++ [p]) o
| tm_blank : forall s o p, tame full s o -> separator p -> tame full (s ++ [p]) (o ++ [PBlank])
| tm_rule : forall s o r, tame full s o -> full = s ++ r -> rule_word s -> ~ word_next r ->
    ~ blank_last o -> tame full s (o ++ [PBlank])
| tm_licence : forall s o b, tame full s o -> tame full (s ++ [PLic b]) (o ++ [PLic b; PBlank]).

(** Without blanks and comments. *)
Definition solid (ps : list piece) : list piece :=
  filter (fun p => match p with PBlank | PCom _ => false | _ => true end) ps.

(** ** Sheets that one run settles *)

(** Where words after a colon are no pseudo classes: declarations, brackets, the head of an at-rule. *)
Definition colon_place (pre : list piece) : Prop :=
  in_declaration pre \/ bracket (place_after pre) = true \/ in_at_head pre.

(** Elsewhere the word after a colon and blanks is read as a pseudo class once the blanks are gone.
    This makes no difference if the word is not calc, and if no blanks and a parenthesis follow it. *)
Definition mild (post : list piece) : Prop :=
  forall g w r, post = g ++ map PChar w ++ r -> Forall (eq PBlank) g -> w <> [] ->
    match r with PChar _ :: _ => False | _ => True end ->
    w <> S_ "calc" /\ (forall g' r', r = PBlank :: g' ++ PPunct 0x28 :: r' -> ~ Forall (eq PBlank) g').

(** No comments; blanks after a colon only where no pseudo class can stand, or before a word of the
    kind above; no star directly after an at-keyword; every calc is called, and inside it there is
    neither a licence nor an at sign. *)
Record steady (ps : list piece) : Prop := {
  no_comments : forall b, ~ In (PCom b) ps;
  colon_blanks : forall pre post, ps = pre ++ PPunct 0x3A :: PBlank :: post ->
    colon_place (pre ++ [PPunct 0x3A]) \/ mild post;
  at_stars : forall pre post, ps = pre ++ PPunct 0x2A :: post -> ~ at_word pre;
  calcs_called : calc_called ps;
  calcs_plain : forall pre p post, ps = pre ++ p :: post -> in_calc pre -> p <> PChar 0x40 /\ forall b, p <> PLic b
}.
