(** C20, C58: the blanks of a style sheet that stay, and those that go.  [alpha] is
    [char::is_alphabetic] outside ASCII; every theorem holds for all of its values. *)
From Coq Require Import String Arith List NArith ZArith Bool Lia.
From Verif Require Import Base CssModel CssSpec CssGapSpec CssProofs4 CssProofs7 CssProofs8 CssProofs9 CssProofs10.
Import ListNotations.
Open Scope N_scope.

(** Between the end of a word, a string, a closing parenthesis or bracket, and a word, a string
    or an opening bracket. *)
Theorem C20_css_gap_close_open : forall alpha s o pre a gap b post,
  css_minify alpha s = Ok o -> regular s -> gap_between s (pre ++ [a]) gap (b :: post) ->
  closes a -> opens b -> blank_stays o (pre ++ [a]) (b :: post).
Proof. exact gap_close_open. Qed.

(** After a closing bracket, before anything but an opening brace. *)
Theorem C20_css_gap_bracket : forall alpha s o pre gap b post,
  css_minify alpha s = Ok o -> regular s -> gap_between s (pre ++ [PPunct 0x5D]) gap (b :: post) ->
  ~ separator b -> b <> PPunct 0x7B -> blank_stays o (pre ++ [PPunct 0x5D]) (b :: post).
Proof. exact gap_close_bracket. Qed.

(** In a selector: a simple selector, then the star. *)
Theorem C20_css_gap_selector_star : forall alpha s o q w gap post,
  css_minify alpha s = Ok o -> regular s -> gap_between s (q ++ map PChar w) gap (PPunct 0x2A :: post) ->
  in_selector (q ++ map PChar w) -> simple_selector q w ->
  blank_stays o (q ++ map PChar w) (PPunct 0x2A :: post).
Proof. exact gap_selector_star. Qed.

(** In a selector: the star, then a tag, a class or an identifier. *)
Theorem C20_css_gap_star_selector : forall alpha s o q w gap post,
  css_minify alpha s = Ok o -> regular s -> gap_between s (q ++ [PPunct 0x2A]) gap (map PChar w ++ post) ->
  in_selector q -> names_element w -> match post with PChar _ :: _ => False | _ => True end ->
  blank_stays o (q ++ [PPunct 0x2A]) (map PChar w ++ post).
Proof. exact gap_star_selector. Qed.

(** Between a sign of the attribute operators and the equal sign, which would read as one
    operator: after the star, or where there is a comment. *)
Theorem C20_css_gap_sign_equal : forall alpha s o q c gap post,
  css_minify alpha s = Ok o -> regular s -> gap_between s (q ++ [PPunct c]) gap (PPunct 0x3D :: post) ->
  c = 0x2A \/ In c (S_ "^$~") /\ commented gap ->
  blank_stays o (q ++ [PPunct c]) (PPunct 0x3D :: post).
Proof. exact gap_sign_equal. Qed.

(** Not so for blanks after the other signs, nor for a comment after the bar. *)
Theorem C20_css_gap_equal_refuted : forall alpha,
  regular (S_ "[a^ =b]{}") /\ css_minify alpha (S_ "[a^ =b]{}") = Ok (S_ "[a^=b]{}") /\
  css_minify alpha (S_ "[a$ =b]{}") = Ok (S_ "[a$=b]{}") /\
  css_minify alpha (S_ "[a~ =b]{}") = Ok (S_ "[a~=b]{}") /\
  css_minify alpha (S_ "[a| =b]{}") = Ok (S_ "[a|=b]{}") /\
  css_minify alpha (S_ "[a|/**/=b]{}") = Ok (S_ "[a|=b]{}").
Proof.
  intro alpha. split; [|split; [|split; [|split; [|split]]]; vm_compute; reflexivity].
  refine (hrun_regular (fst (lex (S_ "[a^ =b]{}"))) HN _). vm_compute. reflexivity.
Qed.

(** In a selector: before a pseudo class. *)
Theorem C20_css_gap_pseudo : forall alpha s o q a gap c post,
  css_minify alpha s = Ok o -> regular s -> gap_between s (q ++ [a]) gap (PPunct 0x3A :: PChar c :: post) ->
  closes a -> in_selector (q ++ [a]) -> blank_stays o (q ++ [a]) (PPunct 0x3A :: PChar c :: post).
Proof. exact gap_pseudo. Qed.

(** In a declaration: a word, then an opening parenthesis. *)
Theorem C20_css_gap_declaration_paren : forall alpha s o q c gap post,
  css_minify alpha s = Ok o -> regular s -> gap_between s (q ++ [PChar c]) gap (PPunct 0x28 :: post) ->
  in_declaration (q ++ [PChar c]) -> blank_stays o (q ++ [PChar c]) (PPunct 0x28 :: post).
Proof. exact gap_declaration_paren. Qed.

(** After an at-keyword, before anything. *)
Theorem C20_css_gap_at_keyword : forall alpha s o pre gap b post,
  css_minify alpha s = Ok o -> regular s -> gap_between s pre gap (b :: post) -> ~ separator b ->
  at_keyword pre -> blank_stays o pre (b :: post).
Proof. exact gap_at_keyword. Qed.

(** In the head of an at-rule: a word, then an opening parenthesis. *)
Theorem C20_css_gap_at_head_paren : forall alpha s o q c gap post,
  css_minify alpha s = Ok o -> regular s -> gap_between s (q ++ [PChar c]) gap (PPunct 0x28 :: post) ->
  in_at_head (q ++ [PChar c]) -> blank_stays o (q ++ [PChar c]) (PPunct 0x28 :: post).
Proof. exact gap_at_head_paren. Qed.

(** Inside calc: after an operand and after an operator, before anything. *)
Theorem C20_css_gap_calc : forall alpha s o q a gap b post,
  css_minify alpha s = Ok o -> regular s -> gap_between s (q ++ [a]) gap (b :: post) -> ~ separator b ->
  inside_calc (q ++ [a]) -> calc_called (fst (lex s)) ->
  closes a \/ calc_operator a -> (a = PPunct 0x5D -> b <> PPunct 0x7B) ->
  blank_stays o (q ++ [a]) (b :: post).
Proof. exact gap_calc. Qed.

(** ** Needless blanks *)

(** After punctuation, whatever the gap: blanks, comments or both. *)
Theorem C58_css_after_punctuation : forall alpha s o q c gap post,
  css_minify alpha s = Ok o -> regular s -> gap_between s (q ++ [PPunct c]) gap post ->
  calc_called (fst (lex s)) -> ~ in_calc (q ++ [PPunct c]) -> In c (S_ "{};,>:([+/|~$^") -> allows_next c post ->
  no_blank o (q ++ [PPunct c]) post.
Proof. exact gap_after_punct. Qed.

(** After punctuation that is no operator, calc included, for a gap of blanks. *)
Theorem C58_css_blanks_after_punctuation : forall alpha s o q c gap post,
  css_minify alpha s = Ok o -> regular s -> gap_between s (q ++ [PPunct c]) gap post ->
  Forall (fun p => p = PBlank) gap -> In c (S_ "{};,>:([|~$^") -> allows_next c post ->
  no_blank o (q ++ [PPunct c]) post.
Proof. exact gap_blanks_after_punct. Qed.

(** After the equal sign of an attribute selector. *)
Theorem C58_css_after_equal : forall alpha s o q d gap post,
  css_minify alpha s = Ok o -> regular s -> gap_between s ((q ++ [PChar d]) ++ [PPunct 0x3D]) gap post ->
  calc_called (fst (lex s)) -> ~ in_calc ((q ++ [PChar d]) ++ [PPunct 0x3D]) -> allows_next 0x3D post ->
  no_blank o ((q ++ [PChar d]) ++ [PPunct 0x3D]) post.
Proof. exact gap_after_equal. Qed.

(** Before punctuation, for a gap of blanks. *)
Theorem C58_css_before_punctuation : forall alpha s o q a gap c post,
  css_minify alpha s = Ok o -> regular s -> gap_between s (q ++ [a]) gap (PPunct c :: post) ->
  calc_called (fst (lex s)) -> ~ in_calc (q ++ [a]) ->
  Forall (fun p => p = PBlank) gap -> ~ separator a -> (forall b, a <> PLic b) -> ~ at_word (q ++ [a]) ->
  (a = PPunct 0x5D -> c = 0x7B) ->
  In c (S_ "{};,>)]+/") \/ In c (S_ "|~$^") /\ no_equal_next post ->
  no_blank o (q ++ [a]) (PPunct c :: post).
Proof. exact gap_before_punct. Qed.

(** At the start of the sheet, for a gap of blanks. *)
Theorem C58_css_start : forall alpha s o gap post,
  css_minify alpha s = Ok o -> regular s -> gap_between s [] gap post ->
  Forall (fun p => p = PBlank) gap -> match post with [] => True | b :: _ => ~ separator b end ->
  forall g q, fst (lex o) = g :: q -> ~ separator g.
Proof. exact gap_start. Qed.

(** Any gap outside calc leaves at most one blank. *)
Theorem C58_css_one_blank : forall alpha s o q a gap b post,
  css_minify alpha s = Ok o -> regular s -> gap_between s (q ++ [a]) gap (b :: post) ->
  calc_called (fst (lex s)) -> ~ in_calc (q ++ [a]) -> ~ separator a -> ~ separator b -> b <> PPunct 0x3D ->
  ~ (at_word (q ++ [a]) /\ b = PPunct 0x2A) ->
  one_blank o (q ++ [a]) (b :: post).
Proof. exact gap_one_blank. Qed.

(** ** Cases *)

Lemma accepted_regular : forall s h, hrun HN (fst (lex s)) = Some h -> regular s.
Proof. intros s h H. exact (hrun_regular _ _ H). Qed.

Ltac regular_case := eapply accepted_regular; vm_compute; reflexivity.
Ltac gap_case := split; [vm_compute; reflexivity|]; split; [discriminate|];
  repeat (constructor; [first [left; reflexivity|right; eexists; reflexivity]|]); constructor.

Definition not_b := S_ "a:not(.b) .c{}".
Example C20_case_close_open :
  regular not_b /\ gap_between not_b (map PChar (S_ "a") ++ [PPunct 0x3A] ++ map PChar (S_ "not") ++ [PPunct 0x28] ++ map PChar (S_ ".b") ++ [PPunct 0x29])
    [PBlank] (map PChar (S_ ".c") ++ [PPunct 0x7B; PPunct 0x7D]) /\
  css_minify (fun _ => false) not_b = Ok (S_ "a:not(.b) .c{}").
Proof. split; [regular_case|]. split; [gap_case|vm_compute; reflexivity]. Qed.

Definition bracketed := S_ "[x] /**/ *{}".
Example C20_case_bracket :
  regular bracketed /\ gap_between bracketed [PPunct 0x5B; PChar 0x78; PPunct 0x5D]
    [PBlank; PCom []; PBlank] [PPunct 0x2A; PPunct 0x7B; PPunct 0x7D] /\
  css_minify (fun _ => false) bracketed = Ok (S_ "[x] *{}").
Proof. split; [regular_case|]. split; [gap_case|vm_compute; reflexivity]. Qed.

Definition stars := S_ ".a   * #b:hover *{}".
Ltac run_starts_case :=
  split; [intros q E; repeat (destruct q as [|? q]; try discriminate E; cbn in E; try (injection E as ? E))
         |intros q d E; repeat (destruct q as [|? q]; try discriminate E; cbn in E; try (injection E as ? E))].

Example C20_case_selector_star :
  regular stars /\ gap_between stars ([] ++ map PChar (S_ ".a")) [PBlank; PBlank; PBlank] (PPunct 0x2A :: skipn 6 (fst (lex stars))) /\
  in_selector ([] ++ map PChar (S_ ".a")) /\ simple_selector [] (S_ ".a") /\
  css_minify (fun _ => false) stars = Ok (S_ ".a * #b:hover *{}").
Proof.
  split; [regular_case|]. split; [gap_case|]. split; [repeat split|]. split.
  - split; [run_starts_case|]. split; [discriminate|]. right. split; [right; split; [left; reflexivity|discriminate]|].
    intros (q & g & E & _). destruct q; discriminate.
  - vm_compute. reflexivity.
Qed.

Example C20_case_star_selector :
  gap_between stars (firstn 5 (fst (lex stars)) ++ [PPunct 0x2A]) [PBlank] (map PChar (S_ "#b") ++ skipn 9 (fst (lex stars))) /\
  in_selector (firstn 5 (fst (lex stars))) /\ names_element (S_ "#b").
Proof. split; [gap_case|]. split; [repeat split|]. right. split; [right; reflexivity|discriminate]. Qed.

Definition star_equal := S_ "[a* /*x*/ =b]{}".
Example C20_case_star_equal :
  regular star_equal /\ gap_between star_equal ([PPunct 0x5B; PChar 0x61] ++ [PPunct 0x2A]) [PBlank; PCom (S_ "x"); PBlank] (PPunct 0x3D :: skipn 7 (fst (lex star_equal))) /\
  css_minify (fun _ => false) star_equal = Ok (S_ "[a* =b]{}").
Proof. split; [regular_case|]. split; [gap_case|vm_compute; reflexivity]. Qed.

Definition dollar_equal := S_ "[a$ /*x*/ =b]{}".
Example C20_case_dollar_equal :
  regular dollar_equal /\ gap_between dollar_equal ([PPunct 0x5B; PChar 0x61] ++ [PPunct 0x24]) [PBlank; PCom (S_ "x"); PBlank] (PPunct 0x3D :: skipn 7 (fst (lex dollar_equal))) /\
  commented [PBlank; PCom (S_ "x"); PBlank] /\ css_minify (fun _ => false) dollar_equal = Ok (S_ "[a$ =b]{}").
Proof.
  split; [regular_case|]. split; [gap_case|]. split; [|vm_compute; reflexivity]. right. left. eexists. reflexivity.
Qed.

Definition pseudo := S_ "a :hover{b:c}".
Example C20_case_pseudo :
  regular pseudo /\ gap_between pseudo ([] ++ [PChar 0x61]) [PBlank] (PPunct 0x3A :: PChar 0x68 :: skipn 4 (fst (lex pseudo))) /\
  in_selector ([] ++ [PChar 0x61]) /\ css_minify (fun _ => false) pseudo = Ok pseudo.
Proof. split; [regular_case|]. split; [gap_case|]. split; [repeat split|vm_compute; reflexivity]. Qed.

Definition value := S_ "a { b : c (d) }".
Example C20_case_declaration_paren :
  regular value /\ gap_between value (firstn 8 (fst (lex value)) ++ [PChar 0x63]) [PBlank] (PPunct 0x28 :: skipn 11 (fst (lex value))) /\
  in_declaration (firstn 8 (fst (lex value)) ++ [PChar 0x63]) /\
  css_minify (fun _ => false) value = Ok (S_ "a{b:c (d)}").
Proof.
  split; [regular_case|]. split; [gap_case|]. split; [right; vm_compute; split; [repeat constructor|reflexivity]|vm_compute; reflexivity].
Qed.

Definition media := S_ "@media (a) and  (b) {c{}}".
Lemma media_at_keyword : at_keyword (map PChar (S_ "@media")).
Proof.
  exists [], (S_ "media"). split; [reflexivity|]. split; [discriminate|]. split; [run_starts_case|]. split; [repeat split|].
  intros (q & g & E & _). destruct q; discriminate.
Qed.

Example C20_case_at_keyword :
  regular media /\ gap_between media (map PChar (S_ "@media")) [PBlank] (PPunct 0x28 :: skipn 8 (fst (lex media))) /\
  at_keyword (map PChar (S_ "@media")) /\
  css_minify (fun _ => false) media = Ok (S_ "@media (a) and (b){c{}}").
Proof.
  split; [regular_case|]. split; [gap_case|]. split; [exact media_at_keyword|]. vm_compute. reflexivity.
Qed.

Example C20_case_at_head_paren :
  gap_between media (firstn 13 (fst (lex media)) ++ [PChar 0x64]) [PBlank; PBlank] (PPunct 0x28 :: skipn 17 (fst (lex media))) /\
  in_at_head (firstn 13 (fst (lex media)) ++ [PChar 0x64]).
Proof.
  split; [gap_case|]. exists (map PChar (S_ "@media")), PBlank, (skipn 7 (firstn 14 (fst (lex media)))).
  split; [vm_compute; reflexivity|]. split; [exact media_at_keyword|]. split; [intros [E|[c E]]; discriminate|].
  vm_compute. repeat (constructor; [repeat split; discriminate|]). constructor.
Qed.

Definition calculated := S_ "a{b:calc( 1px + (2px * 3))}".
Definition calc_head := firstn 4 (fst (lex calculated)).
Lemma calculated_called : calc_called (fst (lex calculated)).
Proof.
  intros q r E Hq Hr. unfold calc_name in E. vm_compute in E.
  do 4 (destruct q as [|? q]; [discriminate E|cbn [app] in E; injection E as ? E]).
  destruct q as [|? q].
  - cbn [app] in E. injection E as E. subst r. exists []. eexists. split; [reflexivity|constructor].
  - exfalso. clear -E. cbn [app] in E. injection E as ? E.
    do 25 (destruct q as [|? q]; [discriminate E|cbn [app] in E; try discriminate E; injection E as ? E]).
Qed.

Example C20_case_calc :
  regular calculated /\
  gap_between calculated (firstn 14 (fst (lex calculated)) ++ [PPunct 0x2B]) [PBlank] (PPunct 0x28 :: skipn 17 (fst (lex calculated))) /\
  inside_calc (firstn 14 (fst (lex calculated)) ++ [PPunct 0x2B]) /\ calc_called (fst (lex calculated)) /\
  css_minify (fun _ => false) calculated = Ok (S_ "a{b:calc(1px + (2px * 3))}").
Proof.
  split; [regular_case|]. split; [gap_case|]. split; [|split; [exact calculated_called|vm_compute; reflexivity]].
  exists calc_head, [], (skipn 9 (firstn 15 (fst (lex calculated)))). split; [vm_compute; reflexivity|].
  split. { unfold calc_head. vm_compute. run_starts_case. }
  split; [right; vm_compute; split; [repeat constructor|reflexivity]|]. split; [constructor|].
  intros a b E. vm_compute in E. repeat (destruct a as [|? a]; [vm_compute; auto with arith|cbn [app] in E; try discriminate E; injection E as ? E; subst]).
Qed.

(** ** Cases of C58 *)

Fixpoint starts_calc (n ps : list piece) : bool :=
  match n, ps with
  | [], _ => true
  | PChar c :: n', PChar d :: ps' => (c =? d) && starts_calc n' ps'
  | _, _ => false
  end.
Fixpoint has_calc (ps : list piece) : bool :=
  starts_calc calc_name ps || match ps with [] => false | _ :: r => has_calc r end.

Lemma has_calc_app : forall q r, has_calc (q ++ calc_name ++ r) = true.
Proof. induction q as [|p q IH]; intro r; [reflexivity|]. cbn [app has_calc]. rewrite IH. apply orb_true_r. Qed.

Lemma no_calc_called : forall ps, has_calc ps = false -> calc_called ps.
Proof. intros ps H q r ->. rewrite has_calc_app in H. discriminate. Qed.

Lemma no_calc_outside : forall ps, has_calc ps = false -> ~ in_calc ps.
Proof. intros ps H (q & g & r & -> & _). rewrite has_calc_app in H. discriminate. Qed.

Lemma no_at_word : forall ps, existsb (fun p => match p with PChar c => c =? 0x40 | _ => false end) ps = false -> ~ at_word ps.
Proof. intros ps H (q & name & -> & _). rewrite existsb_app in H. cbn in H. rewrite orb_true_r in H. discriminate. Qed.

Ltac solid_case := let E := fresh in let d := fresh in intros [E|[d E]]; discriminate E.

Definition spaced := S_ "  a , b > c { d : e /**/ ; }  /*x*/ [k= /**/ v]  ~ l  m{}".
Definition spaced_pieces := fst (lex spaced).

Lemma spaced_minified : regular spaced /\ css_minify (fun _ => false) spaced = Ok (S_ "a,b>c{d:e ;}[k=v] ~l m{}") /\ calc_called spaced_pieces.
Proof. split; [regular_case|]. split; [vm_compute; reflexivity|]. apply no_calc_called. vm_compute. reflexivity. Qed.

(** After the closing brace: blanks and a comment. *)
Example C58_case_after :
  gap_between spaced (firstn 24 spaced_pieces ++ [PPunct 0x7D]) [PBlank; PBlank; PCom (S_ "x"); PBlank] (skipn 29 spaced_pieces) /\
  ~ in_calc (firstn 24 spaced_pieces ++ [PPunct 0x7D]) /\ allows_next 0x7D (skipn 29 spaced_pieces).
Proof.
  split; [gap_case|]. split; [apply no_calc_outside; vm_compute; reflexivity|]. vm_compute.
  split; [solid_case|]. split; [discriminate|]. discriminate.
Qed.

(** After the parenthesis of calc. *)
Example C58_case_blanks_after :
  regular calculated /\ gap_between calculated (firstn 8 (fst (lex calculated)) ++ [PPunct 0x28]) [PBlank] (skipn 10 (fst (lex calculated))) /\
  allows_next 0x28 (skipn 10 (fst (lex calculated))) /\
  css_minify (fun _ => false) calculated = Ok (S_ "a{b:calc(1px + (2px * 3))}").
Proof.
  split; [regular_case|]. split; [gap_case|]. split; [|vm_compute; reflexivity]. vm_compute.
  split; [solid_case|]. split; [discriminate|]. discriminate.
Qed.

Example C58_case_equal :
  gap_between spaced ((firstn 30 spaced_pieces ++ [PChar 0x6B]) ++ [PPunct 0x3D]) [PBlank; PCom []; PBlank] (skipn 35 spaced_pieces) /\
  ~ in_calc ((firstn 30 spaced_pieces ++ [PChar 0x6B]) ++ [PPunct 0x3D]) /\ allows_next 0x3D (skipn 35 spaced_pieces).
Proof.
  split; [gap_case|]. split; [apply no_calc_outside; vm_compute; reflexivity|]. vm_compute.
  split; [solid_case|]. split; [discriminate|]. discriminate.
Qed.

(** Before a comma and before a brace. *)
Example C58_case_before :
  gap_between spaced (firstn 2 spaced_pieces ++ [PChar 0x61]) [PBlank] (PPunct 0x2C :: skipn 5 spaced_pieces) /\
  gap_between spaced (firstn 10 spaced_pieces ++ [PChar 0x63]) [PBlank] (PPunct 0x7B :: skipn 13 spaced_pieces) /\
  ~ in_calc (firstn 10 spaced_pieces ++ [PChar 0x63]) /\ ~ at_word (firstn 10 spaced_pieces ++ [PChar 0x63]).
Proof.
  split; [gap_case|]. split; [gap_case|]. split; [apply no_calc_outside|apply no_at_word]; vm_compute; reflexivity.
Qed.

(** Before a combinator. *)
Definition sibling := S_ "a  ~ b{}".
Example C58_case_combinator :
  regular sibling /\ gap_between sibling ([] ++ [PChar 0x61]) [PBlank; PBlank] (PPunct 0x7E :: skipn 4 (fst (lex sibling))) /\
  no_equal_next (skipn 4 (fst (lex sibling))) /\ css_minify (fun _ => false) sibling = Ok (S_ "a~b{}").
Proof.
  split; [regular_case|]. split; [gap_case|]. split; [|vm_compute; reflexivity].
  intros g r E. vm_compute in E. repeat (destruct g as [|? g]; cbn [app] in E; try discriminate E; injection E as ? E; subst).
Qed.

Example C58_case_start : gap_between spaced [] [PBlank; PBlank] (skipn 2 spaced_pieces).
Proof. gap_case. Qed.

Definition keyword := S_ "@media  /*x*/ a{}".
Example C58_case_one_blank :
  regular keyword /\ gap_between keyword (map PChar (S_ "@medi") ++ [PChar 0x61]) [PBlank; PBlank; PCom (S_ "x"); PBlank] (PChar 0x61 :: [PPunct 0x7B; PPunct 0x7D]) /\
  calc_called (fst (lex keyword)) /\ ~ in_calc (map PChar (S_ "@medi") ++ [PChar 0x61]) /\
  css_minify (fun _ => false) keyword = Ok (S_ "@media a{}").
Proof.
  split; [regular_case|]. split; [gap_case|]. split; [apply no_calc_called; vm_compute; reflexivity|].
  split; [apply no_calc_outside; vm_compute; reflexivity|vm_compute; reflexivity].
Qed.

(** Without the conditions needless blanks remain: a comment before punctuation or at the start,
    two blanks between an at-keyword and a star, two blanks after a licence inside calc. *)
Theorem C58_refuted :
  css_minify (fun _ => false) (S_ "a /**/{}") = Ok (S_ "a {}") /\
  css_minify (fun _ => false) (S_ "/**/a{}") = Ok (S_ " a{}") /\
  css_minify (fun _ => false) (S_ "@a *{}") = Ok (S_ "@a  *{}") /\
  css_minify (fun _ => false) (S_ "a{b:calc(1 /*!x*/ + 2)}") = Ok (S_ "a{b:calc(1 /*!x*/" ++ [0x0A; 0x20] ++ S_ "+ 2)}").
Proof. split; [|split; [|split]]; vm_compute; reflexivity. Qed.

Print Assumptions C20_css_gap_close_open.
Print Assumptions C20_css_gap_bracket.
Print Assumptions C20_css_gap_selector_star.
Print Assumptions C20_css_gap_star_selector.
Print Assumptions C20_css_gap_sign_equal.
Print Assumptions C20_css_gap_equal_refuted.
Print Assumptions C20_css_gap_pseudo.
Print Assumptions C20_css_gap_declaration_paren.
Print Assumptions C20_css_gap_at_keyword.
Print Assumptions C20_css_gap_at_head_paren.
Print Assumptions C20_css_gap_calc.
Print Assumptions C58_css_after_punctuation.
Print Assumptions C58_css_blanks_after_punctuation.
Print Assumptions C58_css_after_equal.
Print Assumptions C58_css_before_punctuation.
Print Assumptions C58_css_start.
Print Assumptions C58_css_one_blank.
Print Assumptions C58_refuted.
