(** C61: minification adds no blank to a style sheet, except after the keyword of an at-rule and
    after a licence.  [alpha] is [char::is_alphabetic] outside ASCII; every theorem holds for all
    of its values. *)
From Coq Require Import String Arith List NArith ZArith Bool Lia.
From Verif Require Import Base CssModel CssSpec CssGapSpec CssProofs4 CssProofs7 CssProofs8 CssProofs9 CssProofs10 CssProofs11.
Import ListNotations.
Open Scope N_scope.

(** The pieces of the output are those of the source, but for dropped or replaced blanks and
    comments and the two places where a blank is added. *)
Theorem C61_css_tame : forall alpha s o, css_minify alpha s = Ok o -> regular s ->
  tame (fst (lex s)) (fst (lex s)) (fst (lex o)).
Proof. exact css_tame. Qed.

(** Neighbours in the source are neighbours in the output. *)
Theorem C61_css_adjacent : forall alpha s o q a b post,
  css_minify alpha s = Ok o -> regular s -> fst (lex s) = q ++ a :: b :: post ->
  ~ separator a -> ~ separator b -> (forall l, a <> PLic l) -> ~ rule_word (q ++ [a]) \/ word_piece b ->
  exists p1 p2, fst (lex o) = p1 ++ a :: b :: p2 /\ solid p1 = solid q /\ solid p2 = solid post.
Proof.
  intros alpha s o q a b post H Hr E Ha Hb Hl Hw.
  apply (tame_adjacent _ _ _ (css_tame alpha s o H Hr) q a b post E); auto.
  exists []. symmetry. apply app_nil_r.
Qed.

Lemma accepted_sheet : forall s h, hrun HN (fst (lex s)) = Some h -> regular s.
Proof. intros s h H. exact (hrun_regular _ _ H). Qed.
Ltac regular_case := eapply accepted_sheet; vm_compute; reflexivity.

(** ** Cases *)

(** A sheet with no blank to add: the word and the parenthesis stay neighbours. *)
Definition close_by := S_ "a:not(.b)>c , d{ e : url(f) }".
Example C61_case_adjacent :
  regular close_by /\
  css_minify (fun _ => false) close_by = Ok (S_ "a:not(.b)>c,d{e:url(f)}") /\
  fst (lex close_by) = [PChar 0x61; PPunct 0x3A; PChar 0x6E; PChar 0x6F] ++ PChar 0x74 :: PPunct 0x28 :: skipn 6 (fst (lex close_by)) /\
  ~ separator (PChar 0x74) /\ ~ separator (PPunct 0x28) /\
  ~ rule_word ([PChar 0x61; PPunct 0x3A; PChar 0x6E; PChar 0x6F] ++ [PChar 0x74]).
Proof.
  split; [regular_case|]. split; [vm_compute; reflexivity|]. split; [vm_compute; reflexivity|].
  split; [intros [E|[b E]]; discriminate|]. split; [intros [E|[b E]]; discriminate|].
  intros (q & name & E & _). cbn [app] in E.
  repeat (destruct q as [|? q]; cbn [app] in E; [discriminate E|injection E as ? E; subst]). destruct q; discriminate E.
Qed.

(** Two characters of an at-keyword stay neighbours. *)
Definition rule_head := S_ "@media(a){b{}}".
Example C61_case_word :
  regular rule_head /\ css_minify (fun _ => false) rule_head = Ok (S_ "@media (a){b{}}") /\
  fst (lex rule_head) = map PChar (S_ "@med") ++ PChar 0x69 :: PChar 0x61 :: skipn 6 (fst (lex rule_head)) /\
  word_piece (PChar 0x61).
Proof.
  split; [regular_case|]. split; [vm_compute; reflexivity|]. split; [vm_compute; reflexivity|]. right. eauto.
Qed.

(** The exceptions are real: a blank is added after the keyword of an at-rule and a line end
    after a licence; and outside the regular sheets, within an at-keyword. *)
Theorem C61_refuted :
  css_minify (fun _ => false) (S_ "@media(a){}") = Ok (S_ "@media (a){}") /\
  css_minify (fun _ => false) (S_ "/*!x*/a{}") = Ok (S_ "/*!x*/" ++ [0x0A] ++ S_ "a{}") /\
  css_minify (fun _ => false) (S_ "@a\b{}") = Ok (S_ "@a \b{}").
Proof. split; [|split]; vm_compute; reflexivity. Qed.

Print Assumptions C61_css_tame.
Print Assumptions C61_css_adjacent.
Print Assumptions C61_refuted.
