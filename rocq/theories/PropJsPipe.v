(** * JavaScript: the text that the documented aggregation prints

    C64.  [documented], [clean_first], [declared], [inlined], [clear_of_words] are in JsPipeSpec,
    [apart] in JsRoundSpec, [lexes] in JsLexSpec. *)
From Coq Require Import String List NArith ZArith Bool Lia Arith Permutation.
From Verif Require Import Base JsModel JsUtilModel JsUtilSpec JsUtilProofs JsLexSpec JsLexProofs3 JsRoundSpec JsAggModel JsAggSpec
  JsPipeSpec JsPipeProofs PropJsAgg PropJsRound.
Import ListNotations.
Open Scope N_scope.

(** ** C64

    The printed text is read as declarations of new names, and a program which is the minified
    source once the names are replaced by the literals they are declared with. *)
Theorem C64_read_back : forall order, any_order order -> forall s ts0 u, lexes s ts0 ->
  js_minify_tokens s = Ok u -> no_r_names u -> apart [] u = true -> clear_of_words u u = true ->
  exists d ds semis body, documented order s = Ok d
    /\ js_minify_tokens d = Ok (declared ds ++ semis ++ body)
    /\ Forall is_semicolon semis /\ (ds = [] -> semis = [])
    /\ NoDup (map fst ds) /\ (forall x l, In (x, l) ds -> (2 <= occurrences u l)%nat)
    /\ inlined ds body = u.
Proof. intros order P s ts0 u L M N A C. exact (pipelines order P s ts0 u L M N A C _ (or_introl eq_refl)). Qed.

(** The same when the tokens are cleaned first. *)
Theorem C64_clean_first : forall order, any_order order -> forall s ts0 u, lexes s ts0 ->
  js_minify_tokens s = Ok u -> no_r_names u -> apart [] u = true -> clear_of_words u u = true ->
  exists d ds semis body, clean_first order s = Ok d
    /\ js_minify_tokens d = Ok (declared ds ++ semis ++ body)
    /\ Forall is_semicolon semis /\ (ds = [] -> semis = [])
    /\ NoDup (map fst ds) /\ (forall x l, In (x, l) ds -> (2 <= occurrences u l)%nat)
    /\ inlined ds body = u.
Proof. intros order P s ts0 u L M N A C. exact (pipelines order P s ts0 u L M N A C _ (or_intror eq_refl)). Qed.

(** A program with a repeated literal (the text is read by the rules of [lexes]). *)
Definition cakes : str := S_ "; x = 'carrot cake' in y ; f ( 'carrot cake' , 1 ) ;".

Lemma cakes_read : exists ts, lexes cakes ts.
Proof.
  eexists. unfold lexes. eexists. eexists. split; [|reflexivity].
  let t := eval vm_compute in cakes in change cakes with t.
  repeat first
  [ lex_char
  | match goal with |- reads _ _ (0x27 :: ?c :: ?r) _ _ _ =>
      eapply reads_more; [eapply (rd_string _ _ 0x27 (S_ "carrot cake")); [auto|repeat (apply sb_char; [discriminate|discriminate|]); apply sb_nil]|] end ].
Qed.

Example C64_case : exists ts0 u d body, lexes cakes ts0 /\ js_minify_tokens cakes = Ok u
  /\ no_r_names u /\ apart [] u = true /\ clear_of_words u u = true
  /\ documented last_first cakes = Ok d
  /\ d = S_ "var r_aa='carrot cake';;x=r_aa in y;f(r_aa,1);"
  /\ js_minify_tokens d = Ok (declared [(S_ "r_aa", S_ "'carrot cake'")] ++ [TChar SemiColon] ++ body)
  /\ inlined [(S_ "r_aa", S_ "'carrot cake'")] body = u.
Proof.
  destruct cakes_read as (ts0 & L). exists ts0. eexists. eexists. eexists. split; [exact L|]. split; [vm_compute; reflexivity|].
  split; [intros y I; cbn in I; intuition discriminate|]. split; [vm_compute; reflexivity|]. split; [vm_compute; reflexivity|].
  split; [vm_compute; reflexivity|]. split; [reflexivity|]. split; vm_compute; reflexivity.
Qed.

(** Next to a word the new name runs together with it: after return, case and of, as a tagged
    template, before a line that begins with a word, and two literals on two lines.  The printed
    program does not contain the keyword any more. *)
Definition beside_words : list (str * str) :=
  [(q_ "function f(){return #carrot cake#}f(#carrot cake#)",
    q_ "var r_aa=#carrot cake#;function f(){returnr_aa}f(r_aa)");
   (q_ "case #carrot cake#:f(#carrot cake#)", q_ "var r_aa=#carrot cake#;caser_aa:f(r_aa)");
   (q_ "for(x of #carrot cake#)f(#carrot cake#)", q_ "var r_aa=#carrot cake#;for(x ofr_aa)f(r_aa)");
   (q_ "f`carrot cake`;g=`carrot cake`", q_ "var r_aa=`carrot cake`;fr_aa;g=r_aa");
   (q_ "x=#carrot cake#" ++ [0xA] ++ q_ "y=#carrot cake#", q_ "var r_aa=#carrot cake#;x=r_aay=r_aa");
   (q_ "x=#carrot cake#" ++ [0xA] ++ q_ "#carrot cake#", q_ "var r_aa=#carrot cake#;x=r_aar_aa")].

Lemma not_inlined : forall u v r, skipn (length v - length u) v = TChar SemiColon :: r -> hd_error u <> Some (TChar SemiColon) ->
  forall ds semis body, Ok v = Ok (declared ds ++ semis ++ body) -> inlined ds body <> u.
Proof.
  intros u v r K H ds semis body E I. injection E as ->. rewrite app_assoc in K.
  assert (L : length body = length u) by (rewrite <- I; unfold inlined; symmetry; apply map_length).
  rewrite app_length, L, Nat.add_sub, skipn_app, skipn_all, Nat.sub_diag in K. cbn [app skipn] in K. subst body. apply H. rewrite <- I. reflexivity.
Qed.

Theorem C64_beside_words_refuted : forall s d, In (s, d) beside_words ->
  documented last_first s = Ok d
  /\ exists u, js_minify_tokens s = Ok u /\ clear_of_words u u = false
       /\ forall ds semis body, js_minify_tokens d = Ok (declared ds ++ semis ++ body) -> inlined ds body <> u.
Proof.
  intros s d I. unfold beside_words in I. cbn [In] in I.
  repeat (destruct I as [I|I];
    [injection I as <- <-; split; [vm_compute; reflexivity|]; eexists; split; [vm_compute; reflexivity|]; split; [vm_compute; reflexivity|];
     match goal with |- forall ds semis body, js_minify_tokens ?d = _ -> _ => let r := eval vm_compute in (js_minify_tokens d) in change (js_minify_tokens d) with r end;
     eapply not_inlined; [reflexivity|discriminate]|]).
  destruct I.
Qed.

(** A program that has a name with r_ : C36_clash_refuted.  Directives and property names are
    replaced as well (C35_meaning_refuted): *)
Theorem C64_directive_refuted :
  documented last_first (q_ "function f(){#use strict#;}function g(){#use strict#;}")
  = Ok (q_ "var r_aa=#use strict#;function f(){r_aa;}function g(){r_aa;}").
Proof. vm_compute. reflexivity. Qed.

Print Assumptions C64_read_back.
Print Assumptions C64_clean_first.
Print Assumptions C64_beside_words_refuted.
Print Assumptions C64_directive_refuted.
