(** * JavaScript: the layout of the source

    C59 and C60.  [layout], [gap], [lexes_after], [kept] and [line_ends] are in JsLayoutSpec,
    [lexes] in JsLexSpec. *)
From Coq Require Import String List NArith ZArith Bool Lia ZifyBool ZifyN.
From Verif Require Import Base JsModel JsUtilModel JsUtilSpec JsLexSpec JsLexProofs4 JsLayoutSpec JsLayoutProofs.
Import ListNotations.
Open Scope N_scope.

(** ** C59: the result does not depend on the layout

    Two sources with the same tokens, white space and comments left out, have the same result; *)
Theorem C59_tokens : forall s1 s2 ts1 ts2, lexes s1 ts1 -> lexes s2 ts2 -> kept ts1 = kept ts2 ->
  js_minify s1 = js_minify s2.
Proof. intros s1 s2 ts1 ts2 L1 L2 E. rewrite (minify_kept _ _ L1), (minify_kept _ _ L2), E. reflexivity. Qed.

(** and white space and comments between two parts of a source may be replaced by any other. *)
Theorem C59_gap : forall p ts g1 g2 q us, lexes p ts -> last_line_slashless p -> lexes_after ts q us ->
  gap g1 -> gap g2 -> js_minify (p ++ g1 ++ q) = js_minify (p ++ g2 ++ q).
Proof.
  intros p ts g1 g2 q us L N A G1 G2.
  rewrite (gap_minify p ts g1 q us L N G1 A), (gap_minify p ts g2 q us L N G2 A). reflexivity.
Qed.

(** In particular when every literal of both parts is closed and there is no slash outside. *)
Theorem C59_closed : forall p g1 g2 q, closed_literals p -> last_line_slashless p -> closed_literals q ->
  gap g1 -> gap g2 -> js_minify (p ++ g1 ++ q) = js_minify (p ++ g2 ++ q).
Proof.
  intros p g1 g2 q Cp N Cq G1 G2. destruct (closed_lexes p Cp) as (ts & L & _).
  destruct (closed_after ts q Cq) as (us & A). exact (C59_gap p ts g1 g2 q us L N A G1 G2).
Qed.

Definition some_gap : str := S_ " // a line" ++ [0xA; 0x9] ++ S_ "/* a * block / */" ++ [0xD].

Lemma C59_case_gap : gap some_gap /\ gap [0x20] /\ gap [0xA].
Proof.
  split; [|split; (split; [apply ly_blank; [reflexivity|apply ly_end]|split; discriminate])].
  split; [|split; discriminate]. 
  apply ly_blank; [reflexivity|].
  apply (ly_line (S_ " a line") 0xA ([0x9] ++ S_ "/* a * block / */" ++ [0xD])); [repeat constructor|reflexivity|].
  apply ly_blank; [reflexivity|]. apply (ly_block (S_ " a * block / ") [0xD]); [reflexivity|discriminate|].
  apply ly_blank; [reflexivity|]. apply ly_end.
Qed.

Ltac closed_text :=
  repeat first
  [ apply cs_nil | apply cs_char; [reflexivity|]
  | match goal with |- closed_literals (0x27 :: 0x2F :: 0x27 :: ?s) =>
      apply (cs_string 0x27 [0x2F] s); [auto|repeat constructor; discriminate|] end ].

Example C59_case : js_minify (S_ "a = '/' ;" ++ [0xA] ++ S_ "b = 1." ++ some_gap ++ S_ "in c") = Ok (S_ "a='/';b=1. in c")
  /\ js_minify (S_ "a = '/' ;" ++ [0xA] ++ S_ "b = 1." ++ some_gap ++ S_ "in c")
     = js_minify (S_ "a = '/' ;" ++ [0xA] ++ S_ "b = 1." ++ [0xA] ++ S_ "in c").
Proof.
  split; [vm_compute; reflexivity|].
  change (js_minify ((S_ "a = '/' ;" ++ [0xA] ++ S_ "b = 1.") ++ some_gap ++ S_ "in c")
     = js_minify ((S_ "a = '/' ;" ++ [0xA] ++ S_ "b = 1.") ++ [0xA] ++ S_ "in c")).
  apply C59_closed.
  - cbn. closed_text.
  - intros p l E.
    assert (X : p = S_ "a = '" /\ l = S_ "' ;" ++ [0xA] ++ S_ "b = 1.").
    { cbn in E. do 5 (destruct p as [|? p]; [discriminate E|]; injection E as <- E).
      destruct p as [|? p]; [injection E as <-; split; reflexivity|]. exfalso. injection E as <- E.
      pose proof (in_elt 0x2F p l) as I. rewrite <- E in I. cbn in I. repeat (destruct I as [I|I]; [discriminate|]). exact I. }
    destruct X as [_ ->]. exists 0xA. split; [cbn; auto 10|reflexivity].
  - cbn. closed_text.
  - apply C59_case_gap.
  - apply C59_case_gap.
Qed.

(** A line break between two tokens is white space like any other: where the standard inserts a
    semicolon, or does not allow a line break, the program that comes out is another one. *)
Theorem C59_line_breaks_refuted :
  js_minify (S_ "return" ++ [0xA] ++ S_ "x") = Ok (S_ "return x")
  /\ js_minify (S_ "a" ++ [0xA] ++ S_ "b") = Ok (S_ "a b")
  /\ js_minify (S_ "a=b" ++ [0xA] ++ S_ "++c") = Ok (S_ "a=b++c")
  /\ js_minify (S_ "a=b//x" ++ [0xA] ++ S_ "c=d") = Ok (S_ "a=b c=d").
Proof. vm_compute. repeat split. Qed.

(** A carriage return behind a dot that ends a number is read differently. *)
Theorem C59_carriage_return_refuted :
  js_minify_tokens (S_ "1." ++ [0xD] ++ S_ "+2") = Ok [TNumber 1; TChar Dot; TOperation Addition; TNumber 2]
  /\ js_minify_tokens (S_ "1." ++ [0x20] ++ S_ "+2") = Ok [TFloatingNumber (S_ "1."); TOperation Addition; TNumber 2].
Proof. vm_compute. split; reflexivity. Qed.

(** ** C60: line ends of the result

    The line ends of the result are those inside strings, licences and regular expressions. *)
Theorem C60_line_ends : forall s ts d, lexes s ts -> js_minify s = Ok d -> line_ends d = flat_map inner_ends ts.
Proof. exact minify_ends. Qed.

(** A source without line end inside any of these gives a single line. *)
Theorem C60_one_line : forall s ts d, lexes s ts -> js_minify s = Ok d ->
  (forall b, In (TString b) ts -> line_ends b = []) ->
  (forall b, In (TLicense b) ts -> line_ends b = []) ->
  (forall b g i, In (TRegex b g i) ts -> line_ends b = []) -> line_ends d = [].
Proof.
  intros s ts d L M H1 H2 H3. rewrite (minify_ends s ts d L M).
  assert (Z : forall t, In t ts -> inner_ends t = []) by (intros [] I; cbn; eauto). clear -Z.
  induction ts as [|t ts IH]; [reflexivity|]. cbn [flat_map]. rewrite (Z t (or_introl eq_refl)). apply IH. intros u I. apply Z. now right.
Qed.

(** Nothing of the layout around is left: no line end, tab or comment unless in a literal. *)
Example C60_case : js_minify (S_ "a" ++ [0xA; 0xD; 0xA] ++ S_ "= `x" ++ [0xA] ++ S_ "y`" ++ [0xA]) = Ok (S_ "a=`x" ++ [0xA] ++ S_ "y`")
  /\ exists ts, lexes (S_ "a" ++ [0xA; 0xD; 0xA] ++ S_ "= `x" ++ [0xA] ++ S_ "y`" ++ [0xA]) ts
     /\ flat_map inner_ends ts = [0xA].
Proof.
  split; [vm_compute; reflexivity|]. eexists. split.
  - eexists. eexists. split; [|reflexivity]. match goal with |- reads _ _ ?x _ _ _ => let t := eval vm_compute in x in change x with t end.
    eapply reads_more; [apply rd_word; reflexivity|].
    do 3 (eapply reads_more; [eapply rd_punct; reflexivity|]).
    eapply reads_more; [apply (rd_operator _ _ [0x3D] (TOperation Equal)); [cbn; auto|reflexivity]|].
    eapply reads_more; [eapply rd_punct; reflexivity|].
    eapply reads_more; [apply (rd_template _ _ [0x78; 0xA; 0x79])|].
    { repeat (apply tb_char; [discriminate|discriminate|discriminate|]). apply tb_nil. }
    eapply reads_more; [eapply rd_punct; reflexivity|]. apply reads_none.
  - reflexivity.
Qed.

(** An escaped line end inside a regular expression is accepted and kept. *)
Theorem C60_regex_refuted : js_minify (S_ "/a\" ++ [0xA] ++ S_ "b/") = Ok (S_ "/a\" ++ [0xA] ++ S_ "b/").
Proof. vm_compute. reflexivity. Qed.

Print Assumptions C59_tokens.
Print Assumptions C59_gap.
Print Assumptions C59_closed.
Print Assumptions C59_line_breaks_refuted.
Print Assumptions C59_carriage_return_refuted.
Print Assumptions C60_line_ends.
Print Assumptions C60_one_line.
Print Assumptions C60_regex_refuted.
