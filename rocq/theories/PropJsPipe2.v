(** * JavaScript: the text that the documented aggregation into an array prints

    C65.  [documented_array], [clean_first_array], [array_name], [declared_array], [looked_up],
    [same_content], [clear_for_array], [requotable], [contents] are in JsPipeSpec, [apart] in
    JsRoundSpec, [lexes] in JsLexSpec. *)
From Coq Require Import String List NArith ZArith Bool Lia Arith Permutation.
From Verif Require Import Base JsModel JsUtilModel JsUtilSpec JsUtilProofs JsLexSpec JsLexProofs3 JsRoundSpec JsAggModel JsAggSpec
  JsArrSpec JsPipeSpec JsPipeProofs2 PropJsAgg PropJsRound PropJsPipe.
Import ListNotations.
Open Scope N_scope.

(** ** C65

    The printed text is read as the declaration of the array and a program which is the minified
    source, up to quotation marks, once the references are looked up. *)
Theorem C65_read_back : forall order, any_order order -> forall name s ts0 u, array_name name -> lexes s ts0 ->
  js_minify_tokens s = Ok u -> ~ In (TOther name) u -> apart [] u = true -> clear_for_array u u = true ->
  requotable u -> N.of_nat (length u) <= 2 ^ 64 ->
  exists d elems semis body, documented_array order name s = Ok d
    /\ js_minify_tokens d = Ok (declared_array name elems ++ semis ++ body)
    /\ Forall is_semicolon semis /\ (elems = [] -> semis = [])
    /\ NoDup elems /\ (forall l, In l elems -> (2 <= length (filter (str_eqb l) (contents u)))%nat)
    /\ Forall2 same_content u (looked_up name elems body).
Proof.
  intros order P name s ts0 u Nm L M N A C Q Z.
  exact (array_pipelines order P name s ts0 u Nm L M N A C Q Z _ (or_introl eq_refl)).
Qed.

(** The same when the tokens are cleaned first. *)
Theorem C65_clean_first : forall order, any_order order -> forall name s ts0 u, array_name name -> lexes s ts0 ->
  js_minify_tokens s = Ok u -> ~ In (TOther name) u -> apart [] u = true -> clear_for_array u u = true ->
  requotable u -> N.of_nat (length u) <= 2 ^ 64 ->
  exists d elems semis body, clean_first_array order name s = Ok d
    /\ js_minify_tokens d = Ok (declared_array name elems ++ semis ++ body)
    /\ Forall is_semicolon semis /\ (elems = [] -> semis = [])
    /\ NoDup elems /\ (forall l, In l elems -> (2 <= length (filter (str_eqb l) (contents u)))%nat)
    /\ Forall2 same_content u (looked_up name elems body).
Proof.
  intros order P name s ts0 u Nm L M N A C Q Z.
  exact (array_pipelines order P name s ts0 u Nm L M N A C Q Z _ (or_intror eq_refl)).
Qed.

(** A program with two repeated literals, one of them between different quotation marks. *)
Definition pies : str := S_ "; x = 'carrot cake' ; f ( " ++ q_ "#carrot cake#" ++ S_ " , 'apple pie' ) ; g ( 'apple pie' ) ;".

Lemma pies_read : exists ts, lexes pies ts.
Proof.
  eexists. unfold lexes. eexists. eexists. split; [|reflexivity].
  let t := eval vm_compute in pies in change pies with t.
  repeat first
  [ lex_char
  | match goal with
    | |- reads _ _ (0x27 :: 0x63 :: ?r) _ _ _ =>
      eapply reads_more; [eapply (rd_string _ _ 0x27 (S_ "carrot cake")); [auto|repeat (apply sb_char; [discriminate|discriminate|]); apply sb_nil]|]
    | |- reads _ _ (0x22 :: 0x63 :: ?r) _ _ _ =>
      eapply reads_more; [eapply (rd_string _ _ 0x22 (S_ "carrot cake")); [auto|repeat (apply sb_char; [discriminate|discriminate|]); apply sb_nil]|]
    | |- reads _ _ (0x27 :: 0x61 :: ?r) _ _ _ =>
      eapply reads_more; [eapply (rd_string _ _ 0x27 (S_ "apple pie")); [auto|repeat (apply sb_char; [discriminate|discriminate|]); apply sb_nil]|]
    end ].
Qed.

Lemma r_name : array_name (S_ "R").
Proof.
  split; [constructor; [left; reflexivity|constructor]|]. split; [intros c r E; injection E as <- <-; reflexivity|]. vm_compute. reflexivity.
Qed.

Example C65_case : exists ts0 u d body, array_name (S_ "R") /\ lexes pies ts0 /\ js_minify_tokens pies = Ok u
  /\ ~ In (TOther (S_ "R")) u /\ apart [] u = true /\ clear_for_array u u = true
  /\ requotable u /\ N.of_nat (length u) <= 2 ^ 64
  /\ documented_array last_first (S_ "R") pies = Ok d
  /\ d = q_ "var R=[#carrot cake#,#apple pie#];;x=R[0];f(R[0],R[1]);g(R[1]);"
  /\ js_minify_tokens d = Ok (declared_array (S_ "R") [S_ "carrot cake"; S_ "apple pie"] ++ [TChar SemiColon] ++ body)
  /\ looked_up (S_ "R") [S_ "carrot cake"; S_ "apple pie"] body <> u
  /\ Forall2 same_content u (looked_up (S_ "R") [S_ "carrot cake"; S_ "apple pie"] body).
Proof.
  destruct pies_read as (ts0 & L). exists ts0. eexists. eexists. eexists. split; [exact r_name|]. split; [exact L|]. split; [vm_compute; reflexivity|].
  split; [intro I; cbn in I; intuition discriminate|]. split; [vm_compute; reflexivity|]. split; [vm_compute; reflexivity|].
  split.
  { intros x I _. cbn in I.
    repeat (destruct I as [I|I]; [first [discriminate I|injection I as <-; split; [discriminate|repeat (apply sb_char; [discriminate|discriminate|]); apply sb_nil]]|]). destruct I. }
  split; [vm_compute; discriminate|].
  split; [vm_compute; reflexivity|]. split; [reflexivity|]. split; [vm_compute; reflexivity|]. split; [vm_compute; discriminate|].
  repeat (apply Forall2_cons; [first [left; reflexivity|right; eexists; split; [reflexivity|split; [discriminate|reflexivity]]]|]). constructor.
Qed.

(** ** Beyond it

    What the property says implies that the printed text has every token of the minified source,
    up to quotation marks. *)
Lemma looked_in : forall name elems b t, In t (looked_up name elems b) -> In t b \/ exists s, In s elems /\ t = double_quoted s.
Proof.
  intros name elems b. remember (length b) as n eqn:E. assert (Le : (length b <= n)%nat) by lia. clear E. revert b Le.
  induction n as [|n IH]; intros b Le t I; [destruct b; [destruct I|cbn in Le; lia]|]. destruct b as [|a b]; [destruct I|]. cbn in Le.
  assert (K : In t (a :: looked_up name elems b) -> In t (a :: b) \/ exists s, In s elems /\ t = double_quoted s).
  { intros [J|J]; [left; now left|]. destruct (IH b ltac:(lia) t J) as [H|H]; [left; now right|now right]. }
  cbn [looked_up] in I. destruct a as [k|c|x|x|x|x|b0 g i|o|o|x|x|m|x]; try (exact (K I)).
  destruct b as [|[] b]; try (exact (K I)). destruct c; try (exact (K I)). destruct b as [|[] b]; try (exact (K I)). destruct b as [|[] b]; try (exact (K I)). destruct c; try (exact (K I)).
  destruct (if str_eqb x name then nth_error elems (N.to_nat n0) else None) as [s|] eqn:V; [|exact (K I)]. destruct I as [I|I].
  - right. exists s. split; [|now symmetry]. destruct (str_eqb x name); [|discriminate V]. now apply nth_error_In in V.
  - destruct (IH b) with (t := t) as [H|H]; [cbn in Le; lia|exact I|left; do 4 right; exact H|now right].
Qed.

Lemma commas_in : forall l t, In t l -> In t (commas l).
Proof.
  induction l as [|a l IH]; intros t I; [destruct I|]. rewrite commas_cons. destruct I as [<-|I]; [now left|]. right.
  destruct l; [destruct I|]. right. apply IH. exact I.
Qed.

Lemma read_back_tokens : forall name elems semis body v u, v = declared_array name elems ++ semis ++ body ->
  Forall2 same_content u (looked_up name elems body) -> forall t, In t u -> exists t', same_content t t' /\ In t' v.
Proof.
  intros name elems semis body v u -> F t I.
  assert (J : exists t', same_content t t' /\ In t' (looked_up name elems body)).
  { clear - F I. induction F as [|a b l l' S F IH]; [destruct I|]. destruct I as [<-|I]; [exists b; split; [exact S|now left]|]. destruct (IH I) as (t' & A & B). exists t'. split; [exact A|now right]. }
  destruct J as (t' & S & J). exists t'. split; [exact S|]. apply looked_in in J. destruct J as [J|(s & J & ->)].
  - apply in_or_app. right. apply in_or_app. now right.
  - apply in_or_app. left. unfold declared_array. destruct elems as [|e r]; [destruct J|]. apply in_or_app. right. apply in_or_app. left. apply commas_in. apply in_map_iff. eauto.
Qed.

(** Next to a word the reference runs together with it, a literal that contains a double
    quotation mark ends early, and a template is no template any more. *)
Definition array_failures : list (str * str) :=
  [(q_ "function f(){return #carrot cake#}f(#carrot cake#)",
    q_ "var R=[#carrot cake#];function f(){returnR[0]}f(R[0])");
   (q_ "case #carrot cake#:f(#carrot cake#)", q_ "var R=[#carrot cake#];caseR[0]:f(R[0])");
   (q_ "for(x of #carrot cake#)f(#carrot cake#)", q_ "var R=[#carrot cake#];for(x ofR[0])f(R[0])");
   (q_ "x='a #carrot# cake';y='a #carrot# cake'", q_ "var R=[#a #carrot# cake#];x=R[0];y=R[0]");
   (q_ "x=`carrot ${x} cake`;y=`carrot ${x} cake`", q_ "var R=[#carrot ${x} cake#];x=R[0];y=R[0]")].

Ltac lost t :=
  exists t; split; [vm_compute; tauto|];
  let t' := fresh in let H := fresh in let I := fresh in
  intros t' H I; cbn in I; repeat (destruct I as [I|I]; [subst t'; destruct H as [H|(x & H1 & H2 & H3)]; [discriminate H|first [discriminate H1|injection H1 as <-; first [discriminate H3|apply H2; reflexivity]]]|]); exact I.

Theorem C65_failures_refuted : forall s d, In (s, d) array_failures ->
  documented_array last_first (S_ "R") s = Ok d
  /\ exists u, js_minify_tokens s = Ok u /\ ~ In (TOther (S_ "R")) u
       /\ forall elems semis body, js_minify_tokens d = Ok (declared_array (S_ "R") elems ++ semis ++ body) ->
            ~ Forall2 same_content u (looked_up (S_ "R") elems body).
Proof.
  assert (G : forall s d, In (s, d) array_failures ->
    documented_array last_first (S_ "R") s = Ok d
    /\ exists u v, js_minify_tokens s = Ok u /\ ~ In (TOther (S_ "R")) u /\ js_minify_tokens d = Ok v
         /\ exists t, In t u /\ forall t', same_content t t' -> ~ In t' v).
  { intros s d I. unfold array_failures in I. cbn [In] in I.
    repeat (destruct I as [I|I];
      [injection I as <- <-; split; [vm_compute; reflexivity|]; eexists; eexists; split; [vm_compute; reflexivity|];
       split; [intro I; cbn in I; intuition discriminate|]; split; [vm_compute; reflexivity|]|]).
    6: destruct I.
    - lost (TKeyword KReturn).
    - lost (TKeyword KCase).
    - lost (TOther (S_ "of")).
    - exists (TString (q_ "'a #carrot# cake'")). split; [vm_compute; tauto|].
      intros t' H I. cbn in I. repeat (destruct I as [I|I]; [subst t'; destruct H as [H|(x & H1 & H2 & H3)]; [discriminate H|injection H1 as <-; discriminate H3]|]). exact I.
    - exists (TString (S_ "`carrot ${x} cake`")). split; [vm_compute; tauto|].
      intros t' H I. cbn in I. repeat (destruct I as [I|I]; [subst t'; destruct H as [H|(x & H1 & H2 & H3)]; [discriminate H|injection H1 as <-; apply H2; reflexivity]|]). exact I. }
  intros s d I. destruct (G s d I) as (E & u & v & U & N & V & t & It & Lt). split; [exact E|]. exists u. split; [exact U|]. split; [exact N|].
  intros elems semis body B F. rewrite V in B. injection B as B. destruct (read_back_tokens _ _ _ _ _ _ B F t It) as (t' & S & J). exact (Lt t' S J).
Qed.

(** With a name that the program uses, two programs give the same text. *)
Theorem C65_clash_refuted : exists s s' u u' d, js_minify_tokens s = Ok u /\ js_minify_tokens s' = Ok u'
  /\ ~ In (TOther (S_ "R")) u /\ clear_for_array u u = true
  /\ documented_array last_first (S_ "R") s = Ok d /\ documented_array last_first (S_ "R") s' = Ok d
  /\ length u <> length u'.
Proof.
  exists (q_ "f(#carrot cake#,#carrot cake#);g(#carrot cake#)"), (q_ "f(R[0],#carrot cake#);g(#carrot cake#)"). do 3 eexists.
  split; [vm_compute; reflexivity|]. split; [vm_compute; reflexivity|]. split; [intro I; cbn in I; intuition discriminate|].
  split; [vm_compute; reflexivity|]. split; [vm_compute; reflexivity|]. split; [vm_compute; reflexivity|].
  discriminate.
Qed.

Print Assumptions C65_read_back.
Print Assumptions C65_clean_first.
Print Assumptions C65_failures_refuted.
Print Assumptions C65_clash_refuted.
