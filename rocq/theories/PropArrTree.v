(** C77: the syntax tree of a program after the documented aggregation of its string literals into an
    array. *)
From Coq Require Import String Arith List NArith Bool Permutation.
From Verif Require Import Base JsModel JsUtilModel JsUtilSpec JsAggModel JsPipeSpec JsPipeProofs EsSpec JsPlainSpec JsTreeSpec
  JsAggTreeSpec JsAggTreeProofs2 JsArrTreeSpec JsArrTreeProofs PropJsAgg PropJsTree PropAggTree.
Import ListNotations.
Open Scope list_scope.
Open Scope N_scope.

(** A plain program, written as the grammar says, that does not use the name; its repeated literals
    are no templates, can be written with double quotation marks, are no keys, stand behind no tag and
    next to no words: a parser reads from the printed text the declaration of the array, followed by
    the tree of the program in which literals are replaced by the elements of the array they are,
    whatever the order of the hash map. *)
Theorem C77_tree : forall order, any_order order -> forall start_u part_u name l t,
  JsPlainSpec.plain start_u part_u None false l = true -> apart start_u part_u (pieces l) = true ->
  program t (lines false l) ->
  array_name name -> binding name = true -> unused name (pieces l) = true ->
  requotes start_u part_u (pieces l) = true -> clear_around (pieces l) (pieces l) = true -> keys_alone (pieces l) t = true ->
  N.of_nat (length (pieces l)) <= 2 ^ 64 ->
  exists d elems, documented_array order name (text l) = Ok d /\ NoDup elems
    /\ (forall s, In s elems -> exists e, In e (pieces l) /\ inner (snd e) = s /\ alike (pieces l) e = true)
    /\ es_program start_u part_u d
       = Some (match elems with [] => drop_empty t | _ => declaring_array name elems :: looked_tree name elems t end).
Proof. intros order O su pu name l t H A W N B U R C Ko Sz. exact (array_documented_tree su pu order O name l t H A W N B U R C Ko Sz). Qed.

(** What is replaced: the literals whose text is in the array, by the element with their text. *)
Theorem C77_elements : forall name elems e, NoDup elems ->
  (forall x, element_for name elems e = Some x <->
     quoted e = true /\ exists k, nth_error elems k = Some (inner (snd e)) /\ x = element_at name k)
  /\ (element_for name elems e = None <-> quoted e = false \/ ~ In (inner (snd e)) elems).
Proof.
  intros name elems e N. unfold element_for. destruct (quoted e) eqn:Q.
  - destruct (position elems (inner (snd e))) as [k|] eqn:P.
    + apply position_nth in P. split; [intro x; split|split].
      * intro E. injection E as <-. split; [reflexivity|]. exists k. auto.
      * intros (_ & j & J & ->). apply (position_is _ _ _ N) in J. apply (position_is _ _ _ N) in P. rewrite P in J. injection J as ->. reflexivity.
      * intro E. discriminate E.
      * intros [E|E]; [discriminate E|]. exfalso. apply E. now apply nth_error_In in P.
    + split; [intro x; split|split].
      * intro E. discriminate E.
      * intros (_ & j & J & _). apply (position_is _ _ _ N) in J. rewrite P in J. discriminate J.
      * intros _. right. intro I. apply In_nth_error in I. destruct I as [j J]. apply (position_is _ _ _ N) in J. rewrite P in J. discriminate J.
      * reflexivity.
  - split; [intro x; split; [discriminate|intros (E & _); discriminate E]|]. split; auto.
Qed.

(** A program without repeated literals has the tree it has without the aggregation. *)
Theorem C77_nothing_repeated : forall order, any_order order -> forall start_u part_u name l t,
  JsPlainSpec.plain start_u part_u None false l = true -> apart start_u part_u (pieces l) = true ->
  program t (lines false l) -> array_name name -> binding name = true -> unused name (pieces l) = true ->
  (forall e, In e (pieces l) -> alike (pieces l) e = false) -> keys_alone (pieces l) t = true ->
  N.of_nat (length (pieces l)) <= 2 ^ 64 ->
  exists d, documented_array order name (text l) = Ok d /\ es_program start_u part_u d = Some (drop_empty t).
Proof.
  intros order O su pu name l t H A W Nm Bn U N Ko Sz.
  assert (B : forall ps, incl ps (pieces l) -> clear_around (pieces l) ps = true).
  { induction ps as [|a ps IH]; intro I; [reflexivity|]. rewrite clear_around_cons. destruct ps as [|c ps]; [reflexivity|].
    rewrite (N a (I a (or_introl eq_refl))), (N c (I c (or_intror (or_introl eq_refl)))). cbn [andb negb]. apply IH. intros y Y. apply I. now right. }
  assert (R : requotes su pu (pieces l) = true) by (apply forallb_forall; intros e I; rewrite (N e I); reflexivity).
  destruct (C77_tree order O su pu name l t H A W Nm Bn U R (B _ (incl_refl _)) Ko Sz) as (d & elems & D & _ & F & E). exists d. split; [exact D|].
  destruct elems as [|s r]; [exact E|]. exfalso. destruct (F s (or_introl eq_refl)) as (e & I & _ & X). rewrite (N e I) in X. discriminate X.
Qed.

(** ** A program

    The same text between different quotation marks is the same element. *)
Open Scope string_scope.

Definition dq : string := String (Ascii.ascii_of_nat 34) EmptyString.
Definition carrot2 := (Text, S_ (dq ++ "carrot cake" ++ dq)).
Definition bread := (Text, S_ "'raisin bread'").

Definition shop : list item :=
  [ nl "// cakes"; p ";"; nl ""; n "var"; b " "; n "a"; b " "; p "="; b " "; p "["; q "'carrot cake'"; p ","; b " "; n "x"; p "]"; b " "; p ";"; nl "";
    n "if"; b " "; p "("; n "a"; b " "; p "=="; b " "; q "'raisin bread'"; p ")"; nl "";
    n "f"; p "("; Piece carrot2; p ","; b " "; q "'raisin bread'"; p ","; b " "; q "'x'"; p ")"; p ";" ].

Definition shop_tree : list stmt :=
  [ SEmpty;
    SVar (S_ "var") [(PName (S_ "a"), Some (EArray [ELit carrot; w "x"]))];
    SIf (EBin (S_ "==") (w "a") (ELit bread))
      (SExpr (ECall (w "f") [ELit carrot2; ELit bread; ELit (Text, S_ "'x'")])) None ].

Definition shop_test := expression _ _ (wb_op 1 6 (P "==") _ _ _ _ false eq_refl ltac:(auto with arith)
  (left_bin 6 _ _ (word "a" false eq_refl)) (left_bin 7 _ _ (lit bread false eq_refl))).
Definition shop_call := wt_expr true _ _ _ (expression _ _ (left_bin 1 _ _
  (wl_call _ _ _ _ false false (word "f" true eq_refl) (wi_some _ _
    (wi_cons _ _ _ _ false (entry _ _ (lit carrot2 false eq_refl)) (wi_some _ _
      (wi_cons _ _ _ _ false (entry _ _ (lit bread false eq_refl)) (wi_some _ _
        (wi_one _ _ (entry _ _ (lit (Text, S_ "'x'") false eq_refl))))))))))) eq_refl (wn_semicolon true false).

Example C77_program : program shop_tree (lines false shop).
Proof. exact (ws_some _ _ _ (ws_cons true _ _ _ _ (wt_empty false true) (ws_cons true _ _ _ _ cakes_var (ws_one true _ _ (wt_if true _ _ _ _ true false false shop_test shop_call))))). Qed.


Example C77_ex : JsPlainSpec.plain ascii ascii None false shop = true /\ apart ascii ascii (pieces shop) = true
  /\ array_name (S_ "R") /\ binding (S_ "R") = true /\ unused (S_ "R") (pieces shop) = true
  /\ requotes ascii ascii (pieces shop) = true /\ clear_around (pieces shop) (pieces shop) = true /\ keys_alone (pieces shop) shop_tree = true
  /\ exists d elems, documented_array last_first (S_ "R") (text shop) = Ok d
    /\ d = S_ ("var R=[" ++ dq ++ "carrot cake" ++ dq ++ "," ++ dq ++ "raisin bread" ++ dq ++ "];;var a=[R[0],x];if(a==R[1])f(R[0],R[1],'x');")
    /\ elems = [S_ "carrot cake"; S_ "raisin bread"]
    /\ es_program ascii ascii d = Some (declaring_array (S_ "R") elems :: looked_tree (S_ "R") elems shop_tree)
    /\ looked_tree (S_ "R") elems shop_tree =
         [ SEmpty; SVar (S_ "var") [(PName (S_ "a"), Some (EArray [element_at (S_ "R") 0; w "x"]))];
           SIf (EBin (S_ "==") (w "a") (element_at (S_ "R") 1))
             (SExpr (ECall (w "f") [element_at (S_ "R") 0; element_at (S_ "R") 1; ELit (Text, S_ "'x'")])) None ].
Proof.
  split; [vm_compute; reflexivity|]. split; [vm_compute; reflexivity|].
  split; [split; [constructor; [left; reflexivity|constructor]|split; [intros c r E; injection E as <- _; reflexivity|vm_compute; reflexivity]]|].
  split; [vm_compute; reflexivity|]. split; [vm_compute; reflexivity|]. split; [vm_compute; reflexivity|]. split; [vm_compute; reflexivity|]. split; [vm_compute; reflexivity|].
  eexists. eexists. split; [vm_compute; reflexivity|]. split; [vm_compute; reflexivity|]. split; [reflexivity|]. split; vm_compute; reflexivity.
Qed.

(** ** Keys

    Without the condition on keys the result is no program: a key of an object is no expression. *)
Theorem C77_keys_refuted : exists l t d,
  JsPlainSpec.plain ascii ascii None false l = true /\ apart ascii ascii (pieces l) = true /\ program t (lines false l)
  /\ unused (S_ "R") (pieces l) = true /\ requotes ascii ascii (pieces l) = true /\ clear_around (pieces l) (pieces l) = true
  /\ documented_array last_first (S_ "R") (text l) = Ok d
  /\ d = S_ ("var R=[" ++ dq ++ "carrot cake" ++ dq ++ "];x={R[0]:1};y={R[0]:2};") /\ es_program ascii ascii d = None.
Proof.
  exists keyed_source, (keyed_tree carrot). eexists. split; [vm_compute; reflexivity|]. split; [vm_compute; reflexivity|]. split; [exact C76_keyed|].
  split; [vm_compute; reflexivity|]. split; [vm_compute; reflexivity|]. split; [vm_compute; reflexivity|]. split; [vm_compute; reflexivity|]. split; vm_compute; reflexivity.
Qed.

(** ** Quotation marks

    Without the condition on quotation marks: double ones within single ones end the literal of the
    array, and the lines of a template do not fit into a literal. *)
Definition f_twice (e : element) : list item := [ n "f"; p "("; Piece e; p ","; Piece e; p ")"; p ";" ].
Definition f_tree (e : element) : list stmt := [ SExpr (ECall (w "f") [ELit e; ELit e]) ].

Lemma f_program : forall e, literal e = true -> program (f_tree e) (lines false (f_twice e)).
Proof.
  intros e H. exact (ws_some _ _ _ (ws_one true _ _ (wt_expr true _ _ _ (expression _ _ (left_bin 1 _ _
      (wl_call _ _ _ _ false false (word "f" false eq_refl) (wi_some _ _ (wi_cons _ _ _ _ false (entry _ _ (lit e false H))
        (wi_some _ _ (wi_one _ _ (entry _ _ (lit e false H))))))))) eq_refl (wn_semicolon true false)))).
Qed.

Definition saying : element := (Text, S_ ("'say " ++ dq ++ "carrot cake" ++ dq ++ "'")).
Definition two_lines : element := (Template, (S_ "`apple pie" ++ [0xA%N] ++ S_ "with cream`")%list).

Theorem C77_quotes_refuted : exists l t d,
  JsPlainSpec.plain ascii ascii None false l = true /\ apart ascii ascii (pieces l) = true /\ program t (lines false l)
  /\ unused (S_ "R") (pieces l) = true /\ clear_around (pieces l) (pieces l) = true /\ keys_alone (pieces l) t = true
  /\ documented_array last_first (S_ "R") (text l) = Ok d
  /\ d = S_ ("var R=[" ++ dq ++ "say " ++ dq ++ "carrot cake" ++ dq ++ dq ++ "];f(R[0],R[0]);") /\ es_program ascii ascii d = None.
Proof.
  exists (f_twice saying), (f_tree saying). eexists. split; [vm_compute; reflexivity|]. split; [vm_compute; reflexivity|]. split; [now apply f_program|].
  split; [vm_compute; reflexivity|]. split; [vm_compute; reflexivity|]. split; [vm_compute; reflexivity|]. split; [vm_compute; reflexivity|]. split; vm_compute; reflexivity.
Qed.

Theorem C77_templates_refuted : exists l t d,
  JsPlainSpec.plain ascii ascii None false l = true /\ apart ascii ascii (pieces l) = true /\ program t (lines false l)
  /\ unused (S_ "R") (pieces l) = true /\ clear_around (pieces l) (pieces l) = true /\ keys_alone (pieces l) t = true
  /\ documented_array last_first (S_ "R") (text l) = Ok d /\ es_program ascii ascii d = None.
Proof.
  exists (f_twice two_lines), (f_tree two_lines). eexists. split; [vm_compute; reflexivity|]. split; [vm_compute; reflexivity|]. split; [now apply f_program|].
  split; [vm_compute; reflexivity|]. split; [vm_compute; reflexivity|]. split; [vm_compute; reflexivity|]. split; vm_compute; reflexivity.
Qed.

Print Assumptions C77_tree.
Print Assumptions C77_elements.
Print Assumptions C77_nothing_repeated.
Print Assumptions C77_keys_refuted.
Print Assumptions C77_quotes_refuted.
Print Assumptions C77_templates_refuted.
