(** C70: the minified text of a plain program. *)
From Coq Require Import String Arith List NArith Bool.
From Verif Require Import Base JsModel JsUtilModel EsSpec JsPlainSpec JsPlainProofs2.
Import ListNotations.
Open Scope N_scope.

(** The output is the text [compact] of the tokens that are written in the program. *)
Theorem C70_js_plain : forall start_u part_u l, plain start_u part_u None false l = true ->
  js_minify (text l) = Ok (compact (skip_semicolons (pieces l))).
Proof. exact plain_minify. Qed.

(** An engine reads the tokens that are written, from the source and from the output. *)
Theorem C70_js_plain_source : forall start_u part_u goal l, plain start_u part_u None false l = true ->
  goal_ok goal [] (pieces l) = true ->
  es_tokens start_u part_u goal (text l) = Some (skip_semicolons (pieces l)).
Proof. exact plain_source. Qed.

Theorem C70_js_plain_output : forall start_u part_u goal l d, plain start_u part_u None false l = true ->
  goal_ok goal [] (pieces l) = true -> apart start_u part_u (pieces l) = true ->
  js_minify (text l) = Ok d -> es_tokens start_u part_u goal d = Some (skip_semicolons (pieces l)).
Proof.
  intros su pu goal l d H G A D. rewrite (plain_minify su pu l H) in D. injection D as <-. exact (plain_output su pu goal l H G A).
Qed.

(** Two ways to write the same tokens give the same output. *)
Corollary C70_js_plain_layout : forall start_u part_u l m,
  plain start_u part_u None false l = true -> plain start_u part_u None false m = true -> pieces l = pieces m ->
  js_minify (text l) = js_minify (text m).
Proof. intros su pu l m H K E. rewrite (plain_minify su pu l H), (plain_minify su pu m K), E. reflexivity. Qed.

(** ** A program that is plain *)

Open Scope string_scope.
Definition b (s : string) := Between (S_ s).
Definition nl (s : string) := Between (app (S_ s) [0xA%N]).
Definition n (s : string) := Piece (Name, S_ s).
Definition p (s : string) := Piece (Punct, S_ s).
Definition q (s : string) := Piece (Text, S_ s).
Definition d (s : string) := Piece (Number, S_ s).
Definition r (s : string) := Piece (Regex, S_ s).
Definition t (s : string) := Piece (Template, S_ s).
Definition ascii (_ : N) := false.

Definition program : list item :=
  [ p ";"; b " "; n "class"; b " "; n "A"; b " "; p "{"; nl " // a comment"; Piece (Private, S_ "#x"); b " "; p "="; b " "; d "0x1F"; p ";"; nl "";
    n "f"; p "("; n "a"; p ","; b " "; p "..."; n "b"; p ")"; b " /* another */ "; p "{"; nl "";
    n "if"; b " "; p "("; n "a"; b " "; n "in"; b " "; n "b"; b " "; p "&&"; b " "; d "1"; b " "; n "in"; b " "; n "c"; p "++"; b " "; n "in"; b " "; n "z"; p ")"; nl "";
    n "return"; b " "; d ".5"; b " "; p "/"; b " "; n "this"; p "."; Piece (Private, S_ "#x"); b " "; p ">>>"; b " "; d "1.25"; p "."; n "y"; p ";"; nl "";
    n "let"; b " "; n "u"; b " "; p "="; b " "; r "/a\/b/gi"; p "."; n "test"; p "("; q "'it\'s // text'"; p ")"; b " "; p "??"; b " "; t "`x`"; p ";"; b " ";
    n "v"; b " "; p "=>"; b " "; p "-"; n "v"; b " "; p "**"; b " "; d "2"; p ";"; nl "";
    p "}"; p "}"; nl "" ].

Example C70_plain_ex : plain ascii ascii None false program = true
  /\ apart ascii ascii (pieces program) = true
  /\ js_minify (text program) = Ok (S_ "class A{#x=0x1F;f(a,...b){if(a in b&&1 in c++ in z)return .5/this.#x>>>1.25.y;let u=/a\/b/gi.test('it\'s // text')??`x`;v=>-v**2;}}").
Proof. vm_compute. repeat split. Qed.

(** A goal that is right for this program: a regular expression after a sign other than a closing
    bracket. *)
Definition goal_ex (past : list element) : bool :=
  match past with e :: _ => sign ["="; "("; ","] e | [] => true end.

Example C70_goal_ex : goal_ok goal_ex [] (pieces program) = true
  /\ es_tokens ascii ascii goal_ex (text program) = Some (skip_semicolons (pieces program)).
Proof. vm_compute. split; reflexivity. Qed.

(** ** What is left out, and why *)

(** Without [apart] the tokens change: [a + +b] becomes [a++b]. *)
Theorem C70_apart_refuted : ~ (forall goal l x, plain ascii ascii None false l = true -> goal_ok goal [] (pieces l) = true ->
  js_minify (text l) = Ok x -> es_tokens ascii ascii goal x = Some (skip_semicolons (pieces l))).
Proof.
  intro H. specialize (H goal_ex [n "a"; b " "; p "+"; b " "; p "+"; n "b"] (S_ "a++b") eq_refl eq_refl ltac:(vm_compute; reflexivity)).
  vm_compute in H. discriminate H.
Qed.

(** Programs that are written in tokens of ECMA-262 but are not plain, for which another text is
    put out: [a ^ b] keeps its blanks, [nan of] loses its blank, so does [1e-5 of], and a regular
    expression after a keyword is read as other tokens. *)
Definition tokens_only (l : list item) : bool :=
  forallb (fun i => match i with Between g => between Idle g | Piece e => alone ascii ascii e end) l.

Theorem C70_pieces_refuted : Forall (fun l => tokens_only l = true /\ js_minify (text l) <> Ok (compact (skip_semicolons (pieces l))))
  [ [n "a"; b " "; p "^"; b " "; n "b"];
    [n "for"; p "("; n "nan"; b " "; n "of"; b " "; n "y"; p ")"];
    [d "1e-5"; b " "; n "of"; b " "; d "1e-5"; b " "; n "x" ];
    [n "return"; b " "; r "/ a/"; p ";"; b " "; p "/"] ].
Proof. repeat constructor; intro H; vm_compute in H; discriminate H. Qed.

Print Assumptions C70_js_plain.
Print Assumptions C70_js_plain_source.
Print Assumptions C70_js_plain_output.
Print Assumptions C70_js_plain_layout.
Print Assumptions C70_apart_refuted.
Print Assumptions C70_pieces_refuted.
