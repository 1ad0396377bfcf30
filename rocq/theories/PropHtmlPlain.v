(** C72: the text of the minified document (src/html.rs).  [wu], [du] and [lu] are as in PropHtml. *)
From Coq Require Import String List NArith Bool Arith Lia.
From Verif Require Import Base HtmlModel HtmlSpec HtmlSyntaxSpec HtmlPlainSpec HtmlPlainProofs HtmlProofs1 HtmlTests PropHtml PropHtmlSyntax PropHtmlTwice.
Import ListNotations.
Open Scope N_scope.

(** ** C72: the output, part by part *)

(** The output is the text [compact] of the parts that a browser reads in the source. *)
Theorem C72_html_plain : forall wu du lu s ps, lower_ok lu ->
  html_parts s = Some ps -> Forall part_safe ps -> html_blanks s -> Forall reflows ps ->
  minify wu du lu s = Ok (compact wu ps).
Proof. exact minify_compact. Qed.

(** It does not matter what is said in comments, or whether a blank is written in their place. *)
Corollary C72_html_plain_comments : forall wu du lu s s' ps ps', lower_ok lu ->
  html_parts s = Some ps -> Forall part_safe ps -> html_blanks s -> Forall reflows ps ->
  html_parts s' = Some ps' -> Forall part_safe ps' -> html_blanks s' -> Forall reflows ps' ->
  map uncomment ps = map uncomment ps' -> minify wu du lu s = minify wu du lu s'.
Proof.
  intros wu du lu s s' ps ps' L A1 A2 A3 A4 B1 B2 B3 B4 E. rewrite (minify_compact wu du lu s ps), (minify_compact wu du lu s' ps') by assumption.
  unfold compact. now rewrite E.
Qed.

(** With an element that keeps its white space, white space stays as it is. *)
Theorem C72_html_kept : forall wu du lu s ps, lower_ok lu ->
  html_parts s = Some ps -> Forall part_safe ps -> html_blanks s -> existsb preserves ps = true -> forallb single ps = true ->
  minify wu du lu s = Ok (compact_kept wu ps).
Proof. exact minify_kept. Qed.

(** There is no document between the two. *)
Theorem C72_kept_or_not : forall ps, Forall reflows ps <-> existsb preserves ps = false.
Proof. exact preserves_reflows. Qed.

(** ** A document *)

Definition page : str := Q_ "<!DOCTYPE   html>
<html>
	<head>
	<script   type=`text/javascript` src = `a.js` ></script>
	<title> A   title </title>
</head><body class='x'>
	<!-- a   comment -->
	<IMG  src='a  b.png'   alt max-width=`10`  height=`5 px` />	<p>one <b>two</b>	three
	</p	>
	<ul><li>1</li> <li>2</li>

	</ul>a > b > <i>c</i>
</body>
</html>
".

Example C72_hyp : exists ps, html_parts page = Some ps /\ Forall part_safe ps /\ html_blanks page /\ Forall reflows ps.
Proof.
  destruct (html_parts page) as [ps|] eqn:E; [|vm_compute in E; discriminate].
  exists ps. split; [reflexivity|]. vm_compute in E. injection E as <-. split; [|split].
  - apply safe_dec. vm_compute. reflexivity.
  - apply blanks_dec. vm_compute. reflexivity.
  - apply reflows_dec. vm_compute. reflexivity.
Qed.

Example C72_ex : minify no_u no_u same_u page = Ok (Q_ "<!DOCTYPE html> <script src = `a.js`></script> <title> A title </title> <body class='x'> <IMG src='a b.png' alt max-width=10 height=`5 px` /> <p>one <b>two</b>	three </p	> <ul><li>1 <li>2 </ul>a > b > <i>c</i>").
Proof. vm_compute. reflexivity. Qed.

Example C72_compact : option_map (compact no_u) (html_parts page) = Some (Q_ "<!DOCTYPE html> <script src = `a.js`></script> <title> A title </title> <body class='x'> <IMG src='a b.png' alt max-width=10 height=`5 px` /> <p>one <b>two</b>	three </p	> <ul><li>1 <li>2 </ul>a > b > <i>c</i>").
Proof. vm_compute. reflexivity. Qed.

Example C72_comments : exists ps ps', html_parts (Q_ "<p>a<!-- one --><b>") = Some ps /\ html_parts (Q_ "<p>a <b>") = Some ps' /\
  map uncomment ps = map uncomment ps'.
Proof. do 2 eexists. split; [vm_compute; reflexivity|]. split; vm_compute; reflexivity. Qed.

Definition code_page : str := Q_ "
<html>
<body class='x'>
<script type=`text/javascript`
src=`a.js`></script>
<!-- a   comment -->
<PRE class=`c d`>a   b
  <b>c</b> </PRE>
<img alt='a' width=`10` ><img
height=`5` >

</body></html>  ".

Definition code_short : str := Q_ "<body class='x'>
<script type=`text/javascript`
src=`a.js`></script>
 
<PRE class=`c d`>a   b
  <b>c</b> </PRE>
<img alt='a' width=10><img
height=`5` >".

Example C72_kept_hyp : exists ps, html_parts code_page = Some ps /\ Forall part_safe ps /\ html_blanks code_page /\
  existsb preserves ps = true /\ forallb single ps = true.
Proof.
  destruct (html_parts code_page) as [ps|] eqn:E; [|vm_compute in E; discriminate].
  exists ps. split; [reflexivity|]. vm_compute in E. injection E as <-. split; [|split; [|split]].
  - apply safe_dec. vm_compute. reflexivity.
  - apply blanks_dec. vm_compute. reflexivity.
  - vm_compute. reflexivity.
  - vm_compute. reflexivity.
Qed.

Example C72_kept_ex : minify no_u no_u same_u code_page = Ok code_short.
Proof. vm_compute. reflexivity. Qed.

Example C72_compact_kept : option_map (compact_kept no_u) (html_parts code_page) = Some code_short.
Proof. vm_compute. reflexivity. Qed.

(** ** What is asked of the document *)

(** A value that has the look of an attribute is rewritten. *)
Theorem C72_unsafe_refuted : ~ forall wu du lu s ps, lower_ok lu ->
  html_parts s = Some ps -> html_blanks s -> Forall reflows ps -> minify wu du lu s = Ok (compact wu ps).
Proof.
  intro H. specialize (H no_u no_u same_u (Q_ "<p title='width=`5`'>")). eassert (K : _); [eapply H; clear H|].
  - exact same_ok.
  - vm_compute. reflexivity.
  - apply blanks_dec. vm_compute. reflexivity.
  - apply reflows_dec. vm_compute. reflexivity.
  - vm_compute in K. discriminate K.
Qed.

(** An element that keeps white space keeps it in the whole document. *)
Theorem C72_preformatted_refuted : ~ forall wu du lu s ps, lower_ok lu ->
  html_parts s = Some ps -> Forall part_safe ps -> html_blanks s -> minify wu du lu s = Ok (compact wu ps).
Proof.
  intro H. specialize (H no_u no_u same_u (Q_ "a  b<pre></pre>")). eassert (K : _); [eapply H; clear H|].
  - exact same_ok.
  - vm_compute. reflexivity.
  - apply safe_dec. vm_compute. reflexivity.
  - apply blanks_dec. vm_compute. reflexivity.
  - vm_compute in K. discriminate K.
Qed.

(** Two white space characters in a row in a tag may become one also there. *)
Theorem C72_double_refuted : ~ forall wu du lu s ps, lower_ok lu ->
  html_parts s = Some ps -> Forall part_safe ps -> html_blanks s -> existsb preserves ps = true -> minify wu du lu s = Ok (compact_kept wu ps).
Proof.
  intro H. specialize (H no_u no_u same_u (Q_ "<pre  id=a>")). eassert (K : _); [eapply H; clear H|].
  - exact same_ok.
  - vm_compute. reflexivity.
  - apply safe_dec. vm_compute. reflexivity.
  - apply blanks_dec. vm_compute. reflexivity.
  - vm_compute. reflexivity.
  - vm_compute in K. discriminate K.
Qed.

(** White space that is none for a browser. *)
Theorem C72_blanks_refuted : ~ forall wu du lu s ps, lower_ok lu ->
  html_parts s = Some ps -> Forall part_safe ps -> Forall reflows ps -> minify wu du lu s = Ok (compact wu ps).
Proof.
  intro H. specialize (H no_u no_u same_u [0x61; 0xA0; 0x20; 0x62]). eassert (K : _); [eapply H; clear H|].
  - exact same_ok.
  - vm_compute. reflexivity.
  - apply safe_dec. vm_compute. reflexivity.
  - apply reflows_dec. vm_compute. reflexivity.
  - vm_compute in K. discriminate K.
Qed.

Print Assumptions C72_html_plain.
Print Assumptions C72_html_plain_comments.
Print Assumptions C72_html_kept.
Print Assumptions C72_kept_or_not.
Print Assumptions C72_double_refuted.
Print Assumptions C72_unsafe_refuted.
Print Assumptions C72_preformatted_refuted.
Print Assumptions C72_blanks_refuted.
