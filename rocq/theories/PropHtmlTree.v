(** C75: the tree a browser builds of the minified document (src/html.rs).  [wu], [du] and [lu] are as in PropHtml. *)
From Coq Require Import String List NArith Bool Arith Lia.
From Verif Require Import Base HtmlModel HtmlSpec HtmlSyntaxSpec HtmlTreeSpec HtmlTreeProofs4 HtmlProofs1 HtmlTests PropHtml PropHtmlSyntax.
Import ListNotations.
Open Scope N_scope.

(** ** C75: the tree *)

(** A browser adds the tags that are left out where they were. *)
Theorem C75_html_tree : forall wu du lu s ps ts l, lower_ok lu ->
  html_parts s = Some ps -> Forall part_safe ps -> html_blanks s ->
  html_tokens s = Some ts -> replaceable None ts = true -> html_tree s = Some l ->
  exists t, minify wu du lu s = Ok t /\ html_tree t = Some l.
Proof. intros wu du lu s ps ts l HL Hp Hs HB Ht Hr H. exact (minify_tree wu du lu s ts l HL ps Hp Hs HB Ht Hr H). Qed.

(** What [html_tree] gives is a tree: every element is closed in its turn. *)
Theorem C75_is_tree : forall s l, html_tree s = Some l -> nest [] l = Some [].
Proof. exact tree_nest. Qed.

(** ** A document *)

Definition tree_page : str := Q_ "<!DOCTYPE   html>
<html>
	<head>
	<meta charset=`utf-8`>
	<script   type=`text/javascript` src = `a.js` ></script>
	<title> A   title </title>
</head><body>
	<!-- a   comment -->
	<p>one <b>two</b>	three
	</p	>
	<ul><li>1</li> <li>2 <ol><li>x</li></ol></li>
	</ul>
	<table>
	<tbody>
	<tr><th>a</th> <td>b</td></tr>
	<tr><td><select><option>1</option><option>2</option></select></td></tr>
	</tbody></table>
	<dl><dt>k</dt><dd>v<img src=a.png></img></dd></dl>
	<br/> end
</body>
</html>
".

Definition tree_short : str := Q_ "<!DOCTYPE html> <meta charset=`utf-8`> <script src = `a.js`></script> <title> A title </title> <p>one <b>two</b>	three </p	> <ul><li>1 <li>2 <ol><li>x</ol> </ul> <table> <tr><th>a <td>b <tr><td><select><option>1<option>2</select> </table> <dl><dt>k<dd>v<img src=a.png></dl> <br/> end".

Definition tx (x : string) : list event := map Text (Q_ x).
Definition op (x : string) : list event := [Open (S_ x) []].
Definition cl (x : string) : list event := [Close (S_ x)].

Definition page_tree : list event :=
  [Doctype (Q_ "DOCTYPE html")] ++
  op "html" ++
    op "head" ++
      [Open (S_ "meta") [(S_ "charset", S_ "utf-8")]; Close (S_ "meta")] ++ tx " " ++
      [Open (S_ "script") [(S_ "src", S_ "a.js")]; Close (S_ "script")] ++ tx " " ++
      op "title" ++ tx " A title " ++ cl "title" ++
    cl "head" ++
    op "body" ++
      op "p" ++ tx "one " ++ op "b" ++ tx "two" ++ cl "b" ++ tx " three " ++ cl "p" ++ tx " " ++
      op "ul" ++ op "li" ++ tx "1" ++ cl "li" ++ op "li" ++ tx "2 " ++ op "ol" ++ op "li" ++ tx "x" ++ cl "li" ++ cl "ol" ++ cl "li" ++ cl "ul" ++ tx " " ++
      op "table" ++ op "tbody" ++
        op "tr" ++ op "th" ++ tx "a" ++ cl "th" ++ op "td" ++ tx "b" ++ cl "td" ++ cl "tr" ++
        op "tr" ++ op "td" ++ op "select" ++ op "option" ++ tx "1" ++ cl "option" ++ op "option" ++ tx "2" ++ cl "option" ++ cl "select" ++ cl "td" ++ cl "tr" ++
      cl "tbody" ++ cl "table" ++ tx " " ++
      op "dl" ++ op "dt" ++ tx "k" ++ cl "dt" ++ op "dd" ++ tx "v" ++ [Open (S_ "img") [(S_ "src", S_ "a.png")]; Close (S_ "img")] ++ cl "dd" ++ cl "dl" ++ tx " " ++
      op "br" ++ cl "br" ++ tx " end" ++
    cl "body" ++
  cl "html".

Example C75_ex : minify no_u no_u same_u tree_page = Ok tree_short.
Proof. vm_compute. reflexivity. Qed.
Example C75_tree : html_tree tree_page = Some page_tree /\ html_tree tree_short = Some page_tree.
Proof. split; vm_compute; reflexivity. Qed.

Example C75_hyp : exists ps ts, html_parts tree_page = Some ps /\ Forall part_safe ps /\ html_blanks tree_page /\
  html_tokens tree_page = Some ts /\ replaceable None ts = true.
Proof.
  destruct (html_parts tree_page) as [ps|] eqn:E; [|vm_compute in E; discriminate].
  exists ps, (map token_of ps). split; [reflexivity|]. unfold html_tokens. rewrite E. vm_compute in E. injection E as <-. split; [|split; [|split]].
  - apply safe_dec. vm_compute. reflexivity.
  - apply blanks_dec. vm_compute. reflexivity.
  - reflexivity.
  - vm_compute. reflexivity.
Qed.

(** ** What is asked of the document *)

Definition same_tree (s : str) : Prop := forall ps l, html_parts s = Some ps -> Forall part_safe ps -> html_blanks s ->
  html_tree s = Some l -> exists t, minify no_u no_u same_u s = Ok t /\ html_tree t = Some l.

Ltac refute H := unfold same_tree in H; destruct (H _ _ ltac:(vm_compute; reflexivity) ltac:(apply safe_dec; vm_compute; reflexivity)
  ltac:(apply blanks_dec; vm_compute; reflexivity) ltac:(vm_compute; reflexivity)) as (t & E & K);
  vm_compute in E; injection E as <-; vm_compute in K; discriminate K.

(** Without the tags of its body, the rows of a table are rows of its head. *)
Definition table_page := Q_ "<table><thead><tr><th>a</th></tr></thead><tbody><tr><td>1</td></tr></tbody></table>".

Theorem C75_table_refuted : ~ same_tree table_page.
Proof. intro H. refute H. Qed.

Example C75_table : minify no_u no_u same_u table_page = Ok (Q_ "<table><thead><tr><th>a<tr><td>1</table>") /\
  html_tree (Q_ "<table><thead><tr><th>a<tr><td>1</table>") = Some (op "html" ++ op "head" ++ cl "head" ++ op "body" ++ op "table" ++ op "thead" ++
    op "tr" ++ op "th" ++ tx "a" ++ cl "th" ++ cl "tr" ++ op "tr" ++ op "td" ++ tx "1" ++ cl "td" ++ cl "tr" ++ cl "thead" ++ cl "table" ++ cl "body" ++ cl "html").
Proof. split; vm_compute; reflexivity. Qed.

(** Without the tag of the body, a script at its beginning is in the head, where it runs before there
    is a body. *)
Definition script_page := Q_ "<html><head></head><body><script>f()</script>x</body></html>".

Theorem C75_body_refuted : ~ same_tree script_page.
Proof. intro H. refute H. Qed.

Example C75_body : minify no_u no_u same_u script_page = Ok (Q_ "<script>f()</script>x") /\
  html_tree (Q_ "<script>f()</script>x") = Some (op "html" ++ op "head" ++ op "script" ++ tx "f()" ++ cl "script" ++ cl "head" ++ op "body" ++ tx "x" ++ cl "body" ++ cl "html").
Proof. split; vm_compute; reflexivity. Qed.

(** Without its end tag, an option goes on. *)
Definition option_page := Q_ "<datalist><option>1</option>or</datalist>".

Theorem C75_option_refuted : ~ same_tree option_page.
Proof. intro H. refute H. Qed.

(** Two bodies of a table become one. *)
Definition bodies_page := Q_ "<table><tbody><tr><td>1</td></tr></tbody><tbody><tr><td>2</td></tr></tbody></table>".

Theorem C75_bodies_refuted : ~ same_tree bodies_page.
Proof. intro H. refute H. Qed.

Print Assumptions C75_html_tree.
Print Assumptions C75_is_tree.
Print Assumptions C75_table_refuted.
Print Assumptions C75_body_refuted.
Print Assumptions C75_option_refuted.
Print Assumptions C75_bodies_refuted.
