(** A minified document minified again (src/html.rs).  [wu], [du] and [lu] are as in PropHtml. *)
From Coq Require Import String List NArith Bool Arith Lia.
From Verif Require Import Base HtmlModel HtmlSpec HtmlSyntaxSpec HtmlPlainSpec HtmlProofs1 HtmlProofs13 HtmlPlainProofs HtmlTests PropHtml PropHtmlSyntax.
Import ListNotations.
Open Scope N_scope.

(** ** C67: minifying again changes nothing *)

Theorem C67_html_idempotent : forall wu du lu s ps t, lower_ok lu ->
  html_parts s = Some ps -> Forall part_safe ps -> html_blanks s -> Forall one_line ps -> Forall reflows ps ->
  minify wu du lu s = Ok t -> minify wu du lu t = Ok t.
Proof. exact minify_twice. Qed.

(** Also with elements that keep white space, if no start tag has two white space characters in a row. *)
Theorem C67_html_kept : forall wu du lu s ps t, lower_ok lu ->
  html_parts s = Some ps -> Forall part_safe ps -> html_blanks s -> existsb preserves ps = true -> forallb single ps = true ->
  minify wu du lu s = Ok t -> minify wu du lu t = Ok t.
Proof. exact minify_kept_twice. Qed.

Definition on_line (s : str) : bool := forallb (fun c => negb (c =? line_end)) s.

Lemma on_line_dec : forall s, on_line s = true -> ~ In line_end s.
Proof. intros s H K. unfold on_line in H. rewrite forallb_forall in H. specialize (H _ K). now rewrite N.eqb_refl in H. Qed.

Definition one_line_b (p : part) : bool :=
  match p with
  | PStart n l w _ =>
      negb (typed_element n) || (forallb (fun a => on_line (a_gap a) &&
         match a_value a with Some (w1, w2, _, v) => on_line w1 && on_line w2 && on_line v | None => true end) l && on_line w)
  | _ => true
  end.

Lemma one_line_dec : forall ps, forallb one_line_b ps = true -> Forall one_line ps.
Proof.
  intros ps H. rewrite forallb_forall in H. apply Forall_forall. intros p J. specialize (H p J).
  destruct p as [c|c|s|n w|n l w sl]; try exact Logic.I. cbn [one_line_b one_line] in *.
  intro T. rewrite T in H. cbn [negb orb] in H. apply andb_true_iff in H. destruct H as [H1 H4].
  split; [|now apply on_line_dec]. rewrite forallb_forall in H1. apply Forall_forall. intros a K. specialize (H1 a K).
  apply andb_true_iff in H1. destruct H1 as [A1 A2]. split; [now apply on_line_dec|].
  destruct (a_value a) as [[[[w1 w2] q] v]|]; [|exact Logic.I].
  apply andb_true_iff in A2. destruct A2 as [A2 A4]. apply andb_true_iff in A2. destruct A2 as [A2 A3].
  repeat split; now apply on_line_dec.
Qed.

Definition reflows_b (p : part) : bool :=
  match p with
  | PStart n _ _ _ => negb (is_start (S_ "pre") (map low n)) && negb (is_start (S_ "textarea") (map low n))
  | _ => true
  end.

Lemma reflows_dec : forall ps, forallb reflows_b ps = true -> Forall reflows ps.
Proof.
  intros ps H. rewrite forallb_forall in H. apply Forall_forall. intros p J. specialize (H p J).
  destruct p as [c|c|s|n w|n l w sl]; try exact Logic.I. cbn [reflows_b reflows] in *.
  apply andb_true_iff in H. destruct H. split; now apply negb_true_iff.
Qed.

Example C67_hyp : exists ps, html_parts doc = Some ps /\ Forall part_safe ps /\ html_blanks doc /\
  Forall one_line ps /\ Forall reflows ps.
Proof.
  destruct (html_parts doc) as [ps|] eqn:E; [|vm_compute in E; discriminate].
  exists ps. split; [reflexivity|]. vm_compute in E. injection E as <-. split; [|split; [|split]].
  - apply safe_dec. vm_compute. reflexivity.
  - apply blanks_dec. vm_compute. reflexivity.
  - apply one_line_dec. vm_compute. reflexivity.
  - apply reflows_dec. vm_compute. reflexivity.
Qed.

Example C67_ex : exists t, minify no_u no_u same_u doc = Ok t /\ minify no_u no_u same_u t = Ok t /\ t <> doc.
Proof. eexists. split; [vm_compute; reflexivity|]. split; [vm_compute; reflexivity|]. intro K. vm_compute in K. discriminate. Qed.

Definition kept_doc : str := Q_ "<!-- c --><html> <head>
<script src=`a.js`
type=`text/javascript`></script></head>
<pre class=`c` > a  b
</pre><img width=`10` >
".

Example C67_kept_hyp : exists ps, html_parts kept_doc = Some ps /\ Forall part_safe ps /\ html_blanks kept_doc /\
  existsb preserves ps = true /\ forallb single ps = true.
Proof.
  destruct (html_parts kept_doc) as [ps|] eqn:E; [|vm_compute in E; discriminate].
  exists ps. split; [reflexivity|]. vm_compute in E. injection E as <-. split; [|split; [|split; vm_compute; reflexivity]].
  - apply safe_dec. vm_compute. reflexivity.
  - apply blanks_dec. vm_compute. reflexivity.
Qed.

Example C67_kept_ex : exists t, minify no_u no_u same_u kept_doc = Ok t /\ minify no_u no_u same_u t = Ok t /\ t <> kept_doc.
Proof. eexists. split; [vm_compute; reflexivity|]. split; [vm_compute; reflexivity|]. intro K. vm_compute in K. discriminate. Qed.

(** The type of a script whose tag spans lines is only seen once the line ends are gone. *)
Theorem C67_lines_refuted : ~ forall wu du lu s ps t, lower_ok lu ->
  html_parts s = Some ps -> Forall part_safe ps -> html_blanks s -> Forall reflows ps ->
  minify wu du lu s = Ok t -> minify wu du lu t = Ok t.
Proof.
  intro H. specialize (H no_u no_u same_u (Q_ "<script src=`a.js`
 type=`text/javascript`></script>")). eassert (K : _); [eapply H; clear H|].
  - exact same_ok.
  - vm_compute. reflexivity.
  - apply safe_dec. vm_compute. reflexivity.
  - apply blanks_dec. vm_compute. reflexivity.
  - apply reflows_dec. vm_compute. reflexivity.
  - vm_compute. reflexivity.
  - vm_compute in K. discriminate K.
Qed.

(** With an element that keeps its white space, a tag keeps doubled white space where the quotation marks
    of a value went. *)
Theorem C67_preformatted_refuted : ~ forall wu du lu s ps t, lower_ok lu ->
  html_parts s = Some ps -> Forall part_safe ps -> html_blanks s -> Forall one_line ps ->
  minify wu du lu s = Ok t -> minify wu du lu t = Ok t.
Proof.
  intro H. specialize (H no_u no_u same_u (Q_ "<pre><p width=`5`  x>")). eassert (K : _); [eapply H; clear H|].
  - exact same_ok.
  - vm_compute. reflexivity.
  - apply safe_dec. vm_compute. reflexivity.
  - apply blanks_dec. vm_compute. reflexivity.
  - apply one_line_dec. vm_compute. reflexivity.
  - vm_compute. reflexivity.
  - vm_compute in K. discriminate K.
Qed.

Print Assumptions C67_html_idempotent.
Print Assumptions C67_html_kept.
Print Assumptions C67_lines_refuted.
Print Assumptions C67_preformatted_refuted.
