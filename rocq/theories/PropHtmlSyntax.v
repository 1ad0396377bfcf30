(** What a browser reads in the minified document (src/html.rs).  [wu], [du] and [lu] are as in
    PropHtml. *)
From Coq Require Import String List NArith Bool Arith Lia.
From Verif Require Import Base HtmlModel HtmlSpec HtmlSyntaxSpec HtmlProofs1 HtmlProofs8 HtmlProofs12 HtmlTests PropHtml.
Import ListNotations.
Open Scope N_scope.

(** ** C66: the minified document is read as the document *)

(** The tokens are the same, in the same order, with the same names, attributes, values and self-closing
    flags, but for: runs of white space, comments (white space), tags that may be left out, and the
    type of a style or script. *)
Theorem C66_html_reads : forall wu du lu s ps, lower_ok lu ->
  html_parts s = Some ps -> Forall part_safe ps -> html_blanks s ->
  exists t ts ts', minify wu du lu s = Ok t /\ html_tokens s = Some ts /\ html_tokens t = Some ts' /\
    content ts' = content ts.
Proof.
  intros wu du lu s ps HL Hp Hs HB. destruct (minify_reads wu du lu s ps HL Hp Hs HB) as (t & ps' & E & Ep & H & _).
  exists t, (map token_of ps), (map token_of ps'). unfold html_tokens. rewrite Hp, Ep. repeat split; [exact E | exact H].
Qed.

(** With an element that keeps its white space, all the text keeps it. *)
Theorem C66_preformatted : forall wu du lu s ps, lower_ok lu ->
  html_parts s = Some ps -> Forall part_safe ps -> html_blanks s -> Exists keeps_blanks ps ->
  exists t ts ts', minify wu du lu s = Ok t /\ html_tokens s = Some ts /\ html_tokens t = Some ts' /\
    exact_content ts' = exact_content ts.
Proof.
  intros wu du lu s ps HL Hp Hs HB Hk. destruct (minify_reads wu du lu s ps HL Hp Hs HB) as (t & ps' & E & Ep & _ & H).
  exists t, (map token_of ps), (map token_of ps'). unfold html_tokens. rewrite Hp, Ep. repeat split; [exact E | exact (H Hk)].
Qed.

(** Back quotes for double quotes. *)
Definition Q_ (s : string) : str := map (fun c => if c =? 0x60 then 0x22 else c) (S_ s).

Lemma occurs_dec : forall p s, contains p s = false -> ~ occurs p s.
Proof. intros p s E K. apply contains_spec in K. congruence. Qed.

Definition ends_b (p s : str) : bool := str_eqb (skipn (length s - length p) s) p.

Lemma ends_dec : forall p s, ends_b p s = false -> ~ ends_with p s.
Proof.
  intros p s E (x & ->). unfold ends_b in E. rewrite app_length in E.
  replace (length x + length p - length p)%nat with (length x) in E by lia.
  rewrite skipn_app, skipn_all, Nat.sub_diag in E. cbn in E.
  assert (K : str_eqb p p = true) by now apply str_eqb_eq. congruence.
Qed.

Fixpoint conditional_b (c : str) : bool :=
  match c with [] => false | x :: r => if is_whitespace x then conditional_b r else (x =? 0x5B) || (x =? lt) end.

Lemma conditional_dec : forall c, conditional_b c = false -> ~ conditional c.
Proof.
  intros c H K. revert H. induction K as [c|b c B K IH|c K IH]; cbn; try discriminate.
  unfold blank in B. rewrite B. exact IH.
Qed.

Definition safe_b (p : part) : bool :=
  match p with
  | PComment c => negb (conditional_b c)
  | PStart n l w sl =>
      forallb (fun a => (negb (typed_element n) || (negb (contains (S_ "type=") (value_of a)) &&
                           (negb (ends_b (S_ "type") (a_name a)) || str_eqb (a_name a) (S_ "type")))) &&
                        negb (contains (Q_ "width=`") (value_of a)) && negb (contains (Q_ "height=`") (value_of a))) l &&
      match sl, w, rev l with
      | true, [], a :: _ => negb (ends_b (S_ "type") (a_name a)) && negb (ends_b (S_ "width") (a_name a)) && negb (ends_b (S_ "height") (a_name a))
      | _, _, _ => true
      end
  | _ => true
  end.

Lemma safe_dec : forall ps, forallb safe_b ps = true -> Forall part_safe ps.
Proof.
  intros ps H. rewrite forallb_forall in H. apply Forall_forall. intros p I. specialize (H p I). clear I ps.
  destruct p as [c|c|s|n w|n l w sl]; try exact Logic.I; cbn [safe_b part_safe] in *.
  - apply conditional_dec. now apply negb_true_iff.
  - apply andb_true_iff in H. destruct H as [H1 H2]. split.
    + rewrite forallb_forall in H1. apply Forall_forall. intros a I. specialize (H1 a I).
      apply andb_true_iff in H1. destruct H1 as [H1 A3]. apply andb_true_iff in H1. destruct H1 as [A1 A2].
      apply negb_true_iff in A2, A3. apply occurs_dec in A2, A3. split; [|split; assumption].
      intro T. rewrite T in A1. cbn [negb orb] in A1. apply andb_true_iff in A1. destruct A1 as [A1 A4].
      apply negb_true_iff in A1. split; [now apply occurs_dec|]. intro K. apply orb_true_iff in A4. destruct A4 as [A4 | A4].
      * apply negb_true_iff, ends_dec in A4. contradiction.
      * now apply str_eqb_eq.
    + intros -> -> l' a ->. rewrite rev_app_distr in H2. cbn [rev app] in H2.
      apply andb_true_iff in H2. destruct H2 as [H2 A3]. apply andb_true_iff in H2. destruct H2 as [A1 A2].
      apply negb_true_iff in A1, A2, A3. repeat split; now apply ends_dec.
Qed.

Lemma blanks_dec : forall s, forallb (fun c => negb (is_whitespace c) || html_blank c) s = true -> html_blanks s.
Proof.
  intros s H c I B. rewrite forallb_forall in H. specialize (H c I). unfold blank in B. rewrite B in H. exact H.
Qed.

Definition doc : str := Q_ "<!DOCTYPE html>
<html lang=`en`>
<head><title> A  page </title><!-- head --><script type=`text/javascript` src=`a.js` async></script></head>
<body>
  <p class = 'x  y' >Hello, <b>you</b>
  <img src=`a.png` width=`10` height=`20` /> <br/><svg><rect x=`1`/></svg>
</body>
</html>
".

Example C66_hyp : exists ps, html_parts doc = Some ps /\ Forall part_safe ps /\ html_blanks doc.
Proof.
  destruct (html_parts doc) as [ps|] eqn:E; [|vm_compute in E; discriminate].
  exists ps. split; [reflexivity|]. split.
  - apply safe_dec. vm_compute in E. injection E as <-. vm_compute. reflexivity.
  - apply blanks_dec. vm_compute. reflexivity.
Qed.

Example C66_ex : minify no_u no_u same_u doc = Ok (Q_ "<!DOCTYPE html> <html lang=`en`> <title> A page </title> <script src=`a.js` async></script> <p class = 'x y'>Hello, <b>you</b> <img src=`a.png` width=10 height=20 /> <br/><svg><rect x=`1`/></svg>").
Proof. vm_compute. reflexivity. Qed.

Example C66_hyp_pre : exists ps, html_parts (Q_ "<body><pre class=`a`>x   y</pre> <p>  z") = Some ps /\ Forall part_safe ps /\
  html_blanks (Q_ "<body><pre class=`a`>x   y</pre> <p>  z") /\ Exists keeps_blanks ps.
Proof.
  destruct (html_parts (Q_ "<body><pre class=`a`>x   y</pre> <p>  z")) as [ps|] eqn:E; [|vm_compute in E; discriminate].
  exists ps. split; [reflexivity|]. vm_compute in E. injection E as <-. split; [|split].
  - apply safe_dec. vm_compute. reflexivity.
  - apply blanks_dec. vm_compute. reflexivity.
  - apply Exists_cons_tl, Exists_cons_hd. now left.
Qed.

(** Without the conditions the claim fails.  A slash after width becomes part of its value, and the tag
    is no longer self-closing. *)
Definition attributes_safe (p : part) : Prop :=
  match p with PComment c => ~ conditional c | PStart n l _ _ => Forall (attribute_safe n) l | _ => True end.

Theorem C66_slash_refuted : ~ forall wu du lu s ps t ts ts', lower_ok lu ->
  html_parts s = Some ps -> Forall attributes_safe ps -> html_blanks s -> minify wu du lu s = Ok t ->
  html_tokens s = Some ts -> html_tokens t = Some ts' -> content ts' = content ts.
Proof.
  intro H. specialize (H no_u no_u same_u (Q_ "<svg><rect width=`5`/></svg>")).
  eassert (K : _); [eapply H; clear H|].
  - exact same_ok.
  - vm_compute. reflexivity.
  - repeat constructor; cbn; try discriminate; apply occurs_dec; reflexivity.
  - apply blanks_dec. vm_compute. reflexivity.
  - vm_compute. reflexivity.
  - vm_compute. reflexivity.
  - vm_compute. reflexivity.
  - vm_compute in K. discriminate K.
Qed.

(** A value that ends with the name of an attribute to take out swallows the next attribute. *)
Definition ends_safe (p : part) : Prop :=
  match p with PComment c => ~ conditional c | PStart _ l w sl => end_safe l w sl | _ => True end.

Theorem C66_value_refuted : ~ forall wu du lu s ps t ts ts', lower_ok lu ->
  html_parts s = Some ps -> Forall ends_safe ps -> html_blanks s -> minify wu du lu s = Ok t ->
  html_tokens s = Some ts -> html_tokens t = Some ts' -> content ts' = content ts.
Proof.
  intro H. specialize (H no_u no_u same_u (Q_ "<script a=`type=` b=`c`></script>")).
  eassert (K : _); [eapply H; clear H|].
  - exact same_ok.
  - vm_compute. reflexivity.
  - constructor; [|constructor; [exact Logic.I | constructor]]. intro K. discriminate.
  - apply blanks_dec. vm_compute. reflexivity.
  - vm_compute. reflexivity.
  - vm_compute. reflexivity.
  - vm_compute. reflexivity.
  - vm_compute in K. discriminate K.
Qed.

(** Two no-break spaces become a space. *)
Theorem C66_blanks_refuted : ~ forall wu du lu s ps t ts ts', lower_ok lu ->
  html_parts s = Some ps -> Forall part_safe ps -> minify wu du lu s = Ok t ->
  html_tokens s = Some ts -> html_tokens t = Some ts' -> content ts' = content ts.
Proof.
  intro H. specialize (H no_u no_u same_u (S_ "a" ++ [0xA0; 0xA0] ++ S_ "b")).
  eassert (K : _); [eapply H; clear H|].
  - exact same_ok.
  - vm_compute. reflexivity.
  - repeat constructor.
  - vm_compute. reflexivity.
  - vm_compute. reflexivity.
  - vm_compute. reflexivity.
  - vm_compute in K. discriminate K.
Qed.

Print Assumptions C66_html_reads.
Print Assumptions C66_preformatted.
Print Assumptions C66_slash_refuted.
Print Assumptions C66_value_refuted.
Print Assumptions C66_blanks_refuted.
