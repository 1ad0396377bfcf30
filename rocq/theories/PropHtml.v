(** The theorems about the HTML minifier (src/html.rs).  The classes of characters outside
    ASCII ([wu]: [\w], [du]: [\d]) and their lower case ([lu]) are arbitrary; [lower_ok] is the
    one thing asked of the last. *)
From Coq Require Import String List NArith Bool Arith Lia Relations.
From Verif Require Import Base HtmlModel HtmlSpec HtmlProofs1 HtmlProofs2 HtmlProofs3 HtmlProofs4 HtmlProofs5
  HtmlProofs6 HtmlProofs7 HtmlTests.
Import ListNotations.
Open Scope N_scope.

Lemma same_ok : lower_ok same_u.
Proof.
  intros c Hc. split; [discriminate|]. intros x [<- | []] I. cbn in I.
  repeat (destruct I as [I | I]; [subst c; vm_compute in Hc; congruence|]). exact I.
Qed.

Definition nl : str := [0xA].
Definition dq : str := [0x22].

(** ** C42: comments *)

(** The specification, and nothing else, is what comes out. *)
Theorem C42_comments : forall s, exists t, remove_comments s = Ok t /\ forall t', uncommented s t' <-> t' = t.
Proof. exact remove_comments_spec. Qed.

(** Without a closed comment nothing changes. *)
Theorem C42_no_comment : forall s, (forall a c r, s <> a ++ S_ "<!--" ++ c ++ S_ "-->" ++ r) -> remove_comments s = Ok s.
Proof.
  intros s H. destruct (remove_comments_spec s) as (t & E & U). rewrite E. f_equal. symmetry. apply U.
  clear E U t. induction s as [|c s IH]; [constructor|]. apply rw_char.
  - intros m r E L. destruct L as [x r _]. apply (H [] x r). rewrite E, <- !app_assoc. reflexivity.
  - apply IH. intros a x r ->. exact (H (c :: a) x r eq_refl).
Qed.

(** A second pass finds nothing more to do. *)
Theorem C42_idempotent : forall s t, remove_comments s = Ok t -> remove_comments t = Ok t.
Proof.
  intros s t E. destruct (remove_comments_spec s) as (t1 & E1 & U1). rewrite E in E1. injection E1 as <-.
  destruct (remove_comments_spec t) as (t2 & E2 & U2). rewrite E2. f_equal. symmetry. apply U2.
  apply (uncommented_idem s). apply U1. reflexivity.
Qed.

Example C42_ex : remove_comments (S_ "a<!-- x --><b><!--[if IE]>c<![endif]--><!---->d<!-- e")
  = Ok (S_ "a <b><!--[if IE]>c<![endif]--> d<!-- e").
Proof. vm_compute. reflexivity. Qed.

(** [<!-->] does not close the comment it opens. *)
Example C42_ex2 : remove_comments (S_ "<!--><p>x</p><!-- y -->z") = Ok (S_ " z").
Proof. vm_compute. reflexivity. Qed.

(** ** C43: tags left out *)

(** Only tags of the list are taken out, wherever they stand. *)
Theorem C43_only_drops : forall s, clos_refl_trans str drops s (clean_unneeded_tags s).
Proof. exact clean_drops. Qed.

Theorem C43_nothing_to_drop : forall s, (forall t, droppable t -> ~ occurs t s) -> clean_unneeded_tags s = s.
Proof. exact clean_none. Qed.

(** A document in which every [<] is closed before the next: exactly its tags of the list go,
    and none is left. *)
Theorem C43_document : forall ps, Forall piece ps -> exists qs, kept ps qs /\
  clean_unneeded_tags (concat ps) = concat qs /\ forall t, droppable t -> ~ occurs t (concat qs).
Proof.
  intros ps H. assert (exists qs, kept ps qs) as (qs & K).
  { clear H. induction ps as [|p ps (qs & K)]; [exists []; constructor|].
    destruct (inb useless_tags p) eqn:E.
    - apply inb_iff, useless_iff in E. exists qs. now constructor.
    - exists (p :: qs). constructor; [|exact K]. intro D. apply useless_iff, inb_iff in D. congruence. }
  exists qs. split; [exact K|]. split; [exact (clean_pieces ps qs H K) | exact (clean_gone ps qs H K)].
Qed.

(** In other documents one pass may leave, or make, such a tag. *)
Theorem C43_all_gone_refuted : ~ forall s t, droppable t -> ~ occurs t (clean_unneeded_tags s).
Proof.
  intro H. apply (H (S_ "<bo<body>dy>") (S_ "<body>")).
  - left. exists (S_ "body"). split; [now left | reflexivity].
  - exists [], []. vm_compute. reflexivity.
Qed.

Example C43_ex : clean_unneeded_tags (S_ "<html><ul><li>a > b</li></ul></html>") = S_ "<ul><li>a > b</ul>".
Proof. vm_compute. reflexivity. Qed.

Example C43_ex_pieces : Forall piece (map S_ ["<html>"; "<ul>"; "<li>"; "a > b"; "</li>"; "</ul>"; "</html>"]%string).
Proof.
  assert (T : forall x, ~ In lt (S_ x) -> ~ In gt (S_ x) -> piece ([lt] ++ S_ x ++ [gt])) by (intros; now constructor).
  constructor; [apply (T "html"%string); cbn; intuition discriminate|].
  constructor; [apply (T "ul"%string); cbn; intuition discriminate|].
  constructor; [apply (T "li"%string); cbn; intuition discriminate|].
  constructor; [apply p_text; cbn; intuition discriminate|].
  constructor; [apply (T "/li"%string); cbn; intuition discriminate|].
  constructor; [apply (T "/ul"%string); cbn; intuition discriminate|].
  constructor; [apply (T "/html"%string); cbn; intuition discriminate | constructor].
Qed.

(** ** C44: white space *)

(** With a textarea or pre tag (in upper or lower case) only the ends are trimmed. *)
Theorem C44_preformatted : forall lu s, lower_ok lu -> preformatted s ->
  forall t, trims s t <-> t = condense_whitespace lu s.
Proof.
  intros lu s HL P. destruct (condense_whitespace_spec lu s HL) as [[_ T]|[N _]]; [|contradiction].
  intro t. split; [|intros ->; exact T]. intro T'. exact (trims_det _ _ _ T' T).
Qed.

(** Otherwise runs of white space shrink as specified. *)
Theorem C44_squeezed : forall lu s, lower_ok lu -> ~ preformatted s ->
  forall t, squeezed None s t <-> t = condense_whitespace lu s.
Proof.
  intros lu s HL P. destruct (condense_whitespace_spec lu s HL) as [[N _]|[_ Q]]; [contradiction|].
  intro t. split; [|intros ->; exact Q]. intro Q'. exact (squeezed_det _ _ _ Q' _ Q).
Qed.

(** In particular. *)
Theorem C44_shape : forall lu s, lower_ok lu -> ~ preformatted s ->
  let t := condense_whitespace lu s in
  tidy t /\ ~ In 0xD t /\ ~ In line_end t /\ skeleton t = skeleton s /\ (length t <= length s)%nat.
Proof.
  intros lu s HL P t. pose proof (proj2 (C44_squeezed lu s HL P t) eq_refl) as Q.
  destruct (squeezed_tidy _ _ _ Q) as (A & B & C), (squeezed_skeleton _ _ _ Q) as [D E]. tauto.
Qed.

(** Line ends inside scripts go as well: a line comment swallows the code after it. *)
Definition commented_out (t code : str) : Prop :=
  exists a b c, t = a ++ S_ "//" ++ b ++ code ++ c /\ ~ In line_end b.

(** A check for it. *)
Fixpoint first_line (s : str) : str :=
  match s with c :: r => if c =? line_end then [] else c :: first_line r | [] => [] end.

Fixpoint scan_comments (code s : str) : bool :=
  match strip (S_ "//") s with Some r => contains code (first_line r) | None => false end
  || match s with [] => false | _ :: s' => scan_comments code s' end.

Lemma first_line_app : forall b r, ~ In line_end b -> first_line (b ++ r) = b ++ first_line r.
Proof.
  induction b as [|c b IH]; intros r H; [reflexivity|]. cbn [app first_line].
  destruct (N.eqb_spec c line_end) as [-> | Ne]; [exfalso; apply H; now left|].
  f_equal. apply IH. intro I. apply H. now right.
Qed.

Lemma commented_out_scan : forall s code, ~ In line_end code -> commented_out s code -> scan_comments code s = true.
Proof.
  intros s code Hc (a & b & c & -> & Nb). induction a as [|x a IH].
  - cbn [app]. change (S_ "//" ++ b ++ code ++ c) with (0x2F :: 0x2F :: b ++ code ++ c).
    cbn [scan_comments strip S_]. replace (strip (S_ "//") (0x2F :: 0x2F :: b ++ code ++ c)) with (Some (b ++ code ++ c)) by reflexivity.
    apply orb_true_iff. left. apply contains_spec. rewrite !first_line_app by assumption. exists b, (first_line c). reflexivity.
  - cbn [app scan_comments]. rewrite IH. apply orb_true_r.
Qed.

Theorem C44_script_lines_refuted : ~ forall wu du lu s t code, lower_ok lu ->
  minify wu du lu s = Ok t -> code <> [] -> ~ commented_out s code -> ~ commented_out t code.
Proof.
  intro H.
  apply (H no_u no_u same_u (S_ "<script>" ++ nl ++ S_ "// say hello" ++ nl ++ S_ "hello()</script>")
           (S_ "<script> // say hello hello()</script>") (S_ "hello()") same_ok).
  - vm_compute. reflexivity.
  - discriminate.
  - intro K. apply commented_out_scan in K; [discriminate K|]. vm_compute. intuition discriminate.
  - exists (S_ "<script> "), (S_ " say hello "), (S_ "</script>"). split; [vm_compute; reflexivity|].
    vm_compute. intuition discriminate.
Qed.

Example C44_ex : condense_whitespace same_u (S_ "<p>  <b> a" ++ nl ++ S_ " b</b>" ++ [0x9] ++ S_ "<i>" ++ [0x9] ++ S_ "c</i></p>")
  = S_ "<p> <b> a b</b> <i>" ++ [0x9] ++ S_ "c</i></p>".
Proof. vm_compute. reflexivity. Qed.

Example C44_ex_pre : condense_whitespace same_u (S_ "  <PRE>a   b</PRE>" ++ nl) = S_ "<PRE>a   b</PRE>".
Proof. vm_compute. reflexivity. Qed.

Example C44_hyp : ~ preformatted (S_ "<p>  <b>") /\ preformatted (S_ "<PRE>").
Proof.
  split.
  - intros H. assert (K : contains (S_ "<textarea") (to_lowercase same_u (S_ "<p>  <b>")) = true \/
                          contains (S_ "<pre") (to_lowercase same_u (S_ "<p>  <b>")) = true).
    { destruct H as [H | H]; [left | right]; apply (contains_lower same_u); try exact H; try exact same_ok; try discriminate;
        cbn; intuition. }
    destruct K as [K | K]; discriminate K.
  - right. exists [], (S_ "<PRE"), (S_ ">"). split; reflexivity.
Qed.

(** ** C45: the whole *)

(** Every source is minified; the stages follow one another as specified. *)
Theorem C45_minify : forall wu du lu s, lower_ok lu ->
  exists a b d e t, minify wu du lu s = Ok t /\
    uncommented s a /\ untyped wu a b /\
    ((preformatted (clean_unneeded_tags b) /\ trims (clean_unneeded_tags b) d /\
      rewrites (start_tag wu) tag_out d e) \/
     (~ preformatted (clean_unneeded_tags b) /\ squeezed None (clean_unneeded_tags b) d /\
      rewrites (start_tag wu) tidy_tag_out d e)) /\
    trims e t.
Proof. exact minify_spec. Qed.

(** No white space at the ends, and, without preformatted text, none of two or more in a row
    and no line ends. *)
Theorem C45_output : forall wu du lu s, lower_ok lu -> exists t, minify wu du lu s = Ok t /\ trimmed t /\
  (tidy t /\ ~ In 0xD t /\ ~ In line_end t \/
   exists a b, uncommented s a /\ untyped wu a b /\ preformatted (clean_unneeded_tags b)).
Proof.
  intros wu du lu s HL. destruct (minify_spec wu du lu s HL) as (a & b & d & e & t & E & H1 & H2 & H3 & H4).
  exists t. split; [exact E|]. split; [exact (proj1 H4)|].
  destruct H3 as [(P & _) | (_ & Q & R)]; [right; exists a, b; auto|]. left.
  refine (tidy_trims e t H4 _). apply (tags_tidy wu d e R). exact (squeezed_tidy _ _ _ Q).
Qed.

(** Minified twice is not minified once. *)
Theorem C45_idempotent_refuted : ~ forall wu du lu s t, lower_ok lu ->
  minify wu du lu s = Ok t -> minify wu du lu t = Ok t.
Proof.
  intro H. specialize (H no_u no_u same_u (S_ "<bo<body>dy>") (S_ "<body>") same_ok eq_refl).
  vm_compute in H. discriminate.
Qed.

(** ** C51: start tags *)

(** The text around start tags is copied; in them only white space changes, and quotation marks
    around simple values of width and height go. *)
Theorem C51_attributes : forall wu du s, exists e t, unquote_attributes wu du s = Ok t /\
  rewrites (start_tag wu) tag_out s e /\ trims e t.
Proof.
  intros wu du s. destruct (unquote_spec wu du s) as (e & E & R & _). exists e, (trim e).
  split; [exact E|]. split; [exact R | apply trim_trims].
Qed.

(** Exactly so when no white space is doubled. *)
Theorem C51_attributes_tidy : forall wu du s, tidy s -> exists e t, unquote_attributes wu du s = Ok t /\
  (forall e', rewrites (start_tag wu) tidy_tag_out s e' <-> e' = e) /\ trims e t.
Proof.
  intros wu du s T. destruct (unquote_spec wu du s) as (e & E & _ & H). exists e, (trim e).
  split; [exact E|]. split; [exact (H T) | apply trim_trims].
Qed.

(** The text of another attribute is not safe: what looks like one inside it is changed. *)
Theorem C51_other_attribute_refuted : ~ forall wu du lu v t, lower_ok lu -> ~ In squote v -> ~ In gt v -> ~ In lt v -> tidy v ->
  minify wu du lu (S_ "<p title='" ++ v ++ S_ "'>") = Ok t -> occurs v t.
Proof.
  intro H. specialize (H no_u no_u same_u (S_ "width=" ++ dq ++ S_ "5" ++ dq) (S_ "<p title='width=5'>") same_ok).
  assert (K : occurs (S_ "width=" ++ dq ++ S_ "5" ++ dq) (S_ "<p title='width=5'>")).
  { apply H; try (vm_compute; intuition discriminate; fail).
    intros a b c d E [B C].
    assert (I : In b (S_ "width=" ++ dq ++ S_ "5" ++ dq)) by (rewrite E; apply in_app_iff; right; now left).
    vm_compute in I. repeat (destruct I as [<- | I]; [discriminate B|]). contradiction. }
  apply contains_spec in K. discriminate K.
Qed.

(** Doubled white space between two words of a start tag, which only a text with pre or textarea has
    at this point, is not always shortened: a blank and a tabulator are, two tabulators are not, and
    neither is what follows a word of one character that ends another such gap.  A tag with a line end
    is not taken for one. *)
Theorem C51_white_space_refuted :
  minify no_u no_u same_u (S_ "<pre aa" ++ [0x20; 0x9] ++ S_ "bb>") = Ok (S_ "<pre aa bb>")
  /\ minify no_u no_u same_u (S_ "<pre aa" ++ [0x9; 0x20; 0x20] ++ S_ "bb>") = Ok (S_ "<pre aa bb>")
  /\ minify no_u no_u same_u (S_ "<pre aa" ++ [0x9; 0x9] ++ S_ "bb>") = Ok (S_ "<pre aa" ++ [0x9; 0x9] ++ S_ "bb>")
  /\ minify no_u no_u same_u (S_ "<pre aa  bb>") = Ok (S_ "<pre aa bb>")
  /\ minify no_u no_u same_u (S_ "<pre a  b>") = Ok (S_ "<pre a  b>")
  /\ minify no_u no_u same_u (S_ "<pre aa" ++ [0x20; 0xA] ++ S_ "bb>") = Ok (S_ "<pre aa" ++ [0x20; 0xA] ++ S_ "bb>").
Proof. vm_compute. repeat split; reflexivity. Qed.

Example C51_ex : unquote_attributes no_u no_u
    (S_ "<img width=" ++ dq ++ S_ "10" ++ dq ++ S_ "  alt=" ++ dq ++ S_ "x" ++ dq ++ S_ " > 3 < 4")
  = Ok (S_ "<img width=10 alt=" ++ dq ++ S_ "x" ++ dq ++ S_ "> 3 < 4").
Proof. vm_compute. reflexivity. Qed.

(** ** C52: the type attribute *)

Theorem C52_type : forall wu s, exists t, condense wu s = Ok t /\ forall t', untyped wu s t' <-> t' = t.
Proof. exact condense_spec. Qed.

(** Text without the start of a script or style tag is not changed. *)
Theorem C52_elsewhere : forall wu s, ~ occurs (S_ "<style") s -> ~ occurs (S_ "<script") s -> condense wu s = Ok s.
Proof.
  intros wu s H1 H2. destruct (condense_spec wu s) as (t & E & U). rewrite E. f_equal. symmetry. apply U.
  clear E U t. induction s as [|c s IH]; [constructor|]. apply rw_char.
  - intros m r E L. destruct L as [name x body r I _ _ _]. rewrite <- app_assoc in E.
    destruct I as [<- | [<- | []]]; [apply H1 | apply H2]; exists []; eexists; exact E.
  - apply IH; intros (a & b & ->); [apply H1 | apply H2]; exists (c :: a), b; reflexivity.
Qed.

(** The type of a script is dropped also when it matters, and so is the end of other names. *)
Theorem C52_module_refuted : ~ forall wu du lu s t, lower_ok lu -> minify wu du lu s = Ok t ->
  occurs (S_ "module") s -> occurs (S_ "module") t.
Proof.
  intro H. assert (K : occurs (S_ "module") (S_ "<script>import a</script>")).
  { apply (H no_u no_u same_u (S_ "<script type=" ++ dq ++ S_ "module" ++ dq ++ S_ ">import a</script>") _ same_ok).
    - vm_compute. reflexivity.
    - exists (S_ "<script type=" ++ dq), (dq ++ S_ ">import a</script>"). reflexivity. }
  apply contains_spec in K. discriminate K.
Qed.

Example C52_ex_data : condense no_u (S_ "<script data-type=" ++ dq ++ S_ "x" ++ dq ++ S_ " src=a.js>") = Ok (S_ "<script data- src=a.js>").
Proof. vm_compute. reflexivity. Qed.

(** ** C53: the result is not longer *)
Theorem C53_html_size : forall wu du lu s t, lower_ok lu -> minify wu du lu s = Ok t -> (length t <= length s)%nat.
Proof. exact minify_length. Qed.

Print Assumptions C42_comments.
Print Assumptions C42_no_comment.
Print Assumptions C42_idempotent.
Print Assumptions C43_only_drops.
Print Assumptions C43_nothing_to_drop.
Print Assumptions C43_document.
Print Assumptions C43_all_gone_refuted.
Print Assumptions C44_preformatted.
Print Assumptions C44_squeezed.
Print Assumptions C44_shape.
Print Assumptions C44_script_lines_refuted.
Print Assumptions C45_minify.
Print Assumptions C45_output.
Print Assumptions C45_idempotent_refuted.
Print Assumptions C51_attributes.
Print Assumptions C51_attributes_tidy.
Print Assumptions C51_other_attribute_refuted.
Print Assumptions C51_white_space_refuted.
Print Assumptions C52_type.
Print Assumptions C52_elsewhere.
Print Assumptions C52_module_refuted.
Print Assumptions C53_html_size.
