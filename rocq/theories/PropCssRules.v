(** C73: rules of style sheets and their layouts. *)
From Coq Require Import String Arith List NArith Bool.
From Verif Require Import Base CssModel CssPlainSpec CssRulesSpec CssRulesProofs2 CssRulesProofs3 CssRulesProofs5.
Import ListNotations.
Open Scope N_scope.

(** However the rules are laid out, the output is their canonical text. *)
Theorem C73_css_rules : forall letter_u a s, sheet_fine a = true -> laid_out None (sheet_chunks a) s ->
  css_minify letter_u s = Ok (canonical (sheet_chunks a)).
Proof. exact css_rules. Qed.

(** The output is a layout of the same rules, and minifying it again changes nothing. *)
Theorem C73_css_rules_again : forall letter_u a s t, sheet_fine a = true -> laid_out None (sheet_chunks a) s ->
  css_minify letter_u s = Ok t -> laid_out None (sheet_chunks a) t /\ css_minify letter_u t = Ok t.
Proof.
  intros u a s t F L E. rewrite (css_rules u a s F L) in E. injection E as <-. split; [now apply (sheet_laid u)|].
  apply css_rules; [exact F|now apply (sheet_laid u)].
Qed.

(** Sheets with different rules, in whatever layouts, have different outputs. *)
Theorem C73_css_rules_told : forall letter_u a b s t, sheet_fine a = true -> sheet_fine b = true ->
  laid_out None (sheet_chunks a) s -> laid_out None (sheet_chunks b) t ->
  css_minify letter_u s = css_minify letter_u t -> a = b.
Proof.
  intros u a b s t F F' L L' E. rewrite (css_rules u a s F L), (css_rules u b t F' L') in E. injection E as E. now apply rules_told.
Qed.

(** A text is a layout of one sheet only. *)
Corollary C73_one_reading : forall a b s, sheet_fine a = true -> sheet_fine b = true ->
  laid_out None (sheet_chunks a) s -> laid_out None (sheet_chunks b) s -> a = b.
Proof. intros a b s F F' L L'. exact (C73_css_rules_told (fun _ => false) a b s s F F' L L' eq_refl). Qed.

(** ** Writing a layout *)

(** The gaps before the parts, and the one at the end. *)
Fixpoint written (prev : option part) (l : list chunk) (g : list (list filler)) : option str :=
  match l, g with
  | [], [e] => if forallb filler_ok e && match prev with None => forallb is_blank e | _ => true end then Some (gap_text e) else None
  | (s, p) :: l', e :: g' =>
      if gap_fits prev s p e then match written (Some p) l' g' with Some r => Some (gap_text e ++ part_text p ++ r) | None => None end
      else None
  | _, _ => None
  end.

Lemma written_laid : forall l prev g s, written prev l g = Some s -> laid_out prev l s.
Proof.
  induction l as [|[sl p] l IH]; intros prev [|e g] s H; try discriminate; cbn [written] in H.
  - destruct g; [|discriminate]. destruct (forallb filler_ok e) eqn:F; [|discriminate]. cbn [andb] in H.
    destruct prev; [injection H as <-; now apply lo_end|]. destruct (forallb is_blank e) eqn:B; [|discriminate]. injection H as <-. now apply lo_end.
  - destruct (gap_fits prev sl p e) eqn:G; [|discriminate]. destruct (written (Some p) l g) eqn:W; [|discriminate]. injection H as <-.
    apply lo_part; [exact G|now apply (IH (Some p) g)].
Qed.

(** ** Examples *)

Open Scope string_scope.
Definition ascii (_ : N) := false.
Definition plain_tag (n : string) : compound := Compound (Some (Tag (S_ n))) [] [].
Definition w (s : string) : term := TWord (S_ s).

(** [a.b:hover > li:not(.c, d:nth-child(2n+1)) [href^='x'], * { margin: 0 calc(1px + 2 * (x - y)) ; color: rgb(1, 2, 3) } ...] *)
Definition sample : sheet :=
  [ Notice (S_ " licence of * this *");
    AtStatement (S_ "import") (CString (S_ "'a b.css'")) [(false, CWord (S_ "print"))];
    AtStatement (S_ "import") (CUrl (S_ "url") (Bare (S_ "//a.b/c.css?d=e"))) [(false, CWord (S_ "all"))];
    Rule {| selectors :=
              (Selector (Compound (Some (Tag (S_ "a"))) [Class (S_ "b")] [(PseudoClass (S_ "hover"), [])])
                [(Child, Compound (Some (Tag (S_ "li"))) []
                   [(Function (S_ "not")
                       (Among (Selector (Compound None [Class (S_ "c")] []) [])
                          [Selector (Compound (Some (Tag (S_ "d"))) [] [(Function (S_ "nth-child") (Nth (S_ "2n") (Some (S_ "1"))), [])]) []]), [])]);
                 (Descendant, Compound None [] [(HasAttribute (S_ "href") (Matches 0x5E (Text (S_ "'x'"))), [])])],
               [Selector (Compound (Some Any) [] []) []]);
            declarations :=
              [ {| property := S_ "margin"; set_to := Values (w "0") [(Space, TCalc (Sum (Value (S_ "1px")) [(0x2B, Value (S_ "2")); (0x2A, Parens (Sum (Value (S_ "x")) [(0x2D, Value (S_ "y"))]))]))] |};
                {| property := S_ "color"; set_to := Values (TCall (S_ "rgb") (Values (w "1") [(Comma, w "2"); (Comma, w "3")])) [(Space, w "!important")] |};
                {| property := S_ "background"; set_to := Values (TUrl (S_ "url") (Bare (S_ "data:image/png;base64,AB/+=="))) [(Space, w "0"); (Comma, TUrl (S_ "URL") (Text (S_ "'a b.png'")))] |} ];
            closed := true |};
    AtBlock (S_ "media") (Some (CWord (S_ "screen"), [(false, CWord (S_ "and")); (false, CFeature (S_ "max-width") (Some (S_ "9px"))); (true, CWord (S_ "print"))]))
      [ Ruled {| selectors := (Selector (plain_tag "p") [], []); declarations := [{| property := S_ "font"; set_to := Values (w "1px") [(Slash, w "2"); (Space, TString (S_ "'A B'"))] |}]; closed := false |} ];
    Notice (S_ " frames ");
    AtBlock (S_ "keyframes") (Some (CWord (S_ "k"), []))
      [ Ruled {| selectors := (Selector (plain_tag "from") [], []); declarations := [{| property := S_ "top"; set_to := Values (w "0") [] |}]; closed := false |};
        Frame (S_ "50%") [S_ "99.9%"] [{| property := S_ "top"; set_to := Values (w "-1px") [] |}] true ];
    AtBody (S_ "font-face") None
      [ {| property := S_ "font-family"; set_to := Values (TString (S_ "'A B'")) [] |};
        {| property := S_ "src"; set_to := Values (TCall (S_ "local") (Values (TString (S_ "'A'")) []))
             [(Comma, TUrl (S_ "url") (Bare (S_ "data:font/woff2;base64,AB"))); (Space, TCall (S_ "format") (Values (TString (S_ "'woff2'")) []))] |};
        {| property := S_ "font-weight"; set_to := Values (w "100") [(Space, w "900")] |} ] true;
    AtBody (S_ "page") (Some (CPage None (S_ "first"), [(true, CPage (Some (S_ "wide")) (S_ "left")); (true, CWord (S_ "long"))])) [{| property := S_ "margin"; set_to := Values (w "1cm") [(Space, w "2cm")] |}] false ].

Definition sp : list filler := [CssPlainSpec.Blank 0x20].
Definition nl : list filler := [CssPlainSpec.Blank 0xA; CssPlainSpec.Blank 0x9].
Definition no : list filler := [].
Definition remark : list filler := [Comment (S_ " x "); CssPlainSpec.Blank 0x20].

(** Every gap that may be there is there. *)
Definition wide (prev : option part) (s : slot) : list filler :=
  match s with Tight => no | Blanks | Spread => nl | _ => match prev with None => nl | _ => remark end end.
Fixpoint wide_gaps (prev : option part) (l : list chunk) : list (list filler) :=
  match l with [] => [nl] | (s, p) :: r => wide prev s :: wide_gaps (Some p) r end.

Definition wide_text : str := match written None (sheet_chunks sample) (wide_gaps None (sheet_chunks sample)) with Some s => s | None => [] end.

Example sample_fine : sheet_fine sample = true.
Proof. vm_compute. reflexivity. Qed.
Example sample_wide : laid_out None (sheet_chunks sample) wide_text.
Proof. apply (written_laid _ _ (wide_gaps None (sheet_chunks sample))). vm_compute. reflexivity. Qed.
Example wide_longer : (length wide_text > 2 * length (canonical (sheet_chunks sample)))%nat.
Proof. apply PeanoNat.Nat.ltb_lt. vm_compute. reflexivity. Qed.
Example sample_text : (canonical (sheet_chunks sample)
  = S_ "/*! licence of * this **/" ++ 0xA :: S_ "@import 'a b.css' print;@import url(//a.b/c.css?d=e) all;a.b:hover>li:not(.c,d:nth-child(2n+1)) [href^='x'],*{margin:0 calc(1px + 2 * (x - y));color:rgb(1,2,3) !important;background:url(data:image/png;base64,AB/+==) 0,URL('a b.png');}@media screen and (max-width:9px),print{p{font:1px/2 'A B'}}/*! frames */" ++ 0xA :: S_ "@keyframes k{from{top:0}50%,99.9%{top:-1px;}}@font-face {font-family:'A B';src:local('A'),url(data:font/woff2;base64,AB) format('woff2');font-weight:100 900;}@page :first,wide:left,long{margin:1cm 2cm}")%list.
Proof. vm_compute. reflexivity. Qed.
Example sample_minified : css_minify ascii wide_text = Ok (canonical (sheet_chunks sample)).
Proof. exact (C73_css_rules ascii sample wide_text sample_fine sample_wide). Qed.

(** ** What is left out *)

Definition one (c d : compound) : sheet :=
  [Rule {| selectors := (Selector c [(Descendant, d)], []); declarations := [{| property := S_ "x"; set_to := Values (w "y") [] |}]; closed := false |}].
Definition joint (c : compound) : sheet :=
  [Rule {| selectors := (Selector c [], []); declarations := [{| property := S_ "x"; set_to := Values (w "y") [] |}]; closed := false |}].

Definition before := (PseudoElement (S_ "before"), [] : list mark).

(** One blank where one is needed. *)
Definition least (l : list chunk) : list (list filler) := map (fun c => match fst c with Needed | Spread | AfterAt => sp | _ => no end) l ++ [no].

(** [a ::before] and [a::before] come out the same. *)
Theorem C73_descendant_refuted : exists a b s t, sheet_fine b = true /\ a <> b /\
  laid_out None (sheet_chunks a) s /\ laid_out None (sheet_chunks b) t /\
  s = S_ "a ::before{x:y}" /\ t = S_ "a::before{x:y}" /\ css_minify ascii s = Ok t /\ css_minify ascii t = Ok t.
Proof.
  exists (one (plain_tag "a") (Compound None [] [before])),
    (joint (Compound (Some (Tag (S_ "a"))) [] [before])), (S_ "a ::before{x:y}"), (S_ "a::before{x:y}").
  split; [reflexivity|]. split; [discriminate|].
  split; [apply (written_laid _ None (least (sheet_chunks (one (plain_tag "a") (Compound None [] [before]))))); vm_compute; reflexivity|].
  split; [apply (written_laid _ None (least (sheet_chunks (joint (Compound (Some (Tag (S_ "a"))) [] [before]))))); vm_compute; reflexivity|].
  repeat split; vm_compute; reflexivity.
Qed.

(** So do [* [b]] and [*[b]]. *)
Theorem C73_any_refuted : exists a b s t, sheet_fine b = true /\ a <> b /\
  laid_out None (sheet_chunks a) s /\ laid_out None (sheet_chunks b) t /\
  s = S_ "* [b]{x:y}" /\ t = S_ "*[b]{x:y}" /\ css_minify ascii s = Ok t /\ css_minify ascii t = Ok t.
Proof.
  exists (one (Compound (Some Any) [] []) (Compound None [] [(HasAttribute (S_ "b") Has, [])])),
    (joint (Compound (Some Any) [] [(HasAttribute (S_ "b") Has, [])])), (S_ "* [b]{x:y}"), (S_ "*[b]{x:y}").
  split; [reflexivity|]. split; [discriminate|].
  split; [apply (written_laid _ None (least (sheet_chunks (one (Compound (Some Any) [] []) (Compound None [] [(HasAttribute (S_ "b") Has, [])]))))); vm_compute; reflexivity|].
  split; [apply (written_laid _ None (least (sheet_chunks (joint (Compound (Some Any) [] [(HasAttribute (S_ "b") Has, [])]))))); vm_compute; reflexivity|].
  repeat split; vm_compute; reflexivity.
Qed.

(** [a:not(b) *] loses its blank, which leaves no selector at all. *)
Theorem C73_function_refuted : exists a s t, laid_out None (sheet_chunks a) s /\
  s = S_ "a:not(b) *{x:y}" /\ t = S_ "a:not(b)*{x:y}" /\ css_minify ascii s = Ok t.
Proof.
  exists (one (Compound (Some (Tag (S_ "a"))) [] [(Function (S_ "not") (Among (Selector (plain_tag "b") []) []), [])]) (Compound (Some Any) [] [])),
    (S_ "a:not(b) *{x:y}"), (S_ "a:not(b)*{x:y}").
  split; [apply (written_laid _ None (least (sheet_chunks (one (Compound (Some (Tag (S_ "a"))) [] [(Function (S_ "not") (Among (Selector (plain_tag "b") []) []), [])]) (Compound (Some Any) [] []))))); vm_compute; reflexivity|].
  repeat split; vm_compute; reflexivity.
Qed.

(** Where a layout may have nothing, more is kept: before a comma after an attribute selector, after a
    comment at the beginning, with a comment and a second one between a word and a brace. *)
Theorem C73_layouts_refuted :
  css_minify ascii (S_ "a[b] ,c{x:y}") = Ok (S_ "a[b] ,c{x:y}") /\ css_minify ascii (S_ "a[b],c{x:y}") = Ok (S_ "a[b],c{x:y}")
  /\ css_minify ascii (S_ "/*1*/a{x:y}") = Ok (S_ " a{x:y}")
  /\ css_minify ascii (S_ "a /*1*/ /*2*/{x:y}") = Ok (S_ "a {x:y}").
Proof. repeat split; vm_compute; reflexivity. Qed.

(** Addresses: what looks like a comment is one for the minifier, and a semicolon ends an at-rule,
    so that the blank before a media feature is lost. *)
Theorem C73_address_refuted :
  css_minify ascii (S_ "a{x:url(b/*c*/d)}") = Ok (S_ "a{x:url(b d)}")
  /\ css_minify ascii (S_ "@import url(data:text/css;base64,AB) all and (x:y);") = Ok (S_ "@import url(data:text/css;base64,AB) all and(x:y);")
  /\ css_minify ascii (S_ "@import url(data:text/css,AB) all and (x:y);") = Ok (S_ "@import url(data:text/css,AB) all and (x:y);").
Proof. repeat split; vm_compute; reflexivity. Qed.

(** Nested at-rules: within another at-rule the blank before a media feature is lost, which leaves
    no media query, and so are blanks in the selectors, which then select something else ([a :hover],
    [* .b]) or nothing ([a *]).  In a single at-rule they are kept. *)
Theorem C73_nested_refuted :
  css_minify ascii (S_ "@supports (a:b){@media screen and (c:d){e{x:y}}}") = Ok (S_ "@supports (a:b){@media screen and(c:d){e{x:y}}}")
  /\ css_minify ascii (S_ "@media screen and (c:d){e{x:y}}") = Ok (S_ "@media screen and (c:d){e{x:y}}")
  /\ css_minify ascii (S_ "@supports (a:b){@media print{a :hover{x:y}* .b{x:y}a *{x:y}}}") = Ok (S_ "@supports (a:b){@media print{a:hover{x:y}*.b{x:y}a*{x:y}}}")
  /\ css_minify ascii (S_ "@media print{a :hover{x:y}* .b{x:y}a *{x:y}}") = Ok (S_ "@media print{a :hover{x:y}* .b{x:y}a *{x:y}}").
Proof. repeat split; vm_compute; reflexivity. Qed.

(** Declarations in the block of an at-rule: the blanks in calc are lost, without which it is no sum,
    unless it follows the colon and a blank; a blank before the colon is kept if none follows. *)
Theorem C73_at_rule_refuted :
  css_minify ascii (S_ "@page{x:calc(1px + 2px)}") = Ok (S_ "@page {x:calc(1px+2px)}")
  /\ css_minify ascii (S_ "@page{x: calc(1px + 2px)}") = Ok (S_ "@page {x:calc(1px + 2px)}")
  /\ css_minify ascii (S_ "a{x:calc(1px + 2px)}") = Ok (S_ "a{x:calc(1px + 2px)}")
  /\ css_minify ascii (S_ "@page{x :y}") = Ok (S_ "@page {x :y}") /\ css_minify ascii (S_ "@page{x : y}") = Ok (S_ "@page {x:y}").
Proof. repeat split; vm_compute; reflexivity. Qed.

(** Escapes: the blank that ends an escape and the one behind it become one, so that [b] becomes part
    of the name; the blank before an escape is lost, and so is the one between an escaped name and a
    lone star, with which it is no selector.  Names as in [.sm\:flex] come through. *)
Theorem C73_escape_refuted :
  css_minify ascii (S_ ".\31  b{x:y}") = Ok (S_ ".\31 b{x:y}") /\ css_minify ascii (S_ "a \:b{x:y}") = Ok (S_ "a\:b{x:y}")
  /\ css_minify ascii (S_ ".w-1\/2 *{x:y}") = Ok (S_ ".w-1\/2*{x:y}")
  /\ css_minify ascii (S_ ".sm\:flex > .w-1\/2 * , a .b\: c{x:y}") = Ok (S_ ".sm\:flex>.w-1\/2*,a .b\: c{x:y}")
  /\ css_minify ascii (S_ ".sm\:flex:hover * .b{ x : y }") = Ok (S_ ".sm\:flex:hover * .b{x:y}").
Proof. repeat split; vm_compute; reflexivity. Qed.

Print Assumptions C73_css_rules.
Print Assumptions C73_css_rules_again.
Print Assumptions C73_css_rules_told.
Print Assumptions C73_one_reading.
Print Assumptions C73_descendant_refuted.
Print Assumptions C73_any_refuted.
Print Assumptions C73_function_refuted.
Print Assumptions C73_layouts_refuted.
Print Assumptions C73_address_refuted.
Print Assumptions C73_nested_refuted.
Print Assumptions C73_at_rule_refuted.
Print Assumptions C73_escape_refuted.
