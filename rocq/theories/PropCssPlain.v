(** C71: the minified text of a plain style sheet. *)
From Coq Require Import String Arith List NArith Bool.
From Verif Require Import Base CssModel CssPlainSpec CssPlainProofs3.
Import ListNotations.
Open Scope N_scope.

(** The output is the text [compact] of the parts that are written in the sheet. *)
Theorem C71_css_plain : forall letter_u l, plain letter_u start None l = true ->
  css_minify letter_u (text l) = Ok (compact letter_u start l).
Proof. exact css_plain. Qed.

(** The same parts, with gaps at the same places. *)
Fixpoint same_parts (l m : list item) : Prop :=
  match l, m with
  | [], [] => True
  | Between _ :: l', Between _ :: m' => same_parts l' m'
  | Piece p :: l', Piece q :: m' => p = q /\ same_parts l' m'
  | _, _ => False
  end.

Definition no_comment_first (l : list item) : bool :=
  match l with Between g :: _ => negb (existsb is_comment g) | _ => true end.

Lemma same_compact : forall letter_u l m x, last x <> None -> same_parts l m -> compact letter_u x l = compact letter_u x m.
Proof.
  intros u. induction l as [|[g|p] l IH]; intros [|[h|q] m] x N H; cbn [same_parts] in H; try contradiction; [reflexivity|..].
  - cbn [compact]. rewrite (IH m x N H). f_equal.
    assert (K : next_kind u x l = next_kind u x m).
    { destruct l as [|[|p] l], m as [|[|q] m]; cbn [same_parts] in H; try contradiction; try reflexivity. destruct H as [-> _]. reflexivity. }
    rewrite K. unfold stays. destruct (last x); [reflexivity|congruence].
  - destruct H as [-> H]. cbn [compact]. f_equal. apply IH; [cbn; discriminate | exact H].
Qed.

(** It does not matter which blanks, and how many of them, and which comments are in the gaps. *)
Corollary C71_css_plain_layout : forall letter_u l m,
  plain letter_u start None l = true -> plain letter_u start None m = true -> same_parts l m ->
  no_comment_first l = true -> no_comment_first m = true ->
  css_minify letter_u (text l) = css_minify letter_u (text m).
Proof.
  intros u l m H K E A B. rewrite (css_plain u l H), (css_plain u m K). f_equal.
  assert (F : forall l m, same_parts l m -> (match l with Between _ :: _ => False | _ => True end) -> compact u start l = compact u start m).
  { intros [|[g|p] l'] [|[h|q] m'] S T; cbn [same_parts] in S; try contradiction; [reflexivity|]. destruct S as [-> S]. cbn [compact]. f_equal.
    apply same_compact; [cbn; discriminate | exact S]. }
  destruct l as [|[g|p] l], m as [|[h|q] m]; cbn [same_parts] in E; try contradiction.
  - reflexivity.
  - cbn [no_comment_first] in A, B. apply negb_true_iff in A. apply negb_true_iff in B. cbn [compact]. unfold stays. cbn [last start]. rewrite A, B. cbn [app].
    apply F; [exact E|]. destruct l as [|[|]]; [exact I| |exact I]. cbn [plain] in H. now rewrite !andb_false_r in H.
  - apply F; [exact E | exact I].
Qed.

(** ** A sheet that is plain *)

Open Scope string_scope.
Definition ascii (_ : N) := false.
Definition b := Between [Blank 0x20].
Definition nl := Between [Blank 0xD; Blank 0xA; Blank 0x9; Blank 0x20].
Definition c (s : string) := Between [Comment (S_ s)].
Definition w (s : string) := Piece (Word (S_ s)).
Definition k (s : string) := Piece (Pseudo (S_ s)).
Definition i (s : string) := Piece (At (S_ s)).
Definition q (s : string) := Piece (Quoted (S_ s)).
Definition s (x : string) := Piece (Sign (hd 0%N (S_ x))).
Definition e (x : string) := Piece (Escape (hd 0%N (S_ x))).
Definition m (x : string) := Piece (Match (hd 0%N (S_ x))).

(** /*! v1 */ @media screen and (max-width : 100px) {
    a , .b#c > d  e:hover::after [ href $= 'x, y' ] i /* one */ /* two */ j {
    width : calc( 100% - ( 2px + 3px ) ) ; margin : 0 auto /* c */ ; } }
    @font-face { src : url( 'a.ttf' ) , local( b ) ; } ul * li { color : red ! important }
    .sm\:flex * .w-1\/2 a:hover { x :y } *)
Definition sheet : list item :=
  [ Piece (Licence 0x21 (S_ " v1 ")); nl;
    i "media"; b; w "screen"; b; w "and"; b; s "("; w "max-width"; b; s ":"; b; w "100px"; s ")"; b; s "{"; nl;
    w "a"; b; s ","; nl; w ".b#c"; b; s ">"; b; w "d"; Between [Blank 0x20; Blank 0x9]; w "e"; k "hover"; s ":"; k "after"; b;
    s "["; b; w "href"; b; m "$"; b; q "'x, y'"; b; s "]"; b; w "i"; Between [Blank 0x20; Comment (S_ " one "); Blank 0x20; Comment (S_ "/ two "); Blank 0xA]; w "j"; b; s "{"; nl;
    w "width"; b; s ":"; b; w "calc"; s "("; b; w "100%"; b; w "-"; b; s "("; b; w "2px"; b; s "+"; b; w "3px"; b; s ")"; b; s ")"; b; s ";"; nl;
    w "margin"; s ":"; b; w "0"; b; w "auto"; Between [Comment (S_ " c "); Blank 0x20]; s ";"; nl; s "}"; nl; s "}"; nl;
    i "font-face"; b; s "{"; nl; w "src"; b; s ":"; b; w "url"; s "("; b; q "'a.ttf'"; b; s ")"; b; s ","; b; w "local"; s "("; b; w "b"; b; s ")"; b; s ";"; nl; s "}"; nl;
    w "ul"; b; s "*"; b; w "li"; b; s "{"; b; w "color"; b; s ":"; b; w "red"; b; w "!"; b; w "important"; b; s "}"; nl;
    w ".sm"; e ":"; w "flex"; b; s "*"; b; w ".w-1"; e "/"; w "2"; b; w "a"; k "hover"; b; s "{"; b; w "x"; b; s ":"; w "y"; b; s "}" ].

Example C71_plain_ex : plain ascii start None sheet = true
  /\ css_minify ascii (text sheet) = Ok (S_ "/*! v1 */" ++ [0xA%N] ++
      S_ "@media screen and (max-width:100px){a,.b#c>d e:hover::after [href $= 'x, y'] i j{width:calc(100% - (2px + 3px ) );margin:0 auto;}}@font-face {src:url('a.ttf'),local(b);}ul * li{color:red ! important}.sm\:flex * .w-1\/2 a:hover{x:y}")%list.
Proof. vm_compute. split; reflexivity. Qed.

(** The same parts in another layout. *)
Definition relaid : list item :=
  map (fun x => match x with Between [Comment _; _] => c "" | Between _ => Between [Blank 0x9; Blank 0xA] | x => x end) sheet.

Example C71_layout_ex : plain ascii start None relaid = true /\ same_parts sheet relaid /\ text sheet <> text relaid.
Proof. split; [vm_compute; reflexivity|]. split; [cbn; tauto | vm_compute; discriminate]. Qed.

(** ** What is left out, and why *)

(** Without the conditions on gaps ([gap_ok]) the text is another one. *)
Fixpoint parts_only (letter_u : N -> bool) (x : place) (g : option (list filler)) (l : list item) : bool :=
  match l with
  | [] => true
  | Between g' :: r =>
      match g, g' with
      | None, _ :: _ => forallb filler_ok g' && parts_only letter_u x (Some g') r
      | _, _ => false
      end
  | Piece p :: r =>
      part_ok x p && match g with Some _ => true | None => direct_ok x p end && parts_only letter_u (step letter_u x p) None r
  end.

Theorem C71_gaps_refuted : ~ (forall l, parts_only ascii start None l = true ->
  css_minify ascii (text l) = Ok (compact ascii start l)).
Proof.
  intro H. specialize (H [w "a"; Between [Blank 0x20; Comment []]; s ","; w "b"] eq_refl). vm_compute in H. discriminate H.
Qed.

(** Each of the conditions is needed: a blank before a comment before a punctuation mark; the two
    characters of an operator apart; a blank between an at-keyword and a star; a comment in calc;
    a comment between a colon and a word in a selector; a blank before an escape. *)
Example C71_gaps_ex :
  let differs l := parts_only ascii start None l = true /\ css_minify ascii (text l) <> Ok (compact ascii start l) in
  differs [w "a"; Between [Blank 0x20; Comment []]; s ","; w "b"]
  /\ differs [w "a"; s "["; w "b"; s "*"; b; s "="; w "c"; s "]"]
  /\ differs [i "x"; b; s "*"]
  /\ differs [w "a"; s "{"; w "b"; s ":"; w "calc"; s "("; Between [Comment []]; w "1"; s ")"; s "}"]
  /\ differs [w "a"; s ":"; c ""; w "b"; b; s "*"]
  /\ differs [w "a"; b; e ":"; w "b"].
Proof. cbv zeta. repeat split; vm_compute; discriminate. Qed.

(** The text that is put out, as a text: a universal selector after a closing parenthesis loses the
    blank before it, so does a pseudo element, with which the sheet selects other elements. *)
Example C71_meaning_ex :
  css_minify ascii (S_ ":not(a) *{b:c}") = Ok (S_ ":not(a)*{b:c}")
  /\ css_minify ascii (S_ "a ::before{b:c}") = Ok (S_ "a::before{b:c}").
Proof. vm_compute. split; reflexivity. Qed.

Print Assumptions C71_css_plain.
Print Assumptions C71_css_plain_layout.
Print Assumptions C71_gaps_refuted.
