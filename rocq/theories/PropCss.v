(** Properties of the CSS API (C13-C20, C06 for CSS).  [alpha] is [char::is_alphabetic]
    outside ASCII; every theorem holds for all of its values. *)
From Coq Require Import String Arith List NArith ZArith Bool Lia.
From Verif Require Import Base CssModel CssSpec CssProofs3 CssProofs4 CssProofs5 CssProofs6.
Import ListNotations.
Open Scope N_scope.

(** C13: no panic, no lack of fuel: the result is a text or an error. *)
Theorem C13_css_total : forall alpha s,
  (exists o, css_minify alpha s = Ok o) \/ (exists m, css_minify alpha s = Err m).
Proof.
  intros alpha s. pose proof (css_minify_cases alpha s) as H. destruct (css_problem s); [eauto|].
  destruct H as (v & _ & H). eauto.
Qed.

Example C13_example : (* a comment and a string made of multi-byte characters *)
  css_minify (fun _ => true) ([0xE9; 0x20; 0x2F; 0x2A; 0x1F600; 0x2A; 0x2F; 0x22; 0xE9; 0x22])
  = Ok [0xE9; 0x20; 0x22; 0xE9; 0x22].
Proof. vm_compute. reflexivity. Qed.

(** C14: the errors are exactly the problems met by scanning the source. *)
Theorem C14_css_errors : forall alpha s m,
  css_minify alpha s = Err m <-> css_problem s = Some m.
Proof.
  intros alpha s m. pose proof (css_minify_cases alpha s) as H. destruct (css_problem s) as [m'|].
  - rewrite H. split; congruence.
  - destruct H as (v & _ & H). rewrite H. split; discriminate.
Qed.

(** What the problems are, in terms of the text: a problem is reported iff a bracket or brace
    is unbalanced at some point, or a literal or comment is open at the end. *)
Theorem C14_css_accepts : forall alpha s,
  (exists o, css_minify alpha s = Ok o) <-> css_problem s = None.
Proof.
  intros alpha s. pose proof (css_minify_cases alpha s) as H. destruct (css_problem s) as [m|].
  - split; [intros [o Ho]; congruence|discriminate].
  - destruct H as (v & _ & H). split; [reflexivity|eauto].
Qed.

Example C14_examples :
  let f := css_minify (fun _ => false) in
  f (S_ "a{b:'c}") = Err (S_ "Unclosed string") /\
  f (S_ "a{b:c/*}") = Err (S_ "Unclosed comment") /\
  f (S_ "a[[b]") = Err (S_ "Already in attribute selector") /\
  f (S_ "a]") = Err (S_ "Unexpected ']'") /\
  f (S_ "a}{") = Err (S_ "Too much '}'") /\
  f (S_ "a{b:'}]'/*}*/;c:\]") = Ok (S_ "a{b:'}]';c:\]").
Proof. vm_compute. auto 10. Qed.

(** C15: the lexical items are the same, and no literal is left open. *)
Theorem C15_css_items : forall alpha s o,
  css_minify alpha s = Ok o -> regular s -> items o = items s /\ snd (lex o) = None.
Proof. intros alpha s o H Hr. destruct (css_main alpha s o H Hr) as (A & B & _). auto. Qed.

(** Any other layout of the same items that also succeeds gives the same items: the layout
    of the source does not matter. *)
Theorem C15_css_layout : forall alpha s s' o o',
  regular s -> regular s' -> items s = items s' ->
  css_minify alpha s = Ok o -> css_minify alpha s' = Ok o' -> items o = items o'.
Proof.
  intros alpha s s' o o' H H' E M M'.
  destruct (C15_css_items _ _ _ M H) as [-> _]. destruct (C15_css_items _ _ _ M' H') as [-> _]. exact E.
Qed.

(** The acceptance automaton decides regularity, which makes concrete cases computable. *)
Lemma regular_by_run : forall s h, hrun HN (fst (lex s)) = Some h -> regular s.
Proof. intros s h H. unfold regular. eapply hrun_regular. exact H. Qed.

Definition c15_source : str := S_ "@media screen{ a > .b::after , p[x ^= 'q r'] /* c */ { margin : calc( 1px + (2px * 3) ) ; x : \ab y } }/*! L */".

Example C15_example : regular c15_source /\
  css_minify (fun _ => false) c15_source =
    Ok (S_ "@media screen{a>.b::after,p[x ^= 'q r'] {margin:calc(1px + (2px * 3) );x:\ab y}}/*! L */" ++ [10]) /\
  firstn 4 (items c15_source) = [IWord (S_ "@media"); IWord (S_ "screen"); IPunct 0x7B; IWord (S_ "a")] /\
  length (items c15_source) = 38%nat.
Proof.
  split; [eapply regular_by_run; vm_compute; reflexivity|]. vm_compute. auto.
Qed.

(** C16: each of the three excluded layouts is really damaged. *)
Theorem C16_css_slash_star_equal : exists s o, slash_star_equal (fst (lex s)) /\
  (forall alpha, css_minify alpha s = Ok o) /\ items o <> items s /\
  (forall alpha, css_minify alpha o = Err (S_ "Unclosed comment")).
Proof.
  exists (S_ "/ *="), (S_ "/*="). split; [|split; [|split]].
  - exists [], [PBlank], []. split; [reflexivity|]. repeat constructor.
  - intro. vm_compute. reflexivity.
  - vm_compute. discriminate.
  - intro. vm_compute. reflexivity.
Qed.

Theorem C16_css_blank_before_escape : exists s o, blank_before_escape (fst (lex s)) /\
  (forall alpha, css_minify alpha s = Ok o) /\
  items s = [IWord (S_ "a"); IWord (S_ "\b")] /\ items o = [IWord (S_ "a\b")].
Proof.
  exists (S_ "a \b"), (S_ "a\b"). split; [|split; [|split]].
  - exists [], (PChar 0x61), [PBlank], [PChar 0x62]. split; [reflexivity|]. split; [right; eauto|].
    split; [discriminate|]. repeat constructor.
  - intro. vm_compute. reflexivity.
  - reflexivity.
  - reflexivity.
Qed.

Theorem C16_css_escape_in_at_keyword : exists s o, escape_in_at_keyword (fst (lex s)) /\
  (forall alpha, css_minify alpha s = Ok o) /\
  items s = [IWord (S_ "@a\b")] /\ items o = [IWord (S_ "@a"); IWord (S_ "\b")].
Proof.
  exists (S_ "@a\b"), (S_ "@a \b"). split; [|split; [|split]].
  - exists [], [0x61], [PChar 0x62]. split; [reflexivity|]. split; [discriminate|]. exact run_starts_nil.
  - intro. vm_compute. reflexivity.
  - reflexivity.
  - reflexivity.
Qed.

(** C17: licence comments are kept with their bodies, in order; no other comment is left. *)
Theorem C17_css_licences : forall alpha s o,
  css_minify alpha s = Ok o -> regular s -> licences o = licences s /\ comments o = [].
Proof. intros alpha s o H Hr. destruct (css_main alpha s o H Hr) as (_ & _ & A & B & _). auto. Qed.

Definition c17_source : str := S_ "/*! a */ b /* c */ { /** d * / **/ e : '/*! f */' }".
Example C17_example : regular c17_source /\
  licences c17_source = [S_ " a "; S_ " d * / *"] /\ comments c17_source = [S_ " c "] /\
  css_minify (fun _ => false) c17_source =
    Ok (S_ "/*! a */" ++ [10] ++ S_ "b {/*! d * / **/" ++ [10] ++ S_ "e:'/*! f */'}").
Proof. split; [eapply regular_by_run; vm_compute; reflexivity|]. vm_compute. auto. Qed.

(** C18: the output can be minified again, and keeps the items. *)
Theorem C18_css_again : forall alpha s o,
  css_minify alpha s = Ok o -> regular s ->
  regular o /\ exists o', css_minify alpha o = Ok o' /\ items o' = items o.
Proof.
  intros alpha s o H Hr. split; [destruct (css_main alpha s o H Hr) as (_ & _ & _ & _ & A & _); exact A|].
  destruct (css_again alpha s o H Hr) as (o' & A & B & _). eauto.
Qed.

(** Any number of further runs. *)
Fixpoint css_runs (alpha : N -> bool) (n : nat) (s : str) : outcome str :=
  match n with O => Ok s | S n => let! o := css_minify alpha s in css_runs alpha n o end.

Theorem C18_css_iterate : forall alpha n s o,
  css_minify alpha s = Ok o -> regular s ->
  exists o', css_runs alpha n o = Ok o' /\ items o' = items s /\ licences o' = licences s.
Proof.
  intros alpha n. induction n as [|n IH]; intros s o H Hr.
  - exists o. destruct (css_main alpha s o H Hr) as (A & _ & B & _). auto.
  - destruct (C18_css_again _ _ _ H Hr) as (Hro & o1 & H1 & _).
    destruct (IH _ _ H1 Hro) as (o2 & A & B & C). exists o2. cbn [css_runs]. rewrite H1. cbn [obind].
    split; [exact A|]. destruct (css_main alpha s o H Hr) as (E & _ & F & _). split; congruence.
Qed.

Example C18_example :
  css_runs (fun _ => false) 2 (S_ "/*a*/b{c:d}") = Ok (S_ "b{c:d}").
Proof. vm_compute. reflexivity. Qed.

(** C19: not idempotent, can grow; but by at most one character per at sign and licence. *)
Theorem C19_css_not_idempotent : exists s o o', regular s /\
  (forall alpha, css_minify alpha s = Ok o /\ css_minify alpha o = Ok o') /\ o' <> o.
Proof.
  exists (S_ "/*a*/b"), (S_ " b"), (S_ "b"). split; [eapply regular_by_run; vm_compute; reflexivity|].
  split; [intro; vm_compute; auto|discriminate].
Qed.

Theorem C19_css_can_grow : exists s o, regular s /\
  (forall alpha, css_minify alpha s = Ok o) /\ (length s < length o)%nat.
Proof.
  exists (S_ "@a{}"), (S_ "@a {}"). split; [eapply regular_by_run; vm_compute; reflexivity|].
  split; [intro; vm_compute; reflexivity|vm_compute; lia].
Qed.

Theorem C19_css_bound : forall alpha s o, css_minify alpha s = Ok o ->
  (length o <= length s + count_occ N.eq_dec s 0x40%N + length (licences s))%nat.
Proof.
  intros alpha s o H. pose proof (css_length alpha s o H) as L.
  assert (E : forall l, ats l = count_occ N.eq_dec l 0x40%N).
  { induction l as [|c l IH]; [reflexivity|]. rewrite ats_cons. cbn [count_occ]. rewrite IH.
    destruct (N.eqb_spec c 64), (N.eq_dec c 64); lia || congruence. }
  rewrite E in L. exact L.
Qed.

(** The bound is reached. *)
Example C19_bound_tight :
  let s := S_ "@a{@b{}}/**x*/" in
  count_occ N.eq_dec s 0x40 = 2%nat /\ length (licences s) = 1%nat /\
  css_minify (fun _ => false) s = Ok (S_ "@a {@b {}}/*!x*/" ++ [10]) /\
  length (S_ "@a {@b {}}/*!x*/" ++ [10]) = (length s + 3)%nat.
Proof. vm_compute. auto. Qed.

(** C20: between two neighbouring words a separator stays. *)
Lemma items_word_gap : forall ps w l1 a b l2,
  items_from w ps = l1 ++ IWord a :: IWord b :: l2 ->
  exists p1 g p2, ps = p1 ++ g :: p2 /\ separator g /\
    items_from w p1 = l1 ++ [IWord a] /\ items_from [] p2 = IWord b :: l2.
Proof.
  assert (Hone : forall ps w l1 a b l2 (x : option item),
    (match x with Some (IWord _) => False | _ => True end) ->
    (forall l1 a b l2, items_from [] ps = l1 ++ IWord a :: IWord b :: l2 ->
       exists p1 g p2, ps = p1 ++ g :: p2 /\ separator g /\
       items_from [] p1 = l1 ++ [IWord a] /\ items_from [] p2 = IWord b :: l2) ->
    flush w (match x with Some i => i :: items_from [] ps | None => items_from [] ps end)
      = l1 ++ IWord a :: IWord b :: l2 ->
    (x = None /\ w <> [] /\ l1 = [] /\ w = a /\ items_from [] ps = IWord b :: l2) \/
    exists p1 g p2, ps = p1 ++ g :: p2 /\ separator g /\ items_from [] p2 = IWord b :: l2 /\
      flush w (match x with Some i => i :: items_from [] p1 | None => items_from [] p1 end) = l1 ++ [IWord a]).
  { intros ps w l1 a b l2 x Hx IH H.
    assert (Hmid : forall m, match x with Some i => i :: items_from [] ps | None => items_from [] ps end = m ++ IWord a :: IWord b :: l2 ->
      exists p1 g p2, ps = p1 ++ g :: p2 /\ separator g /\ items_from [] p2 = IWord b :: l2 /\
      match x with Some i => i :: items_from [] p1 | None => items_from [] p1 end = m ++ [IWord a]).
    { intros m E. destruct x as [i|].
      - destruct m as [|i' m]; cbn in E.
        + injection E as -> _. contradiction.
        + injection E as <- E. destruct (IH _ _ _ _ E) as (p1 & g & p2 & A & B & C & D).
          exists p1, g, p2. rewrite C. auto.
      - destruct (IH _ _ _ _ E) as (p1 & g & p2 & A & B & C & D). exists p1, g, p2. auto. }
    destruct w as [|c w]; cbn [flush] in *.
    - right. apply Hmid. exact H.
    - destruct l1 as [|i l1]; cbn in H.
      + injection H as <- H. destruct x as [i|]; [injection H as -> _; contradiction|].
        left. repeat split; auto. discriminate.
      + injection H as <- H. right. destruct (Hmid _ H) as (p1 & g & p2 & A & B & C & D).
        exists p1, g, p2. rewrite D. auto. }
  induction ps as [|p ps IH]; intros w l1 a b l2 H.
  - exfalso. cbn in H. destruct w; cbn in H; [destruct l1; discriminate|].
    destruct l1 as [|? [|? ?]]; discriminate.
  - assert (Hsep : separator p -> flush w (items_from [] ps) = l1 ++ IWord a :: IWord b :: l2 ->
      (forall q, items_from w (p :: q) = flush w (items_from [] q)) ->
      exists p1 g p2, p :: ps = p1 ++ g :: p2 /\ separator g /\
      items_from w p1 = l1 ++ [IWord a] /\ items_from [] p2 = IWord b :: l2).
    { intros Hs E Hq. destruct (Hone ps w l1 a b l2 None I (IH []) E) as [(_ & Hw & -> & -> & Ei)|(p1 & g & p2 & -> & B & C & D)].
      - exists [], p, ps. split; [reflexivity|]. split; [exact Hs|]. split; [|exact Ei]. cbn. destruct a; [congruence|reflexivity].
      - exists (p :: p1), g, p2. rewrite Hq. auto. }
    assert (Hitem : forall i, match i with IWord _ => False | _ => True end ->
      flush w (i :: items_from [] ps) = l1 ++ IWord a :: IWord b :: l2 ->
      (forall q, items_from w (p :: q) = flush w (i :: items_from [] q)) ->
      exists p1 g p2, p :: ps = p1 ++ g :: p2 /\ separator g /\
      items_from w p1 = l1 ++ [IWord a] /\ items_from [] p2 = IWord b :: l2).
    { intros i Hi E Hq.
      destruct (Hone ps w l1 a b l2 (Some i)) as [(F & _)|(p1 & g & p2 & -> & B & C & D)];
        [destruct i; auto|exact (IH [])|exact E|discriminate|].
      exists (p :: p1), g, p2. rewrite Hq. auto. }
    destruct p as [c| | |t|bd|bd|c]; cbn [items_from] in H.
    + destruct (IH _ _ _ _ _ H) as (p1 & g & p2 & -> & B & C & D). exists (PChar c :: p1), g, p2. auto.
    + destruct (IH _ _ _ _ _ H) as (p1 & g & p2 & -> & B & C & D). exists (PBs :: p1), g, p2. auto.
    + apply Hsep; [left; reflexivity|exact H|reflexivity].
    + apply (Hitem (IStr t)); [exact I|exact H|reflexivity].
    + apply Hsep; [right; eauto|exact H|reflexivity].
    + apply (Hitem (ILic bd)); [exact I|exact H|reflexivity].
    + apply (Hitem (IPunct c)); [exact I|exact H|reflexivity].
Qed.

Theorem C20_css_word_gap : forall alpha s o l1 a b l2,
  css_minify alpha s = Ok o -> regular s -> items s = l1 ++ IWord a :: IWord b :: l2 ->
  exists p1 p2, fst (lex o) = p1 ++ PBlank :: p2 /\
    items_from [] p1 = l1 ++ [IWord a] /\ items_from [] p2 = IWord b :: l2.
Proof.
  intros alpha s o l1 a b l2 H Hr Hi.
  destruct (css_main alpha s o H Hr) as (E & _ & _ & Hc & _). rewrite <- E in Hi.
  destruct (items_word_gap _ _ _ _ _ _ Hi) as (p1 & g & p2 & A & [->|[bd ->]] & C & D); [eauto|].
  exfalso. unfold comments in Hc. rewrite A, flat_map_app in Hc. apply app_eq_nil in Hc. destruct Hc as [_ Hc].
  discriminate.
Qed.

Example C20_word_gap_example :
  css_minify (fun _ => false) (S_ "div   .a /**/ b{margin:1px  2px}") = Ok (S_ "div .a b{margin:1px 2px}").
Proof. vm_compute. reflexivity. Qed.

(** C20: blanks that mean something and are dropped.  In each pair the first text minifies to
    the second; in CSS the two select different elements, or the second is not valid. *)
Theorem C20_css_dropped_blanks : forall alpha,
  Forall (fun x => css_minify alpha (S_ (fst x)) = Ok (S_ (snd x)))
    [ ("a ::before{}", "a::before{}");
      ("a:not(.b) *{}", "a:not(.b)*{}"); ("* [x]{}", "*[x]{}"); ("* *{}", "**{}");
      ("a{b:min(1px + 2px)}", "a{b:min(1px+2px)}"); ("a{b:max(1px + 2px)}", "a{b:max(1px+2px)}");
      ("a{b:clamp(1px + 2px,3px,4px)}", "a{b:clamp(1px+2px,3px,4px)}");
      ("a:not(b) \c{}", "a:not(b)\c{}");
      ("@media x{@supports (a:b) and (c:d){}}", "@media x{@supports (a:b) and(c:d){}}");
      ("@page{margin:calc(1px + 2px)}", "@page {margin:calc(1px+2px)}") ]%string.
Proof. intro alpha. repeat (apply Forall_cons; [vm_compute; reflexivity|]). constructor. Qed.

(** Inside calc the blanks around operators are kept. *)
Example C20_calc_example :
  css_minify (fun _ => false) (S_ "a{b:calc(1px + 2px  *  ( 3 - 1 ))}") = Ok (S_ "a{b:calc(1px + 2px * (3 - 1 ))}").
Proof. vm_compute. reflexivity. Qed.

(** C06 (CSS): write gives the writer the bytes of the displayed text; on failure the writer
    holds a prefix of them. *)
Theorem C06_css_write_display : forall alpha s w o, css_minify alpha s = Ok o ->
  exists b out, css_write alpha s w = Ok (out, b) /\
  (b = true -> out = encode o) /\ (exists rest, encode o = out ++ rest) /\
  (Forall (fun x => x = None) w -> b = true).
Proof. exact css_write_spec. Qed.

Example C06_css_example :
  css_write (fun _ => false) (S_ "a { b : c }") [None; None; Some 0%nat] = Ok (S_ "a{", false) /\
  css_write (fun _ => false) (S_ "a { b : c }") [] = Ok (S_ "a{b:c}", true).
Proof. vm_compute. auto. Qed.

(** C32 for CSS: characters and operators are printed as they are read. *)
Theorem C32_css_chars : forall c k,
  rchar_of c = Some k <-> (rchar_show k = c \/ (c = 0xD /\ k = Backline)).
Proof.
  intros c k. split.
  - intro H. unfold rchar_of in H.
    repeat (match type of H with (if ?b then _ else _) = _ => destruct b eqn:? end;
            [injection H as <-; cbn; rewrite ?orb_true_iff, ?N.eqb_eq in *; intuition auto|]).
    discriminate.
  - intros [<-|[-> ->]]; [destruct k; reflexivity|reflexivity].
Qed.

Theorem C32_css_operators : forall c,
  (forall o, operator_of c = Some o -> operator_show o = rchar_show c)
  /\ (operator_of c <> None <-> In (rchar_show c) (S_ "/*+")).
Proof.
  intro c. split; [intros o H|split; intro H]; destruct c; cbn in *; try discriminate; try congruence;
    try (injection H as <-; reflexivity); auto; destruct H as [H|[H|[H|H]]]; solve [discriminate | destruct H].
Qed.

Example C32_css_example :
  rchar_of 0x7E = Some Tilde /\ rchar_of 0x61 = None /\ rchar_of 0xD = Some Backline
  /\ operator_of Star = Some OpMultiply /\ operator_of Tilde = None.
Proof. vm_compute. auto. Qed.

Print Assumptions C13_css_total.
Print Assumptions C14_css_errors.
Print Assumptions C14_css_accepts.
Print Assumptions C15_css_items.
Print Assumptions C15_css_layout.
Print Assumptions C16_css_slash_star_equal.
Print Assumptions C16_css_blank_before_escape.
Print Assumptions C16_css_escape_in_at_keyword.
Print Assumptions C17_css_licences.
Print Assumptions C18_css_again.
Print Assumptions C18_css_iterate.
Print Assumptions C19_css_not_idempotent.
Print Assumptions C19_css_can_grow.
Print Assumptions C19_css_bound.
Print Assumptions C20_css_word_gap.
Print Assumptions C20_css_dropped_blanks.
Print Assumptions C06_css_write_display.
Print Assumptions C32_css_chars.
Print Assumptions C32_css_operators.
