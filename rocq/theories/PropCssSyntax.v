(** C62: a CSS parser reads the same tokens from the minified sheet.  [alpha] is
    [char::is_alphabetic] outside ASCII; every theorem holds for all of its values. *)
From Coq Require Import String Arith List NArith ZArith Bool Lia.
From Verif Require Import Base CssModel CssSpec CssGapSpec CssProofs4 CssSyntaxSpec CssSyntaxProofs1 CssSyntaxProofs3.
Import ListNotations.
Open Scope N_scope.

Theorem C62_css_syntax : forall alpha s o, css_minify alpha s = Ok o -> regular s -> tidy (fst (lex s)) ->
  syntax o = syntax s.
Proof. exact same_syntax. Qed.

(** ** A test for tidy sheets *)

Definition ends_hex_b (s : str) : bool :=
  existsb (fun i => match skipn i s with
                    | c :: h => (c =? 0x5C) && (1 <=? length h)%nat && (length h <=? 6)%nat && forallb hex_digit h
                    | [] => false end) (seq 0 (length s)).

Lemma ends_hex_sound : forall s, ends_hex_b s = false -> ~ ends_hex s.
Proof.
  intros s H (a & h & -> & L & F). assert (K : ends_hex_b (a ++ 0x5C :: h) = true); [|congruence].
  apply existsb_exists. exists (length a). split.
  - apply in_seq. rewrite app_length. cbn [length]. lia.
  - rewrite skipn_app, skipn_all, Nat.sub_diag. cbn [app skipn]. change (0x5C =? 0x5C) with true. cbn [andb].
    apply andb_true_iff. split; [|apply forallb_forall; rewrite Forall_forall in F; exact F].
    apply andb_true_iff. split; apply Nat.leb_le; lia.
Qed.

Definition last_is (f : N -> bool) (s : str) : bool := match rev s with c :: _ => f c | [] => false end.

Lemma last_is_snoc : forall f s c, last_is f (s ++ [c]) = f c.
Proof. intros f s c. unfold last_is. rewrite rev_app_distr. reflexivity. Qed.

Definition separator_b (p : piece) : bool := match p with PBlank | PCom _ => true | _ => false end.
Lemma separator_spec : forall p, separator p <-> separator_b p = true.
Proof. intro p. split; [intros [->|[b ->]]; reflexivity|]. destruct p; try discriminate; intros _; [left; reflexivity|right; eauto]. Qed.

Fixpoint drop_gap (ps : list piece) : list piece :=
  match ps with p :: r => if separator_b p then drop_gap r else ps | [] => [] end.

Lemma drop_gap_app : forall g r, Forall separator g -> match r with x :: _ => ~ separator x | [] => True end -> drop_gap (g ++ r) = r.
Proof.
  induction g as [|p g IH]; intros r F H.
  - cbn [app]. destruct r as [|x r]; [reflexivity|]. cbn [drop_gap]. destruct (separator_b x) eqn:E; [|reflexivity].
    apply separator_spec in E. contradiction.
  - inversion F as [|? ? F1 F2]. subst. cbn [app drop_gap]. apply separator_spec in F1. rewrite F1. now apply IH.
Qed.

Definition in_declaration_b (ps : list piece) : bool :=
  (2 <=? depth (place_after ps))%nat || ((1 <=? depth (place_after ps))%nat && negb (at_rule (place_after ps))).
Lemma in_declaration_sound : forall ps, in_declaration_b ps = true -> in_declaration ps.
Proof.
  intros ps H. unfold in_declaration_b in H. apply orb_true_iff in H. destruct H as [H|H].
  - left. now apply Nat.leb_le.
  - right. apply andb_true_iff in H. destruct H as [A B]. split; [now apply Nat.leb_le|now apply negb_true_iff in B].
Qed.

(** In the head of the at-rule whose keyword ends at piece [k] of the sheet. *)
Definition rule_end_b (p : piece) : bool :=
  match p with PPunct c => (c =? 0x7B) || (c =? 0x7D) || (c =? 0x3B) | _ => false end.
Definition at_head_b (k : nat) (ps : list piece) : bool :=
  match skipn k ps with
  | x :: r => negb (k =? 0)%nat && negb (word_piece_b x) && forallb (fun p => negb (rule_end_b p)) (x :: r)
  | [] => false
  end.

Lemma at_head_sound : forall k ps full, at_keyword (firstn k full) -> firstn k ps = firstn k full -> at_head_b k ps = true -> in_at_head ps.
Proof.
  intros k ps full K E H. unfold at_head_b in H. destruct (skipn k ps) as [|x r] eqn:S; [discriminate H|].
  exists (firstn k ps), x, r. split; [rewrite <- S; symmetry; apply firstn_skipn|]. split; [rewrite E; exact K|].
  apply andb_true_iff in H. destruct H as [A B]. apply andb_true_iff in A. destruct A as [_ A]. split.
  - apply negb_true_iff in A. intros [->|[c ->]]; discriminate A.
  - rewrite forallb_forall in B. apply Forall_forall. intros p I. specialize (B p I). destruct p as [| | | | | |c]; try (repeat split; discriminate).
    cbn [rule_end_b] in B. repeat split; intros Z; injection Z as ->; discriminate B.
Qed.

(** Inside the calc whose name follows piece [m] of the sheet, after a plus sign. *)
Definition is_calc_head (ps : list piece) : bool :=
  match ps with
  | PChar a :: PChar b :: PChar c :: PChar d :: PPunct p :: _ => str_eqb [a; b; c; d; p] (S_ "calc(")
  | _ => false
  end.
Definition stays_open_b (ps : list piece) : bool :=
  forallb (fun i => (closed (firstn i ps) <=? opened (firstn i ps))%nat) (seq 0 (S (length ps))).
Definition calc_b (m : nat) (ps : list piece) : bool :=
  negb (m =? 0)%nat && (m <=? length ps)%nat && in_declaration_b (firstn m ps) && is_calc_head (skipn m ps) &&
  stays_open_b (skipn 5 (skipn m ps)).

Lemma stays_open_sound : forall ps, stays_open_b ps = true -> stays_open ps.
Proof.
  intros ps H a b ->. unfold stays_open_b in H. rewrite forallb_forall in H. specialize (H (length a)).
  rewrite firstn_app, firstn_all, Nat.sub_diag, firstn_O, app_nil_r in H. apply Nat.leb_le. apply H. apply in_seq. rewrite app_length. lia.
Qed.

Lemma calc_sound : forall m ps, run_starts (firstn m ps) -> calc_b m ps = true -> inside_calc ps.
Proof.
  intros m ps R H. unfold calc_b in H. repeat (apply andb_true_iff in H; destruct H as [H ?]).
  rename H0 into Ho, H1 into Hh, H2 into Hd.
  exists (firstn m ps), [], (skipn 5 (skipn m ps)). split; [|split; [exact R|split; [now apply in_declaration_sound|split; [constructor|now apply stays_open_sound]]]].
  rewrite <- (firstn_skipn m ps) at 1. f_equal. revert Hh. generalize (skipn m ps). intros l Hh. unfold is_calc_head in Hh.
  destruct l as [|[a| | | | | |] l]; try discriminate Hh. destruct l as [|[b| | | | | |] l]; try discriminate Hh.
  destruct l as [|[c| | | | | |] l]; try discriminate Hh. destruct l as [|[d| | | | | |] l]; try discriminate Hh.
  destruct l as [|[| | | | | |p] l]; try discriminate Hh.
  apply str_eqb_eq in Hh. vm_compute in Hh. injection Hh as -> -> -> -> ->. reflexivity.
Qed.

Definition kept_b (k m : nat) (pre post : list piece) : bool :=
  match rev pre, post with
  | PChar _ :: _, PPunct c :: _ => (c =? 0x28) && (in_declaration_b pre || at_head_b k pre)
  | PPunct c :: _, _ :: _ => (c =? 0x2B) && calc_b m pre
  | _, _ => false
  end.

Definition chunk_b (pre c post : list piece) : bool :=
  if match c with [] => false | _ => forallb (fun p => negb (gap_piece p)) c end then
    if cut pre (c ++ post) then
      if cut (pre ++ c) post then forallb (fun i => negb (cut (pre ++ firstn i c) (skipn i c ++ post))) (seq 1 (length c - 1))
      else false
    else false
  else false.

Definition chunk_ok (k m : nat) (pre c post : list piece) : bool :=
  forallb (fun x => negb (snd x)) (css_tokens (text c)) &&
  negb (ends_hex_b (text c)) &&
  negb (last_is (fun d => white d || (d =? 0x5C)) (text c)) &&
  match rev c with
  | PPunct _ :: q => negb (last_is (N.eqb 0x5C) (text (rev q)))
  | PStr _ :: _ => match drop_gap post with PBs :: _ => false | _ => true end
  | _ => true
  end &&
  (negb (runs_on (last_token (text c)) (text (drop_gap post))) ||
   (match post with p :: _ => separator_b p | [] => false end && kept_b k m (pre ++ c) (drop_gap post))).

Definition tidy_b (k m : nat) (ps : list piece) : bool :=
  forallb (fun i => forallb (fun j =>
    let pre := firstn i ps in let c := firstn j (skipn i ps) in let post := skipn j (skipn i ps) in
    if chunk_b pre c post then chunk_ok k m pre c post else true) (seq 0 (S (length ps)))) (seq 0 (S (length ps))).

Lemma chunk_b_complete : forall pre c post, chunk pre c post -> chunk_b pre c post = true.
Proof.
  intros pre c post (N & F & C1 & C2 & I). unfold chunk_b. rewrite C1, C2.
  destruct c as [|p c]; [congruence|].
  assert (Z : forallb (fun p => negb (gap_piece p)) (p :: c) = true).
  { apply forallb_forall. intros x Hx. rewrite Forall_forall in F. now rewrite (F x Hx). }
  rewrite Z. apply forallb_forall. intros i Hi. apply in_seq in Hi. rewrite (I (firstn i (p :: c)) (skipn i (p :: c))); [reflexivity| | |].
  - symmetry. apply firstn_skipn.
  - destruct i; [lia|discriminate].
  - intro Z'. apply (f_equal (@length piece)) in Z'. rewrite skipn_length in Z'. cbn [length] in *. lia.
Qed.

Lemma tidy_sound : forall k m ps, tidy_b k m ps = true -> k = 0%nat \/ at_keyword (firstn k ps) ->
  m = 0%nat \/ run_starts (firstn m ps) /\ calc_called ps -> tidy ps.
Proof.
  intros k m ps H K M pre c post E Hc.
  assert (Q : chunk_ok k m pre c post = true).
  { unfold tidy_b in H. rewrite forallb_forall in H. specialize (H (length pre)).
    assert (I : In (length pre) (seq 0 (S (length ps)))) by (apply in_seq; rewrite E, !app_length; lia).
    specialize (H I). clear I. rewrite forallb_forall in H.
    specialize (H (length c)). rewrite E in H.
    rewrite firstn_app, firstn_all, Nat.sub_diag, firstn_O, app_nil_r in H.
    rewrite skipn_app, skipn_all, Nat.sub_diag in H. cbn [app skipn] in H.
    rewrite firstn_app, firstn_all, Nat.sub_diag, firstn_O, app_nil_r in H.
    rewrite skipn_app, skipn_all, Nat.sub_diag in H. cbn [app skipn] in H. rewrite (chunk_b_complete _ _ _ Hc) in H.
    apply H. apply in_seq. rewrite !app_length. lia. }
  clear H. unfold chunk_ok in Q. repeat (apply andb_true_iff in Q; destruct Q as [Q ?]).
  rename H into Q5, H0 into Q4, H1 into Q3, H2 into Q2, Q into Q1.
  split. { apply Forall_forall. intros x Hx. rewrite forallb_forall in Q1. specialize (Q1 x Hx). now apply negb_true_iff in Q1. }
  split. { apply ends_hex_sound. now apply negb_true_iff in Q2. }
  split. { intros q d Ed. rewrite Ed, last_is_snoc in Q3. apply negb_true_iff, orb_false_iff in Q3. destruct Q3 as [A B]. split; [exact A|]. now apply N.eqb_neq. }
  split. { intros q q' d Ec Et. rewrite Ec, rev_app_distr in Q4. cbn [rev app] in Q4. rewrite rev_involutive, Et, last_is_snoc in Q4. discriminate Q4. }
  split. { intros q t g r Ec Ep F. rewrite Ec, rev_app_distr in Q4. cbn [rev app] in Q4. rewrite Ep, drop_gap_app in Q4; [discriminate Q4|exact F|].
    intros [Z|[b Z]]; discriminate Z. }
  intros g r Ep F Hr. rewrite Ep, (drop_gap_app g r F Hr) in Q5. apply orb_true_iff in Q5. destruct Q5 as [Q5|Q5]; [left; now apply negb_true_iff in Q5|right].
  apply andb_true_iff in Q5. destruct Q5 as [A B]. split.
  - intros ->. cbn [app] in A. destruct r as [|x r]; [discriminate A|]. apply separator_spec in A. contradiction.
  - unfold kept_b in B. destruct (rev (pre ++ c)) as [|a q] eqn:R; [discriminate B|].
    assert (Ea : pre ++ c = rev q ++ [a]) by (rewrite <- (rev_involutive (pre ++ c)), R; reflexivity).
    destruct a as [x| | | | | |x]; try discriminate B; (destruct r as [|b r]; [discriminate B|]).
    + destruct b as [| | | | | |d]; try discriminate B. apply andb_true_iff in B. destruct B as [B1 B2]. apply N.eqb_eq in B1. subst d.
      exists (rev q), (PChar x), (PPunct 0x28), r. split; [exact Ea|].
      split; [reflexivity|]. left. split; [eauto|]. split; [reflexivity|]. apply orb_true_iff in B2. destruct B2 as [B2|B2].
      * left. now apply in_declaration_sound.
      * right. destruct K as [->|K].
        { exfalso. unfold at_head_b in B2. cbn [skipn] in B2. destruct (pre ++ c); discriminate B2. }
        apply (at_head_sound k (pre ++ c) ps); [exact K| |exact B2]. rewrite E, app_assoc.
        unfold at_head_b in B2. assert (Lk : (k <= length (pre ++ c))%nat).
        { destruct (Nat.le_gt_cases k (length (pre ++ c))) as [L|L]; [exact L|]. rewrite skipn_all2 in B2 by lia. discriminate B2. }
        rewrite (firstn_app k (pre ++ c) post). replace (k - length (pre ++ c))%nat with 0%nat by lia. rewrite firstn_O, app_nil_r. reflexivity.
    + assert (B' : (x =? 0x2B) && calc_b m (pre ++ c) = true) by (destruct b; exact B). clear B.
      apply andb_true_iff in B'. destruct B' as [B1 B2]. apply N.eqb_eq in B1. subst x.
      exists (rev q), (PPunct 0x2B), b, r. split; [exact Ea|]. split; [reflexivity|]. right.
      destruct M as [->|[M1 M2]]; [discriminate B2|]. split; [|split; [exact M2|split; [right; left; reflexivity|discriminate]]].
      apply (calc_sound m); [|exact B2].
      assert (Lm : (m <= length (pre ++ c))%nat).
      { unfold calc_b in B2. repeat (apply andb_true_iff in B2; destruct B2 as [B2 ?]). now apply Nat.leb_le. }
      rewrite E, app_assoc in M1. rewrite (firstn_app m (pre ++ c) post) in M1. replace (m - length (pre ++ c))%nat with 0%nat in M1 by lia.
      rewrite firstn_O, app_nil_r in M1. exact M1.
Qed.

Lemma accepted_tokens : forall s h, hrun HN (fst (lex s)) = Some h -> regular s.
Proof. intros s h H. exact (hrun_regular _ _ H). Qed.
Ltac regular_case := eapply accepted_tokens; vm_compute; reflexivity.

(** ** Cases *)

(** A sheet with a licence, combinators, strings, a url, escapes and numbers; most of the blanks go. *)
Definition usual := S_ "/*! l */ a > .b\:c , #d[e ~= 'f g'] + h::after { /* i */ width : 10.5% ; background : URL(j/k.png) no-repeat ; content : '\41' } ".
Example C62_case :
  regular usual /\ tidy (fst (lex usual)) /\
  css_minify (fun _ => false) usual =
    Ok (S_ "/*! l */" ++ [0xA] ++ S_ "a>.b\:c,#d[e ~= 'f g'] +h::after{width:10.5%;background:URL(j/k.png) no-repeat;content:'\41'}").
Proof.
  split; [regular_case|]. split; [|vm_compute; reflexivity].
  apply (tidy_sound 0 0); [vm_compute; reflexivity|left; reflexivity|left; reflexivity].
Qed.

Example C62_case_tokens : firstn 12 (syntax usual) =
  [CIdent (S_ "a"); CDelim 0x3E; CDelim 0x2E; CIdent (S_ "b:c"); CDelim 0x2C; CHash true (S_ "d"); CDelim 0x5B; CIdent (S_ "e");
   CDelim 0x7E; CDelim 0x3D; CString (S_ "f g"); CDelim 0x5D].
Proof. vm_compute. reflexivity. Qed.

(** Blanks that must stay: before the parenthesis of a media query, in a declaration, and after
    the plus sign of calc. *)
Definition query := S_ "@media  screen  and (min-width: 2px) { a { b : c (d) ; e : calc( 1px + 2px ) } }".
Lemma query_keyword : at_keyword (firstn 6 (fst (lex query))).
Proof.
  exists [], (S_ "media"). split; [vm_compute; reflexivity|]. split; [discriminate|].
  split; [split; [intros q E; destruct q; discriminate E|intros q c E; destruct q; discriminate E]|]. split; [repeat split|].
  intros (q & g & E & _). destruct q; discriminate E.
Qed.
Definition before_calc : nat := 59.
Example C62_case_kept :
  regular query /\ tidy (fst (lex query)) /\
  css_minify (fun _ => false) query = Ok (S_ "@media screen and (min-width:2px){a{b:c (d);e:calc(1px + 2px )}}").
Proof.
  split; [regular_case|]. split; [|vm_compute; reflexivity].
  apply (tidy_sound 6 before_calc); [vm_compute; reflexivity|right; exact query_keyword|right]. split.
  - split.
    + intros q E. vm_compute in E. repeat (destruct q as [|? q]; try discriminate E; cbn in E; try (injection E as ? E)).
    + intros q c E. vm_compute in E. repeat (destruct q as [|? q]; try discriminate E; cbn in E; try (injection E as ? E)).
  - intros q r E Hq Hr. unfold calc_name in E. vm_compute in E.
    do 59 (destruct q as [|? q]; [discriminate E|cbn [app] in E; injection E as ? E]).
    destruct q as [|? q].
    + cbn [app] in E. injection E as E. subst r. exists []. eexists. split; [reflexivity|constructor].
    + exfalso. clear -E. cbn [app] in E. injection E as ? E.
      do 60 (destruct q as [|? q]; [discriminate E|cbn [app] in E; try discriminate E; injection E as ? E]).
Qed.

(** The condition is needed: regular sheets whose tokens change, since a blank is dropped that
    held a name and a parenthesis, a plus sign and a number, or a number and a sign apart; or
    since a blank after an escape by number is one of two. *)
Theorem C62_refuted : forall alpha,
  let lost s o := regular s /\ css_minify alpha s = Ok o /\ syntax o <> syntax s in
  lost (S_ "a (b){}") (S_ "a(b){}") /\
  lost (S_ "a{b:min(1px + 2px)}") (S_ "a{b:min(1px+2px)}") /\
  lost (S_ "a:nth-child(2n + 1){}") (S_ "a:nth-child(2n+1){}") /\
  lost (S_ "a{b:1e +5}") (S_ "a{b:1e+5}") /\
  lost (S_ "-- >") (S_ "-->").
Proof.
  intro alpha. cbv zeta. repeat split; try regular_case; try (vm_compute; reflexivity); vm_compute; discriminate.
Qed.

Print Assumptions C62_css_syntax.
Print Assumptions C62_refuted.
