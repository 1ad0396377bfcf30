(** C68: how often a style sheet must be minified until nothing changes any more.  [alpha] is
    [char::is_alphabetic] outside ASCII; every theorem holds for all of its values. *)
From Coq Require Import String Arith List NArith ZArith Bool Lia.
From Verif Require Import Base CssModel CssSpec CssGapSpec CssProofs4 CssProofs6 CssProofs13 CssProofs14 CssProofs15 PropCss PropCssGap PropCssSyntax.
Import ListNotations.
Open Scope N_scope.

(** A comment stands in the gap after a colon. *)
Definition colon_comment (s : str) : Prop :=
  exists pre g b post, fst (lex s) = pre ++ PPunct 0x3A :: g ++ PCom b :: post /\ Forall (fun p => p = PBlank) g.

Lemma colon_comment_clear : forall s, ~ colon_comment s -> colons_clear (fst (lex s)).
Proof.
  intros s H pre post E g b r Er Hg. apply H. exists pre, g, b, r. rewrite E, Er. split; [reflexivity|].
  eapply Forall_impl; [|exact Hg]. intros p ->. reflexivity.
Qed.

(** The third and every later run repeat what the second wrote. *)
Theorem C68_css_settles : forall alpha s n, regular s -> ~ colon_comment s ->
  css_runs alpha (S (S n)) s = css_runs alpha 2 s.
Proof.
  intros alpha s n Hr Hc. apply colon_comment_clear in Hc. cbn [css_runs]. destruct (css_minify alpha s) as [o| | |] eqn:E1; try reflexivity. cbn [obind].
  destruct (css_minify alpha o) as [o'| | |] eqn:E2; try reflexivity. cbn [obind].
  pose proof (css_thrice alpha s o o' Hr Hc E1 E2) as E3. induction n as [|n IH]; [reflexivity|]. cbn [css_runs]. rewrite E3. exact IH.
Qed.

(** Not so with a comment after a colon: there the third run still changes something. *)
Theorem C68_colon_comment_refuted : forall alpha, let s := S_ "*: calc:/**/@acalc(" in
  regular s /\ colon_comment s /\ css_runs alpha 2 s = Ok (S_ "*:calc:@acalc (") /\ css_runs alpha 3 s = Ok (S_ "*:calc:@acalc(").
Proof.
  intro alpha. cbv zeta. split; [eapply regular_by_run; vm_compute; reflexivity|]. split.
  - exists (firstn 7 (fst (lex (S_ "*: calc:/**/@acalc(")))), [], [], (map PChar (S_ "@acalc") ++ [PPunct 0x28]). split; [vm_compute; reflexivity | constructor].
  - split; vm_compute; reflexivity.
Qed.

(** The second run may still change something, so that two is the least number. *)
Theorem C68_two_runs_needed : forall alpha,
  let s := S_ "@page {margin: calc(1px + 2px)}" in
  regular s /\ ~ colon_comment s /\ css_runs alpha 1 s = Ok (S_ "@page {margin:calc(1px + 2px)}") /\
  css_runs alpha 2 s = Ok (S_ "@page {margin:calc(1px+2px)}").
Proof.
  intro alpha. cbv zeta. split; [eapply regular_by_run; vm_compute; reflexivity|]. split.
  - intros (pre & g & b & post & E & _).
    assert (K : In (PCom b) (fst (lex (S_ "@page {margin: calc(1px + 2px)}")))).
    { rewrite E. apply in_or_app. right. right. apply in_or_app. right. left. reflexivity. }
    clear E. revert K. vm_compute. intro K. repeat (destruct K as [K|K]; [discriminate K|]). exact K.
  - split; vm_compute; reflexivity.
Qed.

(** Where one run is enough. *)
Theorem C68_css_steady : forall alpha s o, regular s -> steady (fst (lex s)) ->
  css_minify alpha s = Ok o -> css_minify alpha o = Ok o.
Proof. exact css_twice. Qed.

(** Each of the conditions on a steady sheet is needed. *)
Theorem C68_steady_refuted : forall alpha,
  css_runs alpha 1 (S_ "/*x*/a") = Ok (S_ " a") /\ css_runs alpha 2 (S_ "/*x*/a") = Ok (S_ "a") /\
  css_runs alpha 1 (S_ "a: calc {}") = Ok (S_ "a:calc {}") /\ css_runs alpha 2 (S_ "a: calc {}") = Ok (S_ "a:calc{}") /\
  css_runs alpha 1 (S_ "a: b (c){}") = Ok (S_ "a:b (c){}") /\ css_runs alpha 2 (S_ "a: b (c){}") = Ok (S_ "a:b(c){}") /\
  css_runs alpha 1 (S_ "@a*") = Ok (S_ "@a *") /\ css_runs alpha 2 (S_ "@a*") = Ok (S_ "@a  *") /\
  css_runs alpha 1 (S_ "{calc(/*!x*/1)}") = Ok (S_ "{calc(/*!x*/" ++ [10] ++ S_ "1)}") /\
  css_runs alpha 2 (S_ "{calc(/*!x*/1)}") = Ok (S_ "{calc(/*!x*/" ++ [10] ++ S_ " 1)}").
Proof. intro alpha. repeat split; vm_compute; reflexivity. Qed.

(** Comments elsewhere do no harm. *)
Example C68_ex : forall alpha, let s := S_ "/*a*/b > c /*d*/ e{f: g/*h*/}" in
  regular s /\ ~ colon_comment s /\ css_runs alpha 1 s = Ok (S_ " b>c e{f:g}") /\ css_runs alpha 2 s = Ok (S_ "b>c e{f:g}") /\
  css_runs alpha 9 s = Ok (S_ "b>c e{f:g}").
Proof.
  intro alpha. cbv zeta. split; [eapply regular_by_run; vm_compute; reflexivity|]. split; [|split; [|split]; vm_compute; reflexivity].
  intros (pre & g & b & post & E & Hg).
  assert (L : length pre = 12%nat).
  { assert (N1 : nth_error (fst (lex (S_ "/*a*/b > c /*d*/ e{f: g/*h*/}"))) (length pre) = Some (PPunct 0x3A)).
    { rewrite E, nth_error_app2 by lia. rewrite Nat.sub_diag. reflexivity. }
    clear E. revert N1. generalize (length pre). intro n. do 22 (destruct n as [|n]; [vm_compute; intro; first [reflexivity | discriminate]|]).
    vm_compute. destruct n; discriminate. }
  assert (T : skipn 13 (fst (lex (S_ "/*a*/b > c /*d*/ e{f: g/*h*/}"))) = g ++ PCom b :: post).
  { rewrite E, <- L. change (S (length pre)) with (1 + length pre)%nat. rewrite skipn_app, skipn_all2 by lia.
    replace (1 + length pre - length pre)%nat with 1%nat by lia. reflexivity. }
  vm_compute in T. destruct g as [|x g]; [discriminate T|]. injection T as <- T. destruct g as [|y g]; [discriminate T|]. injection T as <- T.
  inversion Hg as [|? ? ? Hg2]. inversion Hg2. discriminate.
Qed.

(** ** A steady sheet *)

Lemma splits : forall (P : list piece -> piece -> list piece -> Prop) ps,
  (forall n, (n < length ps)%nat -> match skipn n ps with p :: post => P (firstn n ps) p post | [] => True end) ->
  forall pre p post, ps = pre ++ p :: post -> P pre p post.
Proof.
  intros P ps H pre p post E. specialize (H (length pre)). rewrite E in H.
  rewrite skipn_app, skipn_all, Nat.sub_diag, firstn_app, firstn_all, Nat.sub_diag in H. cbn [skipn app firstn] in H. rewrite app_nil_r in H.
  apply H. rewrite app_length. cbn. lia.
Qed.

Definition sheet := S_ "/*!l*/@media screen and (min-width: 600px){ a:hover > b{width: calc(1px + 2px);color: red} }".

Lemma sheet_keyword : at_keyword (firstn 7 (fst (lex sheet))).
Proof.
  exists [PLic (S_ "l")], (S_ "media"). split; [vm_compute; reflexivity|]. split; [discriminate|]. split.
  - split; [intros [|? [|? ?]] E; discriminate E|]. intros [|? [|? ?]] c E; discriminate E.
  - split; [vm_compute; auto|]. intros (q & g & E & _). destruct q as [|? [|? ?]]; discriminate E.
Qed.

Definition place_b (ps : list piece) : bool :=
  PropCssSyntax.in_declaration_b ps || PropCssSyntax.at_head_b 7 ps.

Lemma sheet_steady : steady (fst (lex sheet)).
Proof.
  constructor.
  - intros b H. revert H. vm_compute. intro H. repeat (destruct H as [H|H]; [discriminate H|]). exact H.
  - intros pre post E. left.
    enough (G : forall pre p post, fst (lex sheet) = pre ++ p :: post -> p = PPunct 0x3A -> hd_error post = Some PBlank -> colon_place (pre ++ [PPunct 0x3A])) by (eapply G; [exact E | reflexivity | reflexivity]).
    clear pre post E. apply (splits (fun pre p post => p = PPunct 0x3A -> hd_error post = Some PBlank -> colon_place (pre ++ [PPunct 0x3A]))). intros n Hn.
    assert (K : forallb (fun n => match skipn n (fst (lex sheet)) with
      | PPunct c :: PBlank :: _ => negb (c =? 0x3A) || (place_b (firstn n (fst (lex sheet)) ++ [PPunct 0x3A]) && (7 <=? n)%nat) | _ => true end) (seq 0 (length (fst (lex sheet)))) = true) by (vm_compute; reflexivity).
    rewrite forallb_forall in K. specialize (K n ltac:(apply in_seq; lia)).
    destruct (skipn n (fst (lex sheet))) as [|p post]; [exact I|]. intros -> Hp. destruct post as [|x post]; [discriminate|]. injection Hp as ->.
    change (0x3A =? 0x3A) with true in K. cbn [negb orb] in K. apply andb_true_iff in K. destruct K as [K L]. apply Nat.leb_le in L. apply orb_true_iff in K. destruct K as [K|K].
    + left. now apply PropCssSyntax.in_declaration_sound.
    + right. right. apply (PropCssSyntax.at_head_sound 7 _ (fst (lex sheet)) sheet_keyword); [|exact K].
      rewrite firstn_app, firstn_firstn, firstn_length. replace (7 - Nat.min n (length (fst (lex sheet))))%nat with 0%nat by lia.
      rewrite firstn_O, app_nil_r. f_equal. lia.
  - intros pre post E. exfalso. assert (H : In (PPunct 0x2A) (fst (lex sheet))) by (rewrite E; apply in_or_app; right; left; reflexivity).
    revert H. vm_compute. intro H. repeat (destruct H as [H|H]; [discriminate H|]). exact H.
  - intros q r E Hq Hr.
    assert (L : length q = 58%nat).
    { assert (K : starts_calc calc_name (skipn (length q) (fst (lex sheet))) = true) by (rewrite E, skipn_app, skipn_all, Nat.sub_diag; reflexivity).
      assert (Z : forallb (fun n => negb (starts_calc calc_name (skipn n (fst (lex sheet)))) || (n =? 58)%nat) (seq 0 (length (fst (lex sheet)))) = true) by (vm_compute; reflexivity).
      rewrite forallb_forall in Z. specialize (Z (length q)). rewrite K in Z. cbn [negb orb] in Z. apply Nat.eqb_eq. apply Z. apply in_seq.
      rewrite E, app_length. cbn. lia. }
    assert (T : skipn 58 (fst (lex sheet)) = calc_name ++ r) by (rewrite <- L, E, skipn_app, skipn_all, Nat.sub_diag; reflexivity).
    vm_compute in T. injection T as <-. eexists [], _. split; [reflexivity | constructor].
  - apply (splits (fun pre p post => in_calc pre -> p <> PChar 0x40 /\ forall b, p <> PLic b)). intros n Hn.
    assert (K : forallb (fun n => match skipn n (fst (lex sheet)) with
      | PChar c :: _ => negb (c =? 0x40) || (n =? 1)%nat | PLic _ :: _ => (n =? 0)%nat | _ => true end) (seq 0 (length (fst (lex sheet)))) = true) by (vm_compute; reflexivity).
    rewrite forallb_forall in K. specialize (K n ltac:(apply in_seq; lia)).
    destruct (skipn n (fst (lex sheet))) as [|p post] eqn:Es; [exact I|]. intro Hc.
    destruct n as [|[|n]]; [exfalso; revert Hc; apply no_calc_outside; vm_compute; reflexivity..|].
    destruct p as [c| | |t|b|b|c]; try (split; [|intro]; discriminate).
    split; [|intro; discriminate]. intro Z. injection Z as ->. discriminate K.
Qed.

Example C68_steady_ex : forall alpha, regular sheet /\ steady (fst (lex sheet)) /\
  css_minify alpha sheet = Ok (S_ "/*!l*/" ++ [10] ++ S_ "@media screen and (min-width:600px){a:hover>b{width:calc(1px + 2px);color:red}}").
Proof. intro alpha. split; [eapply regular_by_run; vm_compute; reflexivity|]. split; [exact sheet_steady | vm_compute; reflexivity]. Qed.

(** ** A steady sheet with declarations directly in at-rules *)

Fixpoint unblank (ps : list piece) : list piece := match ps with PBlank :: r => unblank r | _ => ps end.
Fixpoint word_at (ps : list piece) : str * list piece :=
  match ps with PChar c :: r => let (w, r') := word_at r in (c :: w, r') | _ => ([], ps) end.

Definition mild_b (post : list piece) : bool :=
  let (w, r) := word_at (unblank post) in
  match w with
  | [] => true
  | _ => negb (str_eqb w (S_ "calc")) &&
         match r with PBlank :: r' => match unblank r' with PPunct c :: _ => negb (c =? 0x28) | _ => true end | _ => true end
  end.

Lemma unblank_app : forall g r, Forall (eq PBlank) g -> (match r with PBlank :: _ => False | _ => True end) -> unblank (g ++ r) = r.
Proof.
  intros g r Hg Hr. induction Hg as [|x g <- _ IH]; [|exact IH]. cbn [app]. destruct r as [|[] r]; try reflexivity. contradiction.
Qed.

Lemma word_at_app : forall w r, (match r with PChar _ :: _ => False | _ => True end) -> word_at (map PChar w ++ r) = (w, r).
Proof.
  intros w r Hr. induction w as [|c w IH]; cbn [map app word_at]; [destruct r as [|[] r]; try reflexivity; contradiction|]. now rewrite IH.
Qed.

Lemma mild_sound : forall post, mild_b post = true -> mild post.
Proof.
  intros post H g w r E Hg Hw Hr. subst post. unfold mild_b in H.
  rewrite unblank_app, word_at_app in H; auto; [|destruct w; [contradiction|exact I]].
  destruct w as [|c w]; [congruence|]. apply andb_true_iff in H. destruct H as [H1 H2]. split.
  - intros E. rewrite E in H1. discriminate H1.
  - intros g' r' -> Hg'. rewrite unblank_app in H2; [discriminate H2 | exact Hg' | exact I].
Qed.

Definition sheet2 := S_ "@page{margin: 1cm 2cm}@font-face{font-family: a b; src: url(x)}".

Lemma sheet2_steady : steady (fst (lex sheet2)).
Proof.
  constructor.
  - intros b H. revert H. vm_compute. intro H. repeat (destruct H as [H|H]; [discriminate H|]). exact H.
  - intros pre post E. right. apply mild_sound.
    enough (G : forall pre p post, fst (lex sheet2) = pre ++ p :: post -> p = PPunct 0x3A -> mild_b (tl post) = true) by exact (G pre _ _ E eq_refl).
    clear pre post E. apply (splits (fun pre p post => p = PPunct 0x3A -> mild_b (tl post) = true)). intros n Hn.
    assert (K : forallb (fun n => match skipn n (fst (lex sheet2)) with PPunct c :: post => negb (c =? 0x3A) || mild_b (tl post) | _ => true end)
      (seq 0 (length (fst (lex sheet2)))) = true) by (vm_compute; reflexivity).
    rewrite forallb_forall in K. specialize (K n ltac:(apply in_seq; lia)).
    destruct (skipn n (fst (lex sheet2))) as [|p post]; [exact I|]. intros ->. exact K.
  - intros pre post E. exfalso. assert (H : In (PPunct 0x2A) (fst (lex sheet2))) by (rewrite E; apply in_or_app; right; left; reflexivity).
    revert H. vm_compute. intro H. repeat (destruct H as [H|H]; [discriminate H|]). exact H.
  - apply no_calc_called. vm_compute. reflexivity.
  - intros pre p post E Hc. exfalso. revert Hc. apply no_calc_outside.
    assert (K : forallb (fun n => negb (has_calc (firstn n (fst (lex sheet2))))) (seq 0 (length (fst (lex sheet2)))) = true) by (vm_compute; reflexivity).
    rewrite forallb_forall in K. specialize (K (length pre) ltac:(apply in_seq; rewrite E, app_length; cbn; lia)).
    rewrite E, firstn_app, firstn_all, Nat.sub_diag, firstn_O, app_nil_r in K. now apply negb_true_iff in K.
Qed.

Example C68_mild_ex : forall alpha, regular sheet2 /\ steady (fst (lex sheet2)) /\
  css_minify alpha sheet2 = Ok (S_ "@page {margin:1cm 2cm}@font-face {font-family:a b;src:url(x)}").
Proof. intro alpha. split; [eapply regular_by_run; vm_compute; reflexivity|]. split; [exact sheet2_steady | vm_compute; reflexivity]. Qed.

Print Assumptions C68_css_steady.
Print Assumptions C68_steady_refuted.
Print Assumptions C68_css_settles.
Print Assumptions C68_colon_comment_refuted.
Print Assumptions C68_two_runs_needed.
