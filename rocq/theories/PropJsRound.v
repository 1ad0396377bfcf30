(** * JavaScript: reading back the minified source, and its size

    C54 to C57.  [apart], [spaced] and [crowds] are in JsRoundSpec, [lexes] in JsLexSpec. *)
From Coq Require Import String List NArith ZArith Bool Lia ZifyBool ZifyN.
From Verif Require Import Base JsModel JsUtilModel JsUtilSpec JsUtilProofs JsUtilProofs2 JsLexSpec
  JsLexProofs1 JsLexProofs2 JsLexProofs3 JsWords JsLexProofs4 JsLexProofs5 JsLexProofs6
  JsRoundSpec JsRoundProofs1 JsRoundProofs2 JsRoundProofs3.
Import ListNotations.
Open Scope N_scope.

(** ** C54: the minified source is read back

    When no token of the minified list is glued to its neighbours, the printed text has the same
    tokens, with blanks only where the printer put them; *)
Theorem C54_read_back : forall s ts0 ts d, lexes s ts0 ->
  js_minify_tokens s = Ok ts -> js_minify s = Ok d -> apart [] ts = true ->
  tokenize d = Ok (spaced ts) /\ js_minify_tokens d = Ok ts.
Proof.
  intros s ts0 ts d L T M A.
  assert (C : clean_tokens ts0 = Ok ts) by (unfold js_minify_tokens in T; rewrite (lexes_tokenize s ts0 L) in T; exact T).
  destruct (round_trip s ts0 ts L C A) as (E & L2 & C2 & _).
  rewrite M in E. injection E as ->. pose proof (lexes_tokenize _ _ L2) as K.
  split; [exact K|]. unfold js_minify_tokens. rewrite K. exact C2.
Qed.

(** dropping these blanks gives the list; *)
Theorem C54_blanks : forall ts, Forall (fun t => useless t = false) ts ->
  filter (fun t => negb (useless t)) (spaced ts) = ts.
Proof. exact filter_spaced. Qed.

(** and minifying again changes nothing. *)
Theorem C54_idempotent : forall s ts0 ts d, lexes s ts0 ->
  js_minify_tokens s = Ok ts -> js_minify s = Ok d -> apart [] ts = true -> js_minify d = Ok d.
Proof.
  intros s ts0 ts d L T M A.
  assert (C : clean_tokens ts0 = Ok ts) by (unfold js_minify_tokens in T; rewrite (lexes_tokenize s ts0 L) in T; exact T).
  destruct (round_trip s ts0 ts L C A) as (E & _ & _ & I). rewrite M in E. injection E as ->. exact I.
Qed.

(** In particular for sources without slash whose literals are closed. *)
Theorem C54_closed : forall s ts d, closed_literals s ->
  js_minify_tokens s = Ok ts -> js_minify s = Ok d -> apart [] ts = true ->
  js_minify_tokens d = Ok ts /\ js_minify d = Ok d.
Proof.
  intros s ts d C T M A. destruct (closed_lexes s C) as (ts0 & L & _). split.
  - exact (proj2 (C54_read_back s ts0 ts d L T M A)).
  - exact (C54_idempotent s ts0 ts d L T M A).
Qed.

(** A source with words, numbers, a licence, a regular expression, a string and an [in]. *)
Definition sample : str :=
  S_ "; var a = 1.5 ;/*! l */ if ( a in b ) x = /y z/g . test ( 'q' ) / 2 . foo ;".

Ltac lex_char :=
  cbn [app];
  first
  [ apply reads_none
  | eapply reads_more; [apply rd_word; reflexivity|]
  | eapply reads_more; [apply rd_word_dot; reflexivity|]
  | eapply reads_more; [apply rd_dot; reflexivity|]
  | eapply reads_more; [eapply rd_punct; reflexivity|]
  | match goal with |- reads _ _ (0x3D :: ?s) _ _ _ =>
      eapply reads_more; [apply (rd_operator _ _ [0x3D] (TOperation Equal) s); [cbn; auto|reflexivity]|] end
  | match goal with |- reads _ _ (0x2B :: ?s) _ _ _ =>
      eapply reads_more; [apply (rd_operator _ _ [0x2B] (TOperation Addition) s); [cbn; auto 8|reflexivity]|] end
  | match goal with |- reads _ _ (0x27 :: 0x71 :: 0x27 :: ?s) _ _ _ =>
      eapply reads_more; [apply (rd_string _ _ 0x27 [0x71] s); [auto|repeat constructor; discriminate]|] end
  | match goal with |- reads _ _ (0x2F :: 0x2A :: 0x21 :: 0x20 :: 0x6C :: 0x20 :: 0x2A :: 0x2F :: ?s) _ _ _ =>
      eapply reads_more; [apply (rd_license _ _ [0x20; 0x6C; 0x20] s); reflexivity|] end
  | match goal with |- reads _ _ (0x2F :: 0x79 :: 0x20 :: 0x7A :: 0x2F :: 0x67 :: ?s) _ _ _ =>
      eapply reads_more; [apply (rd_regex _ _ [0x79; 0x20; 0x7A] [0x67] s);
        [reflexivity|repeat (apply rb_char; [discriminate|discriminate|reflexivity|]); apply rb_nil
        |eexists; split; reflexivity|repeat constructor|intros c H; injection H as <-; reflexivity]|] end
  | match goal with |- reads _ _ (0x2F :: ?s) _ _ _ =>
      eapply reads_more; [apply (rd_divide _ _ s); [right; reflexivity|intros c H; injection H as <-; reflexivity]|] end ].

Lemma sample_read : exists ts, lexes sample ts.
Proof.
  eexists. unfold lexes. eexists. eexists. split; [|reflexivity].
  let t := eval vm_compute in sample in change sample with t.
  repeat lex_char.
Qed.

Example C54_case : exists ts0 ts d, lexes sample ts0 /\ js_minify_tokens sample = Ok ts
  /\ js_minify sample = Ok d /\ apart [] ts = true
  /\ d = S_ "var a=1.5;/*! l */if(a in b)x=/y z/g.test('q')/2.foo;".
Proof.
  destruct sample_read as (ts0 & L). exists ts0. eexists. eexists. split; [exact L|].
  split; [vm_compute; reflexivity|]. split; [vm_compute; reflexivity|]. split; vm_compute; reflexivity.
Qed.

(** Glued tokens of every kind are not read back, *)
Definition not_read_back (s : str) : Prop :=
  exists ts d, js_minify_tokens s = Ok ts /\ js_minify s = Ok d /\ apart [] ts = false
    /\ js_minify_tokens d <> Ok ts.

Theorem C54_glued_refuted :
  not_read_back (S_ "x=1" ++ [0xA] ++ S_ "y") /\ not_read_back (S_ "x=1." ++ [0xA] ++ S_ "(y)")
  /\ not_read_back (S_ "1 . + 2") /\ not_read_back (S_ "a. 5")
  /\ not_read_back (S_ "a / /b/.c") /\ not_read_back (S_ "a / /*! l */ b")
  /\ not_read_back (S_ "a & & b") /\ not_read_back (S_ "a = == b") /\ not_read_back (S_ "a = /b/ i")
  /\ not_read_back (S_ "a++ / 2" ++ [0xA] ++ S_ "b / c").
Proof.
  repeat split; (eexists; eexists; split; [vm_compute; reflexivity|]; split; [vm_compute; reflexivity|];
    split; [reflexivity|]; vm_compute; discriminate).
Qed.

(** and minification is not idempotent there. *)
Theorem C54_idempotent_refuted : exists s d e,
  js_minify s = Ok d /\ js_minify d = Ok e /\ d <> e
  /\ s = S_ "a / /b/.c" /\ d = S_ "a//b/.c" /\ e = S_ "a /.c".
Proof.
  exists (S_ "a / /b/.c"). eexists. eexists. split; [vm_compute; reflexivity|].
  split; [vm_compute; reflexivity|]. split; [discriminate|]. repeat split.
Qed.

(** ** C55: the minified source is not longer, in bytes

    but for one blank at each [in] or [instanceof] that directly follows a licence, a regular
    expression or an operator. *)
Theorem C55_size : forall s ts d, lexes s ts -> js_minify s = Ok d ->
  (length (encode d) <= length (encode s) + crowds ts)%nat.
Proof. intros s ts d L M. rewrite !encode_length. exact (lexes_size s ts d L M). Qed.

Theorem C55_not_longer : forall s ts d, lexes s ts -> Forall (fun t => is_in t = false) ts ->
  js_minify s = Ok d -> (length (encode d) <= length (encode s))%nat.
Proof.
  intros s ts d L F M. pose proof (C55_size s ts d L M) as H.
  assert (Z : crowds ts = 0%nat); [|lia]. clear - F.
  induction F as [|a r Fa Fr IH]; [reflexivity|]. destruct Fr as [|b r Fb Fr]; [reflexivity|].
  change (crowds (a :: b :: r)) with ((if crowded a b then 1 else 0) + crowds (b :: r))%nat.
  rewrite IH. unfold crowded. rewrite Fb. reflexivity.
Qed.

(** The blank is really added. *)
Theorem C55_longer : forall b, comment_body b = true ->
  js_minify (S_ "a/*!" ++ b ++ S_ "*/in c") = Ok (S_ "a/*!" ++ b ++ S_ "*/ in c").
Proof.
  intros b B. unfold js_minify, js_minify_tokens.
  rewrite (lexes_tokenize _ [TOther (S_ "a"); TLicense b; TKeyword KIn; TChar Space; TOther (S_ "c")]).
  - cbn [obind]. rewrite clean_tokens_eq. cbn [obind]. rewrite tokens_show_joined. f_equal.
    unfold token_show. cbn. norm. reflexivity.
  - eexists. eexists. split.
    + change (S_ "a/*!" ++ b ++ S_ "*/in c") with (0x61 :: 0x2F :: 0x2A :: 0x21 :: b ++ 0x2A :: 0x2F :: S_ "in c").
      eapply reads_more; [apply rd_word; reflexivity|]. eapply reads_more; [apply rd_license; exact B|].
      let t := eval vm_compute in (S_ "in c") in change (S_ "in c") with t. repeat lex_char.
    + reflexivity.
Qed.

Example C55_case : exists ts d, lexes sample ts /\ js_minify sample = Ok d
  /\ length (encode d) = 53%nat /\ length (encode sample) = 75%nat.
Proof.
  destruct sample_read as (ts & L). exists ts. eexists. split; [exact L|].
  split; [vm_compute; reflexivity|]. split; vm_compute; reflexivity.
Qed.

(** ** C56: regular expression literals

    A literal that follows the start of the source, an operator, a comparison or one of
    [; : , [ ( ! { ? | &] is one token; *)
Theorem C56_recognised : forall s v w b f, reads [] [] s v w (S_ "/" ++ b ++ S_ "/" ++ f) ->
  regex_here (flush w v) = true -> regex_body b ->
  (exists c, hd_error b = Some c /\ mem_char c (S_ "/*") = false) ->
  Forall (fun c => flag c = true) f ->
  tokenize s = Ok (rev (flush w v) ++ [TRegex b (mem_char 0x67 f) (mem_char 0x69 f)]).
Proof.
  intros s v w b f R H B Hd F. apply lexes_tokenize.
  exists (TRegex b (mem_char 0x67 f) (mem_char 0x69 f) :: flush w v), []. split; [|reflexivity].
  eapply reads_trans; [exact R|]. change (S_ "/" ++ b ++ S_ "/" ++ f) with (0x2F :: b ++ 0x2F :: f).
  eapply reads_more; [|constructor]. replace f with (f ++ []) at 1 by apply app_nil_r.
  apply (rd_regex v w b f []); try assumption. discriminate.
Qed.

Theorem C56_appended : forall p ts b f, lexes p ts -> last_line_slashless p ->
  regex_here (rev ts) = true -> regex_body b ->
  (exists c, hd_error b = Some c /\ mem_char c (S_ "/*") = false) ->
  Forall (fun c => flag c = true) f ->
  tokenize (p ++ S_ "/" ++ b ++ S_ "/" ++ f) = Ok (ts ++ [TRegex b (mem_char 0x67 f) (mem_char 0x69 f)]).
Proof.
  intros p ts b f L N H B Hd F. destruct (lexes_reach p ts (b ++ 0x2F :: f) L N) as (v & w & R & ->).
  rewrite rev_involutive in H. exact (C56_recognised _ v w b f R H B Hd F).
Qed.

(** its text is in the output. *)
Lemma joined_in : forall l t, In t l -> exists x y, joined l = x ++ token_show t ++ y.
Proof.
  induction l as [|a r IH]; intros t I; [destruct I|]. destruct I as [->|I].
  - exists []. cbn [joined app]. eauto.
  - destruct (IH t I) as (x & y & E). destruct r as [|b r]; [destruct I|].
    exists (token_show a ++ separator a b ++ x), y.
    change (joined (a :: b :: r)) with (token_show a ++ separator a b ++ joined (b :: r)).
    rewrite E, <- !app_assoc. reflexivity.
Qed.

Theorem C56_kept : forall s ts d b g i, lexes s ts -> js_minify s = Ok d -> In (TRegex b g i) ts ->
  exists x y, d = x ++ S_ "/" ++ b ++ S_ "/" ++ (if g then S_ "g" else []) ++ (if i then S_ "i" else []) ++ y.
Proof.
  intros s ts d b g i L M I. unfold js_minify, js_minify_tokens in M. rewrite (lexes_tokenize s ts L) in M.
  cbn [obind] in M. destruct (clean_tokens_spec ts) as (semis & rest & E & F & X & _).
  rewrite E in M. cbn [obind] in M. injection M as <-. rewrite tokens_show_joined.
  assert (K : In (TRegex b g i) (semis ++ rest)) by (rewrite <- F; apply filter_In; auto).
  apply in_app_iff in K. destruct K as [K|K].
  - rewrite Forall_forall in X. specialize (X _ K). discriminate X.
  - destruct (joined_in _ _ K) as (x & y & J). exists x, y. rewrite J. unfold token_show. cbn [token_chunks].
    destruct g, i; cbn [concat app]; norm; reflexivity.
Qed.

(** Anywhere else, after a word or a closing bracket, it is read as code: its blanks are
    dropped, so that different literals are minified to the same text. *)
Theorem C56_not_recognised : forall p ts w n, lexes p ts -> last_line_slashless p ->
  regex_here (rev ts) = false -> w <> [] -> Forall (fun c => word_char c = true) w ->
  js_minify (p ++ S_ "/" ++ repeat 0x20 n ++ w ++ S_ "/") = js_minify (p ++ S_ "/" ++ w ++ S_ "/").
Proof.
  intros p ts w n L N H Ne W.
  assert (T : forall m, tokenize (p ++ S_ "/" ++ repeat 0x20 m ++ w ++ S_ "/")
    = Ok (ts ++ [TOperation Divide] ++ repeat (TChar Space) m ++ [word_token w; TOperation Divide])).
  { intro m. apply lexes_tokenize. destruct L as (v & u & R & ->). rewrite rev_involutive in H.
    exists (TOperation Divide :: word_token w :: repeat (TChar Space) m ++ TOperation Divide :: flush u v), [].
    assert (RV : forall k (x : token), rev (repeat x k) = repeat x k).
    { intros k x. induction k as [|k IH]; [reflexivity|]. cbn [repeat rev]. rewrite IH.
      clear IH. induction k as [|k IH]; [reflexivity|]. cbn [repeat app]. rewrite IH. reflexivity. }
    split.
    2:{ cbn [flush rev]. rewrite rev_app_distr. cbn [rev]. rewrite RV. norm. reflexivity. }
    change (S_ "/" ++ repeat 0x20 m ++ w ++ S_ "/") with (0x2F :: repeat 0x20 m ++ w ++ [0x2F]).
    eapply reads_trans; [exact (reads_extend _ _ _ _ _ _ (repeat 0x20 m ++ w ++ [0x2F]) R N)|]. cbn [app].
    eapply reads_more; [apply rd_divide|].
    { right. exact H. }
    { intros c E. destruct m as [|m]; [|injection E as <-; reflexivity].
      destruct w as [|d w]; [congruence|]. injection E as <-.
      inversion W as [|x y Wd Wr]; subst. destruct (mem_char d (S_ "/*=")) eqn:M; [exfalso|reflexivity].
      unfold mem_char in M. cbn in M. apply orb_prop in M.
      destruct M as [M|M]; [apply N.eqb_eq in M; subst d; discriminate Wd|]. apply orb_prop in M.
      destruct M as [M|M]; [apply N.eqb_eq in M; subst d; discriminate Wd|]. rewrite orb_false_r in M.
      apply N.eqb_eq in M; subst d; discriminate Wd. }
    assert (BL : forall k v0 x, reads v0 [] (repeat 0x20 k ++ x) (repeat (TChar Space) k ++ v0) [] x).
    { induction k as [|k IH]; intros v0 x; [constructor|]. cbn [repeat app].
      eapply reads_more; [apply (rd_punct v0 [] 0x20 (TChar Space)); reflexivity|]. cbn [flush].
      replace (TChar Space :: repeat (TChar Space) k ++ v0) with (repeat (TChar Space) k ++ TChar Space :: v0); [apply IH|].
      clear. induction k as [|k IH]; [reflexivity|]. cbn [repeat app]. rewrite IH. reflexivity. }
    eapply reads_trans; [apply BL|].
    eapply reads_trans.
    { apply (reads_word w []). cbn [app]. split.
      - eapply Forall_impl; [|exact W]. auto.
      - intros a b E. exfalso. rewrite Forall_forall in W. specialize (W 0x2E). rewrite E in W.
        assert (word_char 0x2E = true) by (apply W; apply in_app_iff; right; now left). discriminate. }
    destruct w as [|c w]; [congruence|]. eapply reads_more; [|constructor].
    apply (rd_divide _ (c :: w) []); [left; reflexivity|discriminate]. }
  unfold js_minify, js_minify_tokens. pose proof (T 0%nat) as T0. cbn [repeat app] in T0.
  rewrite T, T0. cbn [obind]. rewrite !clean_tokens_eq. rewrite !filter_app.
  assert (Z : filter (fun t => negb (useless t)) (repeat (TChar Space) n) = [])
    by (clear; induction n as [|n IH]; [reflexivity|]; exact IH).
  rewrite Z. reflexivity.
Qed.

Example C56_return : lexes (S_ "return ") [TKeyword KReturn; TChar Space]
  /\ regex_here (rev [TKeyword KReturn; TChar Space]) = false
  /\ js_minify (S_ "return /  x/") = Ok (S_ "return/x/").
Proof.
  split; [|split; [reflexivity|vm_compute; reflexivity]].
  exists [TChar Space; TKeyword KReturn], []. split; [|reflexivity].
  let t := eval vm_compute in (S_ "return ") in change (S_ "return ") with t. repeat lex_char.
Qed.

Example C56_case : lexes (S_ "x =") [TOther (S_ "x"); TChar Space; TOperation Equal]
  /\ regex_here (rev [TOther (S_ "x"); TChar Space; TOperation Equal]) = true
  /\ js_minify (S_ "x =/a  b/ig") = Ok (S_ "x=/a  b/gi").
Proof.
  split; [|split; [reflexivity|vm_compute; reflexivity]].
  exists [TOperation Equal; TChar Space; TOther (S_ "x")], []. split; [|reflexivity].
  let t := eval vm_compute in (S_ "x =") in change (S_ "x =") with t. repeat lex_char.
Qed.

(** A quote in such a literal is lost, and a slash in a character class ends the literal. *)
Theorem C56_damaged :
  js_minify (S_ "return /'/.test(x)") = Ok (S_ "return//.test(x)")
  /\ js_minify (S_ "if(a) /b  c/.test(d)") = Ok (S_ "if(a)/b c/.test(d)")
  /\ js_minify (S_ "a=/[/]  b/") = Ok (S_ "a=/[/]b/").
Proof. vm_compute. auto. Qed.

(** ** C57: division where the tokenizer looks for a regular expression

    After [++] or [--] the tokenizer takes a slash for the start of a regular expression.  The
    slash is a division all the same, and what follows is read as it is written, if its line has
    no other slash and no dot, backtick or backslash. *)
Theorem C57_division : forall p ts l r, lexes p ts -> last_line_slashless p ->
  regex_here (rev ts) = true -> open_line l r -> closed_literals (l ++ r) ->
  (exists c, hd_error (l ++ r) = Some c /\ mem_char c (S_ "/*=") = false) ->
  exists us ps, tokenize (p ++ S_ "/" ++ l ++ r) = Ok (ts ++ TOperation Divide :: us)
    /\ concat ps = l ++ r /\ Forall2 spells ps us.
Proof.
  intros p ts l r L N H O C Hd. destruct (lexes_reach p ts (l ++ r) L N) as (v & w & R & ->).
  rewrite rev_involutive in H.
  destruct (closed_reads_any (fun _ => True) (fun _ _ => I) (length (l ++ r)) (l ++ r) (le_n _) C
    (TOperation Divide :: flush w v) []) as (v' & w' & R2 & _); [apply Forall_forall; auto|].
  destruct (reads_tiles _ _ _ _ _ _ R2 (TOperation Divide :: flush w v) []) as (q & T & W & E).
  { exists [], []. repeat split. constructor. } { constructor. }
  cbn [app] in E. rewrite app_nil_r in E.
  destruct (tiles_flush _ _ _ _ T W) as (x & ps & Ex & Ec & F).
  exists (rev x), ps. split; [|split; [congruence|exact F]].
  apply lexes_tokenize. exists v', w'. split.
  - eapply reads_trans; [exact R|]. eapply reads_more; [apply rd_open; assumption|exact R2].
  - rewrite Ex, rev_app_distr. cbn [rev]. norm. reflexivity.
Qed.

Theorem C57_division_equal : forall p ts l r, lexes p ts -> last_line_slashless p ->
  regex_here (rev ts) = true -> open_line l r -> closed_literals (l ++ r) ->
  exists us ps, tokenize (p ++ S_ "/=" ++ l ++ r) = Ok (ts ++ TOperation DivideEqual :: us)
    /\ concat ps = l ++ r /\ Forall2 spells ps us.
Proof.
  intros p ts l r L N H O C. destruct (lexes_reach p ts (0x3D :: l ++ r) L N) as (v & w & R & ->).
  rewrite rev_involutive in H.
  destruct (closed_reads_any (fun _ => True) (fun _ _ => I) (length (l ++ r)) (l ++ r) (le_n _) C
    (TOperation DivideEqual :: flush w v) []) as (v' & w' & R2 & _); [apply Forall_forall; auto|].
  destruct (reads_tiles _ _ _ _ _ _ R2 (TOperation DivideEqual :: flush w v) []) as (q & T & W & E).
  { exists [], []. repeat split. constructor. } { constructor. }
  cbn [app] in E. rewrite app_nil_r in E.
  destruct (tiles_flush _ _ _ _ T W) as (x & ps & Ex & Ec & F).
  exists (rev x), ps. split; [|split; [congruence|exact F]].
  apply lexes_tokenize. exists v', w'. split.
  - eapply reads_trans; [exact R|]. eapply reads_more; [apply rd_open_equal; assumption|exact R2].
  - rewrite Ex, rev_app_distr. cbn [rev]. norm. reflexivity.
Qed.

Example C57_case :
  lexes (S_ "a++ ") [TOther (S_ "a"); TOperation Addition; TOperation Addition; TChar Space]
  /\ regex_here (rev [TOther (S_ "a"); TOperation Addition; TOperation Addition; TChar Space]) = true
  /\ js_minify (S_ "a++ / 2 + 'b c';" ++ [0xA] ++ S_ "d = e") = Ok (S_ "a++/2+'b c';d=e").
Proof.
  split; [|split; [reflexivity|vm_compute; reflexivity]].
  exists [TChar Space; TOperation Addition; TOperation Addition; TOther (S_ "a")], [].
  split; [|reflexivity].
  let t := eval vm_compute in (S_ "a++ ") in change (S_ "a++ ") with t. repeat lex_char.
Qed.

(** With another slash on the line both are taken for the ends of a regular expression; with a
    dot the line is read wrongly: what follows is left out, commented out or doubled. *)
Theorem C57_refuted :
  js_minify (S_ "a++ /  b - c++ /  d") = Ok (S_ "a++/  b - c++ /d")
  /\ js_minify (S_ "a++ / 2 // c" ++ [0xA] ++ S_ "b()") = Ok (S_ "a++/ 2 //c b()")
  /\ js_minify (S_ "a++ / b.c;" ++ [0xA] ++ S_ "(d)") = Ok (S_ "a++/b.c;" ++ [0xA] ++ S_ "(;(d)").
Proof. vm_compute. auto. Qed.

Print Assumptions C54_read_back.
Print Assumptions C54_blanks.
Print Assumptions C54_idempotent.
Print Assumptions C54_closed.
Print Assumptions C54_glued_refuted.
Print Assumptions C54_idempotent_refuted.
Print Assumptions C55_size.
Print Assumptions C55_not_longer.
Print Assumptions C55_longer.
Print Assumptions C56_recognised.
Print Assumptions C56_appended.
Print Assumptions C56_kept.
Print Assumptions C56_not_recognised.
Print Assumptions C56_damaged.
Print Assumptions C57_division.
Print Assumptions C57_division_equal.
Print Assumptions C57_refuted.
