(** * JavaScript: the tokenizer

    C21 - C25, C49 and C50.  The lexical specification is JsLexSpec: [reads], [lexes],
    [spells], [classified], [ends_in]. *)
From Coq Require Import String List NArith ZArith Bool Lia ZifyBool ZifyN.
From Verif Require Import Base JsModel JsUtilModel JsUtilSpec JsUtilProofs JsUtilProofs2 JsLexSpec
  JsLexProofs1 JsLexProofs2 JsLexProofs3 JsWords JsLexProofs4 JsLexProofs5 JsLexProofs6.
Import ListNotations.
Open Scope N_scope.

(** ** C21: termination

    The loops of the model have explicit fuel; it never runs out. *)
Theorem C21_tokenize_terminates : forall s, tokenize s <> OutOfFuel.
Proof. intros s E. pose proof (tokenize_ends s) as H. rewrite E in H. exact H. Qed.

Theorem C21_minify_terminates : forall s, js_minify s <> OutOfFuel.
Proof. intros s E. pose proof (js_minify_ends s) as H. rewrite E in H. exact H. Qed.

(** A failed regular expression whose characters are replayed. *)
Example C21_replay : js_minify (S_ "a=/b;" ++ [0xA] ++ S_ "c") = Ok (S_ "a=/b;c").
Proof. vm_compute. reflexivity. Qed.

(** ** C22: panics

    Apart from what follows a regular expression that does not end and has a dot, a backtick or
    a backslash on its line, a panic comes from a line
    comment at the end of the source that starts with a multi-byte character, or from a block
    comment that does not end and whose last character is multi-byte. *)
Definition panics_at (v : list token) (s : str) : Prop :=
  (exists c r, s = S_ "//" ++ c :: r /\ Forall (fun c => newline c = false) (c :: r) /\ 0x80 <= c)
  \/ (exists r c, s = S_ "/*" ++ r ++ [c] /\ has_comment_end (r ++ [c]) = false /\ 0x80 <= c).

Definition open_regex (v : list token) (s : str) : Prop :=
  exists c r, s = 0x2F :: c :: r /\ regex_here v = true /\ mem_char c (S_ "/*") = false
    /\ ~ (exists b t, regex_body b /\ c :: r = b ++ 0x2F :: t)
    /\ ~ (exists l t, c :: r = l ++ t /\ open_line l t).

Theorem C22_panic_only_if : forall s, tokenize s = Panic ->
  exists v w s', reads [] [] s v w s' /\ (panics_at (flush w v) s' \/ open_regex (flush w v) s').
Proof.
  intros s E. destruct (tokenize_ends_in s) as (v & w & s' & R & H). exists v, w, s'. split; [exact R|].
  rewrite E in H. inversion H; subst.
  - left. left. exists c, r. auto.
  - left. right. exists x, c. auto.
  - right. exists c, r. auto 6.
Qed.

Theorem C22_line_comment_panics : forall s v w c r, reads [] [] s v w (S_ "//" ++ c :: r) ->
  Forall (fun c => newline c = false) (c :: r) -> 0x80 <= c -> js_minify s = Panic.
Proof.
  intros s v w c r R F C. unfold js_minify, js_minify_tokens.
  rewrite (final_comment s v w (c :: r) R F). replace (c <? 0x80) with false by lia. reflexivity.
Qed.

Theorem C22_block_comment_panics : forall s v w r c, reads [] [] s v w (S_ "/*" ++ r ++ [c]) ->
  has_comment_end (r ++ [c]) = false -> 0x80 <= c -> js_minify s = Panic.
Proof.
  intros s v w r c R F C. unfold js_minify, js_minify_tokens.
  rewrite (block_panics s v w r c R F C). reflexivity.
Qed.

(** So it is for such a comment behind any source that is read, if the last line of the source
    has no slash. *)
Theorem C22_appended_panics : forall p ts c r, lexes p ts -> last_line_slashless p -> 0x80 <= c ->
  (Forall (fun c => newline c = false) (c :: r) -> js_minify (p ++ S_ "//" ++ c :: r) = Panic)
  /\ (has_comment_end (r ++ [c]) = false -> js_minify (p ++ S_ "/*" ++ r ++ [c]) = Panic).
Proof.
  intros p ts c r L N C. split; intro F.
  - destruct (lexes_reach p ts (0x2F :: c :: r) L N) as (v & w & R & _).
    exact (C22_line_comment_panics _ v w c r R F C).
  - destruct (lexes_reach p ts (0x2A :: r ++ [c]) L N) as (v & w & R & _).
    exact (C22_block_comment_panics _ v w r c R F C).
Qed.

(** A failed regular expression: the characters seen by the look-ahead are replayed out of
    order, and the positions of the tokens are then wrong. *)
Theorem C22_regex_panics : exists s, js_minify s = Panic
  /\ Forall (fun c => c < 0x80) s.
Proof.
  exists (S_ "=/a.b." ++ [0xA] ++ S_ ";"). split; [vm_compute; reflexivity|].
  repeat constructor.
Qed.

(** Without a slash there is no panic. *)
Theorem C22_no_slash_no_panic : forall s, mem_char 0x2F s = false ->
  tokenize s <> Panic /\ js_minify s <> Panic.
Proof.
  intros s M.
  assert (T : tokenize s <> Panic).
  { intro E. destruct (C22_panic_only_if s E) as (v & w & s' & R & H).
    pose proof (no_slash_suffix _ _ _ _ R M) as M'.
    destruct H as [[(c & r & -> & _)|(r & c & -> & _)]|(c & r & -> & _)]; discriminate M'. }
  split; [exact T|]. unfold js_minify, js_minify_tokens. intro E. apply T.
  destruct (tokenize s) as [ts| | |]; try reflexivity; try discriminate E.
  cbn [obind] in E. rewrite clean_tokens_eq in E. discriminate E.
Qed.

(** With closed comments and regular expressions there is none either. *)
Theorem C22_read_no_panic : forall s ts, lexes s ts -> exists d, js_minify s = Ok d.
Proof.
  intros s ts L. unfold js_minify, js_minify_tokens. rewrite (lexes_tokenize s ts L).
  cbn [obind]. rewrite clean_tokens_eq. eexists. reflexivity.
Qed.

Example C22_case1 : js_minify (S_ "a;/*" ++ [0xE9]) = Panic /\ js_minify (S_ "a;//" ++ [0xE9] ++ S_ "a") = Panic.
Proof. vm_compute. auto. Qed.
Example C22_case2 : mem_char 0x2F (S_ "var a = 'unclosed") = false
  /\ js_minify (S_ "var a = 'unclosed") = Ok (S_ "var a=unclosed").
Proof. vm_compute. auto. Qed.

(** ** C23: tokenization is lossless

    Reading by the specification is what tokenize does; *)
Theorem C23_lexes : forall s ts, lexes s ts -> tokenize s = Ok ts.
Proof. exact lexes_tokenize. Qed.

(** the pieces read for the tokens make up the source; *)
Theorem C23_tiles : forall s ts, lexes s ts -> exists ps, concat ps = s /\ Forall2 spells ps ts.
Proof. exact lexes_tiles. Qed.

(** and for sources without slash whose literals are closed, the printed tokens are the source
    up to line ends and leading zeros. *)
Theorem C23_lossless : forall s, closed_literals s ->
  exists ts ps, tokenize s = Ok ts /\ concat ps = s /\ Forall2 spells ps ts
    /\ Forall2 (fun p t => reprints p (token_show t)) ps ts.
Proof.
  intros s C. destruct (closed_lexes s C) as (ts & L & P).
  destruct (lexes_tiles s ts L) as (ps & E & F). exists ts, ps.
  split; [exact (lexes_tokenize s ts L)|]. split; [exact E|]. split; [exact F|].
  now apply spells_shows.
Qed.

(** Licenses are printed as they stand, regular expressions too but for the order of the
    flags. *)
Theorem C23_licenses : forall p b, spells p (TLicense b) -> token_show (TLicense b) = p.
Proof. exact license_show. Qed.

Theorem C23_regexes : forall p r g i, spells p (TRegex r g i) ->
  exists f, p = S_ "/" ++ r ++ S_ "/" ++ f /\ Forall (fun c => flag c = true) f
    /\ token_show (TRegex r g i) = S_ "/" ++ r ++ S_ "/"
         ++ (if mem_char 0x67 f then S_ "g" else []) ++ (if mem_char 0x69 f then S_ "i" else []).
Proof. exact regex_show. Qed.

(** An unclosed string is not: the quote is lost. *)
Theorem C23_unclosed_refuted : exists s ts, mem_char 0x2F s = false /\ tokenize s = Ok ts
  /\ (length (concat (map token_show ts)) < length s)%nat.
Proof.
  exists (S_ "a='b"), [TOther (S_ "a"); TOperation Equal; TOther (S_ "b")].
  split; [reflexivity|]. split; [vm_compute; reflexivity|]. cbn. lia.
Qed.

Example C23_case : closed_literals (S_ "let a = 007 + 'it/s';" ++ [0xD]) /\
  tokenize (S_ "let a = 007 + 'it/s';" ++ [0xD])
  = Ok [TKeyword KLet; TChar Space; TOther (S_ "a"); TChar Space; TOperation Equal; TChar Space;
        TNumber 7; TChar Space; TOperation Addition; TChar Space; TString (S_ "'it/s'");
        TChar SemiColon; TChar Backline].
Proof.
  split; [|vm_compute; reflexivity].
  let t := eval vm_compute in (S_ "let a = 007 + 'it/s';" ++ [0xD]) in
  change (S_ "let a = 007 + 'it/s';" ++ [0xD]) with t.
  repeat (apply cs_char; [reflexivity|]).
  apply (cs_string 0x27 (S_ "it/s") [0x3B; 0xD]); [auto| |].
  - repeat (apply sb_char; [discriminate|discriminate|]). apply sb_nil.
  - repeat (apply cs_char; [reflexivity|]). apply cs_nil.
Qed.

(** ** C24: a line comment at the end of the source

    All of its text but the first character is code in the result. *)
Theorem C24_comment_leaks : forall s v w c r, reads [] [] s v w (S_ "//" ++ c :: r) ->
  Forall (fun c => newline c = false) (c :: r) -> c < 0x80 -> r <> [] ->
  exists t, tokenize s = Ok (rev (flush w v) ++ [t])
    /\ (mem_char 0x2B r = false -> mem_char 0x2D r = false -> classified r t).
Proof.
  intros s v w c r R F C Ne. exists (word_token r). split.
  - rewrite (final_comment s v w (c :: r) R F). replace (c <? 0x80) with true by lia.
    destruct r; [congruence|reflexivity].
  - intros A B. apply word_token_classified; [|reflexivity]. clear - A B.
    induction r as [|d r IH]; constructor.
    + unfold mem_char in A, B. cbn [existsb] in A, B. apply orb_false_iff in A, B. lia.
    + apply IH; unfold mem_char in *; cbn [existsb] in A, B; apply orb_false_iff in A, B; tauto.
Qed.

(** In particular behind any source that is read and has no slash on its last line. *)
Theorem C24_appended_leaks : forall p ts c r, lexes p ts -> last_line_slashless p ->
  Forall (fun c => newline c = false) (c :: r) -> c < 0x80 -> r <> [] ->
  exists t, tokenize (p ++ S_ "//" ++ c :: r) = Ok (ts ++ [t])
    /\ (mem_char 0x2B r = false -> mem_char 0x2D r = false -> classified r t).
Proof.
  intros p ts c r L N F C Ne. destruct (lexes_reach p ts (0x2F :: c :: r) L N) as (v & w & R & ->).
  exact (C24_comment_leaks _ v w c r R F C Ne).
Qed.

(** Minified: the comment alone comes out as its text without the first character, unless that
    is an integer. *)
Theorem C24_comment_minified : forall c r,
  Forall (fun c => newline c = false) (c :: r) -> c < 0x80 ->
  mem_char 0x2B r = false -> mem_char 0x2D r = false -> ~ small_integer r ->
  js_minify (S_ "//" ++ c :: r) = Ok r.
Proof.
  intros c r F C A B S. destruct r as [|d r].
  - unfold js_minify, js_minify_tokens.
    rewrite (final_comment (S_ "//" ++ [c]) [] [] [c]); [|apply reads_none|exact F].
    replace (c <? 0x80) with true by lia. reflexivity.
  - destruct (C24_comment_leaks (S_ "//" ++ c :: d :: r) [] [] c (d :: r)) as (t & T & K);
      [apply reads_none|exact F|exact C|discriminate|].
    specialize (K A B). unfold js_minify, js_minify_tokens.
    rewrite T. cbn [flush rev app].
    cbn [obind]. rewrite clean_tokens_eq. cbn [obind].
    destruct K as [k ->|S'|_ _|_ _ _]; [|contradiction| |].
    + destruct k; reflexivity.
    + cbn. rewrite app_nil_r. reflexivity.
    + cbn. rewrite app_nil_r. reflexivity.
Qed.

Example C24_case : js_minify (S_ "//abc") = Ok (S_ "bc")
  /\ js_minify (S_ "f();// see g()") = Ok (S_ "f();see g()").
Proof. vm_compute. auto. Qed.

(** ** C25: nesting of template literals *)

(** The only error is the nesting error. *)
Theorem C25_only_error : forall s e, tokenize s = Err e -> e = nesting_error.
Proof. intros s e E. pose proof (tokenize_ends s) as H. rewrite E in H. exact H. Qed.

(** It is given where a template literal is opened deeper than 1000. *)
Theorem C25_rejected : forall s v w r, reads [] [] s v w (0x60 :: r) -> too_deep 0 r ->
  tokenize s = Err nesting_error.
Proof.
  intros s v w r R D. destruct (unclosed_template s v w r R (too_deep_open r D)) as [[_ E]|[X _]]; [exact E|contradiction].
Qed.

(** It is given for nothing else (a regular expression that does not end apart). *)
Theorem C25_only_rejected : forall s e, tokenize s = Err e ->
  exists v w s', reads [] [] s v w s' /\ ((exists r, s' = 0x60 :: r /\ too_deep 0 r) \/ open_regex (flush w v) s').
Proof.
  intros s e E. destruct (tokenize_ends_in s) as (v & w & s' & R & H). exists v, w, s'. split; [exact R|].
  rewrite E in H. inversion H; subst.
  - left. eauto.
  - right. exists c, r. auto 6.
Qed.

(** Closed templates within the limit are read. *)
Theorem C25_accepted : forall b, template_body 0 b ->
  js_minify (0x60 :: b ++ [0x60]) = Ok (0x60 :: b ++ [0x60]).
Proof.
  intros b B. unfold js_minify, js_minify_tokens.
  rewrite (lexes_tokenize _ [TString (0x60 :: b ++ [0x60])]).
  - cbn [obind]. rewrite clean_tokens_eq. cbn. rewrite app_nil_r. reflexivity.
  - exists [TString (0x60 :: b ++ [0x60])], []. split; [|reflexivity].
    eapply reads_more; [apply (rd_template [] [] b [] B)|constructor].
Qed.

(** [nested n]: n templates, each in an interpolation of the one before; with the outermost
    template there are n + 1. *)
Theorem C25_nested : forall n,
  js_minify (S_ "`" ++ nested n ++ S_ "`")
  = if N.of_nat n <=? 1000 then Ok (S_ "`" ++ nested n ++ S_ "`") else Err nesting_error.
Proof.
  intro n. destruct (N.leb_spec (N.of_nat n) 1000) as [L|L].
  - exact (C25_accepted (nested n) (nested_closed n 0 L)).
  - unfold js_minify, js_minify_tokens.
    rewrite (C25_rejected _ [] [] (nested n ++ S_ "`")); [reflexivity|constructor|].
    apply nested_deep; [discriminate|exact L].
Qed.

Example C25_case : nested 2 = S_ "${`${``}`}".
Proof. reflexivity. Qed.

(** ** C49: words *)
Theorem C49_words : forall w t, Forall (fun c => c <> 0x2B /\ c <> 0x2D) w ->
  (word_token w = t <-> classified w t).
Proof. exact word_token_classified. Qed.

(** In the context of a source: a word between other characters. *)
Theorem C49_source : forall w, w <> [] -> Forall (fun c => word_char c = true) w ->
  exists t, classified w t /\ tokenize w = Ok [t] /\ js_minify w = Ok (token_show t).
Proof.
  intros w Ne W. exists (word_token w).
  assert (U : Forall (fun c => c <> 0x2B /\ c <> 0x2D) w).
  { eapply Forall_impl; [|exact W]. cbv beta. intros c H. split; intros ->; discriminate. }
  assert (T : tokenize w = Ok [word_token w]).
  { apply lexes_tokenize. exists [], w. split; [|destruct w; [congruence|reflexivity]].
    assert (X : forall w0 u, Forall (fun c => word_char c = true) u -> reads [] w0 u [] (w0 ++ u) []).
    { intros w0 u. revert w0. induction u as [|c u IH]; intros w0 F.
      - rewrite app_nil_r. constructor.
      - inversion F; subst. eapply reads_more; [apply rd_word; assumption|].
        replace (w0 ++ c :: u) with ((w0 ++ [c]) ++ u) by (rewrite <- app_assoc; reflexivity). now apply IH. }
    exact (X [] w W). }
  split; [now apply word_token_classified|]. split; [exact T|].
  unfold js_minify, js_minify_tokens. rewrite T. cbn [obind]. rewrite clean_tokens_eq. cbn [obind].
  unfold word_token.
  destruct (keyword_of w) as [k|]; [destruct k; reflexivity|].
  destruct (u64_of w); [cbn; rewrite !app_nil_r; reflexivity|].
  destruct (f64_ok w); cbn; rewrite !app_nil_r; reflexivity.
Qed.

(** An integer is printed without leading zeros: an octal literal changes its meaning. *)
Theorem C49_integers : forall w, small_integer w ->
  exists z q, w = z ++ q /\ Forall (fun c => c = 0x30) z /\ digits q /\ value q = value w
    /\ token_show (TNumber (value w)) = q.
Proof.
  intros w (Ne & D & L). destruct (number_show_value w Ne D) as (z & E & Z).
  destruct (number_show_digits (value w)) as (D' & V & _).
  exists z, (number_show (value w)). split; [exact E|]. split; [exact Z|]. split; [exact D'|].
  split; [exact V|]. unfold token_show. cbn [token_chunks concat]. apply app_nil_r.
Qed.

Example C49_case : tokenize (S_ "010") = Ok [TNumber 10] /\ js_minify (S_ "010") = Ok (S_ "10")
  /\ tokenize (S_ "1e5") = Ok [TFloatingNumber (S_ "1e5")] /\ tokenize (S_ "NaN") = Ok [TFloatingNumber (S_ "NaN")]
  /\ tokenize (S_ "0x10") = Ok [TOther (S_ "0x10")] /\ tokenize (S_ "return") = Ok [TKeyword KReturn]
  /\ tokenize (S_ "18446744073709551616") = Ok [TFloatingNumber (S_ "18446744073709551616")].
Proof. vm_compute. auto 10. Qed.

(** ** C50: every source

    Every source is read by the specification up to its end, or up to a literal or a comment that
    does not end, or up to a regular expression that does not end and has a dot, a backtick or a
    backslash on its line.  In all cases but the last one the result is determined by what was
    read and what is left. *)
Theorem C50_every_source : forall s, exists v w s',
  reads [] [] s v w s' /\ ends_in (flush w v) s' (tokenize s).
Proof. exact tokenize_ends_in. Qed.

(** Without slash the result is determined: all is read, or the quote of an unclosed literal
    is dropped and what follows it is one word, or the nesting is too deep. *)
Theorem C50_no_slash : forall s, mem_char 0x2F s = false ->
  exists v w s', reads [] [] s v w s' /\
    ((s' = [] /\ tokenize s = Ok (rev (flush w v)))
     \/ (exists q r, s' = q :: r /\ mem_char q [0x22; 0x27; 0x60] = true
         /\ (q <> 0x60 \/ ~ too_deep 0 r) /\ tokenize s = Ok (rev (flush r (flush w v))))
     \/ (exists r, s' = 0x60 :: r /\ too_deep 0 r /\ tokenize s = Err nesting_error)).
Proof.
  intros s M. destruct (tokenize_ends_in s) as (v & w & s' & R & H). exists v, w, s'. split; [exact R|].
  pose proof (no_slash_suffix _ _ _ _ R M) as M'. revert M'.
  destruct H as [|q r Q N|r N D|r D| | | | | | | ]; intro M'; try discriminate M'.
  - left. auto.
  - right. left. exists q, r. split; [reflexivity|]. split; [destruct Q; subst q; reflexivity|].
    split; [left; destruct Q; subst q; discriminate|reflexivity].
  - right. left. exists 0x60, r. auto.
  - right. right. exists r. auto.
Qed.

Example C50_case : tokenize (S_ "a('b c") = Ok [TOther (S_ "a"); TChar OpenParenthese; TOther (S_ "b c")].
Proof. vm_compute. reflexivity. Qed.

Print Assumptions C21_tokenize_terminates.
Print Assumptions C21_minify_terminates.
Print Assumptions C22_panic_only_if.
Print Assumptions C22_line_comment_panics.
Print Assumptions C22_block_comment_panics.
Print Assumptions C22_appended_panics.
Print Assumptions C22_regex_panics.
Print Assumptions C22_no_slash_no_panic.
Print Assumptions C22_read_no_panic.
Print Assumptions C23_lexes.
Print Assumptions C23_tiles.
Print Assumptions C23_lossless.
Print Assumptions C23_licenses.
Print Assumptions C23_regexes.
Print Assumptions C23_unclosed_refuted.
Print Assumptions C24_comment_leaks.
Print Assumptions C24_appended_leaks.
Print Assumptions C24_comment_minified.
Print Assumptions C25_only_error.
Print Assumptions C25_rejected.
Print Assumptions C25_only_rejected.
Print Assumptions C25_accepted.
Print Assumptions C25_nested.
Print Assumptions C49_words.
Print Assumptions C49_source.
Print Assumptions C49_integers.
Print Assumptions C50_every_source.
Print Assumptions C50_no_slash.
