(** What tokenize gives on every source, and the text of the tokens. *)
From Coq Require Import String List NArith ZArith Bool Lia ZifyBool ZifyN Arith.
From Verif Require Import Base JsModel JsUtilModel JsUtilSpec JsUtilProofs JsUtilProofs2 JsLexSpec
  JsLexProofs1 JsLexProofs2 JsLexProofs3 JsWords JsLexProofs4 JsLexProofs5.
Import ListNotations.
Open Scope N_scope.


Theorem tokenize_ends_in : forall s, exists v w s',
  reads [] [] s v w s' /\ ends_in (flush w v) s' (tokenize s).
Proof.
  intro s. destruct (reads_all (length s) s (le_n _) [] []) as (v & w & s' & R & H).
  exists v, w, s'. split; [exact R|]. destruct H as [->|H].
  - rewrite (lexes_tokenize s (rev (flush w v))) by (exists v, w; auto). apply ei_end.
  - destruct H as [q r Q N|r N|r F|r E|c r A B N N'].
    + rewrite (unclosed_string _ _ _ _ _ R Q N). now apply ei_string.
    + destruct (unclosed_template _ _ _ _ R N) as [[D ->]|[D ->]]; [now apply ei_deep|now apply ei_template].
    + rewrite (final_comment _ _ _ _ R F). destruct r as [|c r]; [apply ei_line_empty|].
      destruct (N.ltb_spec c 0x80); [now apply ei_line|now apply ei_line_panic].
    + destruct (unclosed_comment _ _ _ _ R E) as [[-> L]|[-> L]].
      * unfold marked, unmarked in *. destruct r as [|c r]; [apply ei_comment; [reflexivity|discriminate|auto]|].
        cbn [marked] in *. destruct (c =? 0x21) eqn:C.
        -- apply N.eqb_eq in C. subst c. apply ei_license; assumption.
        -- apply ei_comment; [exact E| |exact L]. cbn. intro X. injection X as ->. discriminate.
      * destruct L as (x & c & U & C). unfold unmarked, marked in U. destruct r as [|d r]; [destruct x; discriminate|].
        destruct (d =? 0x21) eqn:Ed; cbn [tl] in U.
        -- subst r. exact (ei_comment_panic (flush w v) (d :: x) c E C).
        -- rewrite U in *. exact (ei_comment_panic (flush w v) x c E C).
    + now apply ei_regex.
Qed.

(** ** The text of a token *)

Lemma spells_show : forall p t, spells p t -> plain t = true -> reprints p (token_show t).
Proof.
  intros p t H S. destruct H as [p t Ne W C| |c t C|o t O| | |q b Q B|b B|b n B Nl|b B|b B|b f B F];
    try discriminate S; unfold token_show; cbn [token_chunks].
  - destruct C as [k ->|[_ [D L]]|_ _|_ _ _]; cbn [token_chunks concat]; rewrite app_nil_r; try apply rp_same.
    destruct (number_show_value p Ne D) as (z & E & Z). rewrite E at 1.
    destruct (number_show_digits (value p)) as (D' & _ & Ne'). now apply rp_integer.
  - apply rp_same.
  - unfold simple_punct in C.
    repeat match type of C with (if ?b then _ else _) = _ => let X := fresh "X" in destruct b eqn:X;
      [injection C as <-; try (apply N.eqb_eq in X; subst c; apply rp_same)|clear X] end; [|discriminate].
    unfold newline in X. apply orb_prop in X. destruct X as [X|X]; apply N.eqb_eq in X; subst c;
      [apply rp_same|apply rp_newline].
  - unfold operators in O. cbn [In] in O.
    repeat (destruct O as [O|O]; [injection O as <- <-; apply rp_same|]). destruct O.
  - apply rp_same.
  - apply rp_same.
  - cbn [concat]. rewrite app_nil_r. apply rp_same.
  - cbn [concat]. rewrite app_nil_r. apply rp_same.
Qed.

Lemma mem_char_app : forall c a b, mem_char c (a ++ b) = mem_char c a || mem_char c b.
Proof. intros. unfold mem_char. apply existsb_app. Qed.

Lemma spells_shows : forall ps ts, Forall2 spells ps ts -> Forall (fun t => plain t = true) ts ->
  Forall2 (fun p t => reprints p (token_show t)) ps ts.
Proof.
  induction 1 as [|p t ps ts H F IH]; intro M; inversion M; subst; constructor; auto.
  apply spells_show; assumption.
Qed.

(** Licenses are printed as they are, regular expressions with their flags in order. *)
Lemma license_show : forall p b, spells p (TLicense b) -> token_show (TLicense b) = p.
Proof.
  intros p b H. remember (TLicense b) as t eqn:E.
  destruct H as [p t Ne W C| |c t C|o t O| | |q b' Q B|b' B|b' n B Nl|b' B|b' B|b' f B F]; subst; try discriminate.
  - inversion C.
  - apply simple_punct_plain in C. discriminate.
  - apply operators_plain in O. discriminate.
  - injection E as ->. unfold token_show. cbn [token_chunks concat]. rewrite app_nil_r. reflexivity.
Qed.

Lemma regex_show : forall p r g i, spells p (TRegex r g i) ->
  exists f, p = S_ "/" ++ r ++ S_ "/" ++ f /\ Forall (fun c => flag c = true) f
    /\ token_show (TRegex r g i) = S_ "/" ++ r ++ S_ "/"
         ++ (if mem_char 0x67 f then S_ "g" else []) ++ (if mem_char 0x69 f then S_ "i" else []).
Proof.
  intros p r g i H. remember (TRegex r g i) as t eqn:E.
  destruct H as [p t Ne W C| |c t C|o t O| | |q b' Q B|b' B|b' n B Nl|b' B|b' B|b' f B F]; subst; try discriminate.
  - inversion C.
  - apply simple_punct_plain in C. discriminate.
  - apply operators_plain in O. discriminate.
  - injection E as -> <- <-. exists f. split; [reflexivity|]. split; [exact F|].
    unfold token_show. cbn [token_chunks concat app].
    destruct (mem_char 0x67 f), (mem_char 0x69 f); cbn; rewrite ?app_nil_r; reflexivity.
Qed.

(** What remains to be read is a suffix. *)
Lemma reads_suffix : forall s v w s', reads [] [] s v w s' -> exists p, s = p ++ s'.
Proof.
  intros s v w s' R. destruct (reads_tiles _ _ _ _ _ _ R [] []) as (p & _ & _ & E).
  - exists [], []. split; [reflexivity|]. split; [reflexivity|constructor].
  - constructor.
  - cbn [app] in E. exists (p ++ w). rewrite E, <- app_assoc. reflexivity.
Qed.

Lemma no_slash_suffix : forall s v w s', reads [] [] s v w s' -> mem_char 0x2F s = false ->
  mem_char 0x2F s' = false.
Proof.
  intros s v w s' R M. destruct (reads_suffix _ _ _ _ R) as [p ->]. rewrite mem_char_app in M.
  now apply orb_false_iff in M.
Qed.

(** ** Reading with more text behind *)

Lemma prefix_slash : forall q a x, mem_char 0x2F q = false ->
  prefix q (a ++ 0x2F :: x) = true -> prefix q a = true.
Proof.
  induction q as [|c q IH]; intros a x M H; [reflexivity|].
  unfold mem_char in M. cbn [existsb] in M. apply orb_false_iff in M. destruct M as [A B].
  destruct a as [|d a]; cbn [app prefix] in H |- *.
  - apply andb_prop in H. destruct H as [H _]. apply N.eqb_eq in H. subst c. discriminate A.
  - apply andb_prop in H. destruct H as [-> H]. exact (IH a x B H).
Qed.

Lemma operators_no_slash : forall q, In q operators -> mem_char 0x2F (fst q) = false.
Proof.
  assert (H : forallb (fun q => negb (mem_char 0x2F (fst q))) operators = true) by reflexivity.
  rewrite forallb_forall in H. intros q I. apply negb_true_iff. exact (H q I).
Qed.

Lemma longest_extend : forall o s x, longest o s = true -> longest o (s ++ 0x2F :: x) = true.
Proof.
  intros o s x H. unfold longest in *. rewrite forallb_forall in *. intros q I. specialize (H q I).
  apply negb_true_iff in H. apply negb_true_iff. apply andb_false_iff in H. apply andb_false_iff.
  destruct H as [H|H]; [|right; exact H]. left.
  destruct (prefix (fst q) (o ++ s ++ 0x2F :: x)) eqn:E; [|reflexivity].
  rewrite app_assoc in E. apply prefix_slash in E; [congruence|]. now apply operators_no_slash.
Qed.

Lemma dot_extend : forall w s x, dot_joins w (s ++ 0x2F :: x) = dot_joins w s.
Proof.
  intros w [|c s] x; [|reflexivity]. unfold dot_joins. cbn [app]. f_equal.
  change (is_digit 0x2F) with false. change (number_delimiter 0x2F) with true.
  rewrite andb_true_r. reflexivity.
Qed.

Lemma last_line_tail : forall p q, last_line_slashless (p ++ q) -> last_line_slashless q.
Proof. intros p q H a l ->. apply (H (p ++ a) l). rewrite app_assoc. reflexivity. Qed.

Lemma reads_token_extend : forall v w s v' w' s' x, reads_token v w s v' w' s' -> last_line_slashless s ->
  reads_token v w (s ++ 0x2F :: x) v' w' (s' ++ 0x2F :: x) /\ last_line_slashless s'.
Proof.
  intros v w s v' w' s' x H. set (y := 0x2F :: x) in *.
  pose proof last_line_tail as SL.
  destruct H as
    [v w c s Hc
    |v w s Hd
    |v w s Hd
    |v w c t s Hc
    |v w o t s Ho Hl
    |v w s Hr Hh
    |v w s Hr
    |v w q b s Hq Hb
    |v w b s Hb
    |v w b nl s Hb Hnl
    |v w b s Hb Hh
    |v w b s Hb
    |v w b f s Hr Hb Hh Hf Hs'
    |v w l s Hr Ho Hh
    |v w l s Hr Ho]; intro NL.
  - split; [apply rd_word; exact Hc|exact (SL [c] s NL)].
  - split; [|exact (SL [0x2E] s NL)]. apply rd_word_dot. unfold y. rewrite dot_extend. exact Hd.
  - split; [|exact (SL [0x2E] s NL)]. apply rd_dot. unfold y. rewrite dot_extend. exact Hd.
  - split; [apply rd_punct; exact Hc|exact (SL [c] s NL)].
  - split; [|exact (SL o s NL)]. rewrite <- app_assoc. apply rd_operator; [exact Ho|]. now apply longest_extend.
  - split; [|exact (SL [0x2F] s NL)].
    destruct s as [|c s]; [exfalso; destruct (NL [] [] eq_refl) as (? & [] & _)|].
    apply (rd_divide v w (c :: s ++ y)); [|exact Hh].
    destruct Hr as [Hr|Hr]; [discriminate|right; exact Hr].
  - split; [|exact (SL [0x2F; 0x3D] s NL)]. apply (rd_divide_equal v w (s ++ y)). exact Hr.
  - split; [|apply (SL (q :: b ++ [q]) s); norm; exact NL].
    norm. apply (rd_string v w q b (s ++ y)); assumption.
  - split; [|apply (SL (0x60 :: b ++ [0x60]) s); norm; exact NL].
    norm. apply (rd_template v w b (s ++ y)); assumption.
  - split; [|apply (SL (0x2F :: 0x2F :: b ++ [nl]) s); norm; exact NL].
    norm. apply (rd_line_comment v w b nl (s ++ y)); assumption.
  - split; [|apply (SL (0x2F :: 0x2A :: b ++ [0x2A; 0x2F]) s); norm; exact NL].
    norm. apply (rd_comment v w b (s ++ y)); assumption.
  - split; [|apply (SL (0x2F :: 0x2A :: 0x21 :: b ++ [0x2A; 0x2F]) s); norm; exact NL].
    norm. apply (rd_license v w b (s ++ y)); assumption.
  - split; [|apply (SL (0x2F :: b ++ 0x2F :: f) s); norm; exact NL].
    norm. apply (rd_regex v w b f (s ++ y)); try assumption.
    intros c E. destruct s as [|d s]; [|now apply Hs']. cbn in E. injection E as <-. reflexivity.
  - split; [|exact (SL [0x2F] _ NL)]. destruct s as [|n s].
    + exfalso. rewrite app_nil_r in NL. destruct (NL [] l eq_refl) as (c & I & Hc).
      destruct Ho as [F _]. rewrite Forall_forall in F. destruct (F c I). congruence.
    + destruct Hh as (c & Hc & M). norm.
      apply (rd_open v w l ((n :: s) ++ y)); [exact Hr| |].
      * destruct Ho as [F [T|(n' & r & T & Hn)]]; [discriminate|]. injection T as -> ->.
        split; [exact F|]. right. exists n', (r ++ y). auto.
      * exists c. split; [|exact M]. destruct l; exact Hc.
  - split; [|exact (SL [0x2F; 0x3D] _ NL)]. destruct s as [|n s].
    + exfalso. rewrite app_nil_r in NL. destruct (NL [] (0x3D :: l) eq_refl) as (c & [<-|I] & Hc); [discriminate|].
      destruct Ho as [F _]. rewrite Forall_forall in F. destruct (F c I). congruence.
    + norm. apply (rd_open_equal v w l ((n :: s) ++ y)); [exact Hr|].
      destruct Ho as [F [T|(n' & r & T & Hn)]]; [discriminate|]. injection T as -> ->.
      split; [exact F|]. right. exists n', (r ++ y). auto.
Qed.

Lemma reads_extend : forall v w s v' w' s' x, reads v w s v' w' s' -> last_line_slashless s ->
  reads v w (s ++ 0x2F :: x) v' w' (s' ++ 0x2F :: x).
Proof.
  intros v w s v' w' s' x H. induction H as [v w s|v w s v1 w1 s1 v2 w2 s2 H _ IH]; intro N; [constructor|].
  destruct (reads_token_extend _ _ _ _ _ _ x H N) as [A B]. eapply reads_more; [exact A|]. now apply IH.
Qed.

(** The reading of [p] goes on with a slash behind. *)
Lemma lexes_reach : forall p ts x, lexes p ts -> last_line_slashless p ->
  exists v w, reads [] [] (p ++ 0x2F :: x) v w (0x2F :: x) /\ ts = rev (flush w v).
Proof.
  intros p ts x (v & w & R & E) N. exists v, w. split; [|exact E].
  exact (reads_extend _ _ _ _ _ _ x R N).
Qed.

(** An unclosed comment that ends in a character of several bytes. *)
Lemma block_panics : forall s v w r c, reads [] [] s v w (0x2F :: 0x2A :: r ++ [c]) ->
  has_comment_end (r ++ [c]) = false -> 0x80 <= c -> tokenize s = Panic.
Proof.
  intros s v w r c R F C.
  destruct (unclosed_comment _ _ _ _ R F) as [[_ L]|[E _]]; [exfalso|exact E].
  assert (U : exists x, unmarked (r ++ [c]) = x ++ [c]).
  { unfold unmarked. destruct (marked (r ++ [c])) eqn:M; [|eauto].
    destruct r as [|d r]; cbn in M |- *; [|eauto]. apply N.eqb_eq in M. subst c. exfalso. apply C. reflexivity. }
  destruct U as [x U]. rewrite U in L. destruct L as [L|(y & d & L & D)]; [destruct x; discriminate|].
  apply app_inj_tail in L. destruct L; subst d. apply (N.lt_irrefl c). eapply N.lt_le_trans; eauto.
Qed.

(** ** Nesting *)

Lemma too_deep_open : forall r, too_deep 0 r ->
  ~ (exists b s, template_body 0 b /\ r = b ++ 0x60 :: s).
Proof.
  intros r D (b & s & B & ->). set (r := b ++ 0x60 :: s) in *.
  destruct (next_at _ _ _ _ _ (at_new (0x60 :: r))) as (it & _ & Ha). cbn [app] in Ha.
  destruct (proj1 template_loops 0 b B (S (length r)) (0x60 :: r) [] [] s it eq_refl Ha (Nat.lt_succ_diag_r _)) as (it' & E & _).
  rewrite (proj1 too_deep_err 0 r D (S (length r)) (0x60 :: r) _ [0x60] it eq_refl Ha (Nat.lt_succ_diag_r _)) in E.
  discriminate.
Qed.

(** n templates, each in an interpolation of the one before. *)
Fixpoint nested (n : nat) : str :=
  match n with O => [] | S m => S_ "${`" ++ nested m ++ S_ "`}" end.

Lemma nested_closed : forall n d, d + N.of_nat n <= 1000 -> template_body d (nested n).
Proof.
  induction n as [|n IH]; intros d L; [apply tb_nil|].
  change (nested (S n)) with (0x24 :: 0x7B :: (0x60 :: nested n ++ 0x60 :: [0x7D])).
  rewrite <- (app_nil_r (0x60 :: nested n ++ 0x60 :: [0x7D])).
  apply tb_interpolation; [|apply tb_nil]. apply ip_template; [lia| |apply ip_end].
  apply IH. lia.
Qed.

Lemma nested_deep : forall n d x, d <= 1000 -> 1000 < d + N.of_nat n -> too_deep d (nested n ++ x).
Proof.
  induction n as [|n IH]; intros d x L G; [lia|].
  replace (nested (S n) ++ x) with (0x24 :: 0x7B :: 0x60 :: nested n ++ (S_ "`}" ++ x)).
  2:{ cbn [nested]. rewrite <- !app_assoc. reflexivity. }
  apply td_inside. destruct (N.eq_dec d 1000) as [->|Nd]; [apply ti_limit; lia|].
  apply ti_inner; [lia|]. apply IH; lia.
Qed.
