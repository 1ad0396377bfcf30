(** The minified JS source does not depend on the layout of the source. *)
From Coq Require Import String List NArith ZArith Bool Lia ZifyBool ZifyN Arith.
From Verif Require Import Base JsModel JsUtilModel JsUtilSpec JsUtilProofs JsUtilProofs2 JsLexSpec
  JsLexProofs1 JsLexProofs2 JsLexProofs3 JsWords JsLexProofs4 JsLexProofs6 JsRoundSpec JsRoundProofs1 JsRoundProofs2 JsRoundProofs3 JsLayoutSpec.
Import ListNotations.
Open Scope N_scope.

(** ** Tokens *)

Lemma minify_kept : forall s ts, lexes s ts -> js_minify s = Ok (tokens_show (drop_semicolons (kept ts))).
Proof.
  intros s ts L. unfold js_minify, js_minify_tokens. rewrite (lexes_tokenize s ts L). cbn [obind].
  rewrite clean_tokens_eq. reflexivity.
Qed.

(** ** Reading on with other insignificant tokens before *)

Lemma flush_app : forall w x a, flush w (x ++ a) = flush w x ++ a.
Proof. intros [|c w] x a; reflexivity. Qed.

Lemma significant_app : forall x a b, significant a = significant b -> significant (x ++ a) = significant (x ++ b).
Proof. induction x as [|t x IH]; intros a b H; [exact H|]. cbn. rewrite (IH a b H). reflexivity. Qed.

Lemma regex_here_app : forall x a b, significant a = significant b -> regex_here (x ++ a) = regex_here (x ++ b).
Proof. intros x a b H. unfold regex_here. rewrite (significant_app x a b H). reflexivity. Qed.

Lemma reads_token_behind : forall v w s v' w' s' x a b, reads_token v w s v' w' s' -> v = x ++ a ->
  significant a = significant b ->
  exists x', v' = x' ++ a /\ reads_token (x ++ b) w s (x' ++ b) w' s'.
Proof.
  intros v w s v' w' s' x a b H E S.
  destruct H as
    [v w c s Hc
    |v w s Hd
    |v w s Hd
    |v w c t s Hc
    |v w o t s Ho Hl
    |v w s Hr Hh
    |v w s Hr
    |v w q d s Hq Hb
    |v w d s Hb
    |v w d nl s Hb Hnl
    |v w d s Hb Hh
    |v w d s Hb
    |v w d f s Hr Hb Hh Hf Hs'
    |v w l s Hr Ho Hh
    |v w l s Hr Ho]; subst v.
  1,2: exists x; split; [reflexivity|]; now constructor.
  all: rewrite flush_app in *; pose proof (regex_here_app (flush w x) a b S) as Q; try rewrite Q in Hr;
    match goal with |- exists x', ?t :: _ = _ /\ _ => exists (t :: flush w x) end; (split; [reflexivity|]);
    cbn [app]; rewrite <- flush_app in *.
  - now apply rd_dot.
  - now apply rd_punct.
  - now apply rd_operator.
  - now apply rd_divide.
  - now apply rd_divide_equal.
  - now apply rd_string.
  - now apply rd_template.
  - now apply rd_line_comment.
  - now apply rd_comment.
  - now apply rd_license.
  - now apply rd_regex.
  - now apply rd_open.
  - now apply rd_open_equal.
Qed.

Lemma reads_behind : forall v w s v' w' s', reads v w s v' w' s' -> forall x a b, v = x ++ a ->
  significant a = significant b ->
  exists x', v' = x' ++ a /\ reads (x ++ b) w s (x' ++ b) w' s'.
Proof.
  intros v w s v' w' s' H. induction H as [v w s|v w s v1 w1 s1 v2 w2 s2 H _ IH]; intros x a b E S.
  - exists x. split; [exact E|constructor].
  - destruct (reads_token_behind _ _ _ _ _ _ x a b H E S) as (x1 & E1 & H1).
    destruct (IH x1 a b E1 S) as (x2 & E2 & H2). exists x2. split; [exact E2|]. econstructor; eauto.
Qed.

(** ** Reading a source with a blank behind *)

Definition blank_start (y : str) : Prop := exists c x, y = c :: x /\ mem_char c [0x9; 0xA; 0x20] = true.

Lemma prefix_blank : forall p s c x, prefix p (s ++ c :: x) = true -> mem_char c p = false -> prefix p s = true.
Proof.
  induction p as [|a p IH]; intros s c x H M; [reflexivity|]. cbn in M. apply orb_false_iff in M. destruct M as [M1 M2].
  destruct s as [|b s]; cbn in H |- *.
  - apply andb_true_iff in H. destruct H as [H _]. rewrite N.eqb_sym in H. congruence.
  - apply andb_true_iff in H. destruct H as [H1 H2]. rewrite H1. cbn. eapply IH; eauto.
Qed.

Lemma longest_blank : forall o s y, blank_start y -> longest o s = true -> longest o (s ++ y) = true.
Proof.
  intros o s y (c & x & -> & B) H. unfold longest in *. rewrite forallb_forall in *. intros q I. specialize (H q I).
  apply negb_true_iff in H. apply negb_true_iff. apply andb_false_iff in H. apply andb_false_iff.
  destruct H as [H|H]; [|right; exact H]. left.
  destruct (prefix (fst q) (o ++ s ++ c :: x)) eqn:E; [|reflexivity].
  rewrite app_assoc in E. apply prefix_blank in E; [congruence|].
  assert (K : forallb (fun q => forallb (fun c => negb (mem_char c (fst q))) [0x9; 0xA; 0x20]) operators = true) by reflexivity.
  rewrite forallb_forall in K. specialize (K q I). rewrite forallb_forall in K. apply negb_true_iff. apply K.
  cbn in B. cbn. repeat (apply orb_true_iff in B; destruct B as [B|B]; [apply N.eqb_eq in B; auto|]). discriminate.
Qed.

Lemma dot_blank : forall w s y, blank_start y -> dot_joins w (s ++ y) = dot_joins w s.
Proof.
  intros w [|c s] y (d & x & -> & B); [|reflexivity]. unfold dot_joins. cbn [app]. f_equal.
  assert (K : is_digit d = false /\ number_delimiter d = true).
  { cbn in B. repeat (apply orb_true_iff in B; destruct B as [B|B]; [apply N.eqb_eq in B; subst d; split; reflexivity|]). discriminate. }
  destruct K as [-> ->]. rewrite andb_true_r. reflexivity.
Qed.

Lemma reads_token_blank : forall v w s v' w' s' y, reads_token v w s v' w' s' -> last_line_slashless s -> blank_start y ->
  reads_token v w (s ++ y) v' w' (s' ++ y) /\ last_line_slashless s'.
Proof.
  intros v w s v' w' s' y H NL Y. revert NL.
  pose proof last_line_tail as SL.
  destruct H as
    [v w c s Hc
    |v w s Hd
    |v w s Hd
    |v w c t s Hc
    |v w o t s Ho Hl
    |v w s Hr Hh
    |v w s Hr
    |v w q b s Hq Hb
    |v w b s Hb
    |v w b nl s Hb Hnl
    |v w b s Hb Hh
    |v w b s Hb
    |v w b f s Hr Hb Hh Hf Hs'
    |v w l s Hr Ho Hh
    |v w l s Hr Ho]; intro NL.
  - split; [apply rd_word; exact Hc|exact (SL [c] s NL)].
  - split; [|exact (SL [0x2E] s NL)]. apply rd_word_dot. rewrite dot_blank by exact Y. exact Hd.
  - split; [|exact (SL [0x2E] s NL)]. apply rd_dot. rewrite dot_blank by exact Y. exact Hd.
  - split; [apply rd_punct; exact Hc|exact (SL [c] s NL)].
  - split; [|exact (SL o s NL)]. rewrite <- app_assoc. apply rd_operator; [exact Ho|]. now apply longest_blank.
  - split; [|exact (SL [0x2F] s NL)].
    destruct s as [|c s]; [exfalso; destruct (NL [] [] eq_refl) as (? & [] & _)|].
    apply (rd_divide v w (c :: s ++ y)); [|exact Hh].
    destruct Hr as [Hr|Hr]; [discriminate|right; exact Hr].
  - split; [|exact (SL [0x2F; 0x3D] s NL)]. apply (rd_divide_equal v w (s ++ y)). exact Hr.
  - split; [|apply (SL (q :: b ++ [q]) s); norm; exact NL].
    norm. apply (rd_string v w q b (s ++ y)); assumption.
  - split; [|apply (SL (0x60 :: b ++ [0x60]) s); norm; exact NL].
    norm. apply (rd_template v w b (s ++ y)); assumption.
  - split; [|apply (SL (0x2F :: 0x2F :: b ++ [nl]) s); norm; exact NL].
    norm. apply (rd_line_comment v w b nl (s ++ y)); assumption.
  - split; [|apply (SL (0x2F :: 0x2A :: b ++ [0x2A; 0x2F]) s); norm; exact NL].
    norm. apply (rd_comment v w b (s ++ y)); assumption.
  - split; [|apply (SL (0x2F :: 0x2A :: 0x21 :: b ++ [0x2A; 0x2F]) s); norm; exact NL].
    norm. apply (rd_license v w b (s ++ y)); assumption.
  - split; [|apply (SL (0x2F :: b ++ 0x2F :: f) s); norm; exact NL].
    norm. apply (rd_regex v w b f (s ++ y)); try assumption.
    intros c E. destruct s as [|d s]; [|now apply Hs']. destruct Y as (c' & x & -> & B). cbn in E. injection E as <-.
    cbn in B. repeat (apply orb_true_iff in B; destruct B as [B|B]; [apply N.eqb_eq in B; subst c'; reflexivity|]). discriminate.
  - split; [|exact (SL [0x2F] _ NL)]. destruct s as [|n s].
    + exfalso. rewrite app_nil_r in NL. destruct (NL [] l eq_refl) as (c & I & Hc).
      destruct Ho as [F _]. rewrite Forall_forall in F. destruct (F c I). congruence.
    + destruct Hh as (c & Hc & M). norm.
      apply (rd_open v w l ((n :: s) ++ y)); [exact Hr| |].
      * destruct Ho as [F [T|(n' & r & T & Hn)]]; [discriminate|]. injection T as -> ->.
        split; [exact F|]. right. exists n', (r ++ y). auto.
      * exists c. split; [|exact M]. destruct l; exact Hc.
  - split; [|exact (SL [0x2F; 0x3D] _ NL)]. destruct s as [|n s].
    + exfalso. rewrite app_nil_r in NL. destruct (NL [] (0x3D :: l) eq_refl) as (c & [<-|I] & Hc); [discriminate|].
      destruct Ho as [F _]. rewrite Forall_forall in F. destruct (F c I). congruence.
    + norm. apply (rd_open_equal v w l ((n :: s) ++ y)); [exact Hr|].
      destruct Ho as [F [T|(n' & r & T & Hn)]]; [discriminate|]. injection T as -> ->.
      split; [exact F|]. right. exists n', (r ++ y). auto.
Qed.

Lemma reads_blank : forall v w s v' w' s' y, reads v w s v' w' s' -> last_line_slashless s -> blank_start y ->
  reads v w (s ++ y) v' w' (s' ++ y).
Proof.
  intros v w s v' w' s' y H. induction H as [v w s|v w s v1 w1 s1 v2 w2 s2 H _ IH]; intros N Y; [constructor|].
  destruct (reads_token_blank _ _ _ _ _ _ y H N Y) as [A B]. eapply reads_more; [exact A|]. now apply IH.
Qed.

(** ** Reading a gap *)

Lemma layout_reads : forall g, layout g -> g <> [] -> forall v w q, exists x,
  reads v w (g ++ q) (x ++ flush w v) [] q /\ Forall (fun t => useless t = true) x.
Proof.
  assert (M : forall g, layout g -> forall v q, exists x, reads v [] (g ++ q) (x ++ v) [] q /\ Forall (fun t => useless t = true) x).
  { intros g H. induction H as [|c g Hc H IH|b n g Hb Hn H IH|b g Hb Hh H IH]; intros v q.
    - exists []. split; constructor.
    - assert (P : exists t, simple_punct c = Some t /\ useless t = true).
      { cbn in Hc. repeat (apply orb_true_iff in Hc; destruct Hc as [Hc|Hc]; [apply N.eqb_eq in Hc; subst c; eexists; split; reflexivity|]). discriminate. }
      destruct P as (t & P & U). destruct (IH (t :: v) q) as (x & R & F). exists (x ++ [t]). split.
      + cbn [app]. eapply reads_more; [apply rd_punct; exact P|]. rewrite <- app_assoc. exact R.
      + apply Forall_app. auto.
    - destruct (IH (TComment b :: v) q) as (x & R & F). exists (x ++ [TComment b]). split; [|apply Forall_app; auto].
      norm. eapply reads_more; [apply rd_line_comment; eassumption|]. exact R.
    - destruct (IH (TComment b :: v) q) as (x & R & F). exists (x ++ [TComment b]). split; [|apply Forall_app; auto].
      norm. eapply reads_more; [apply rd_comment; eassumption|]. exact R. }
  intros g H Ne v w q. destruct H as [|c g Hc H|b n g Hb Hn H|b g Hb Hh H]; [congruence| | |].
  - assert (P : exists t, simple_punct c = Some t /\ useless t = true).
    { cbn in Hc. repeat (apply orb_true_iff in Hc; destruct Hc as [Hc|Hc]; [apply N.eqb_eq in Hc; subst c; eexists; split; reflexivity|]). discriminate. }
    destruct P as (t & P & U). destruct (M g H (t :: flush w v) q) as (x & R & F). exists (x ++ [t]). split.
    + cbn [app]. eapply reads_more; [apply rd_punct; exact P|]. rewrite <- app_assoc. exact R.
    + apply Forall_app. auto.
  - destruct (M g H (TComment b :: flush w v) q) as (x & R & F). exists (x ++ [TComment b]). split; [|apply Forall_app; auto].
    norm. eapply reads_more; [apply rd_line_comment; eassumption|]. exact R.
  - destruct (M g H (TComment b :: flush w v) q) as (x & R & F). exists (x ++ [TComment b]). split; [|apply Forall_app; auto].
    norm. eapply reads_more; [apply rd_comment; eassumption|]. exact R.
Qed.

Lemma useless_significant : forall x a, Forall (fun t => useless t = true) x -> significant (x ++ a) = significant a.
Proof.
  intros x a F. induction F as [|t x Ht F IH]; [reflexivity|]. cbn [app significant].
  assert (I : insignificant t = true) by (destruct t as [k|c| | | | | | | | | | |]; try discriminate; try reflexivity; destruct c; try discriminate; reflexivity).
  rewrite I. exact IH.
Qed.

Lemma gap_start : forall g q, gap g -> blank_start (g ++ q) \/ exists x, g ++ q = 0x2F :: x.
Proof.
  intros g q (L & Ne & Hd). destruct L as [|c g Hc L|b n g Hb Hn L|b g Hb Hh L]; [congruence| |right; eexists; reflexivity|right; eexists; reflexivity].
  left. exists c, (g ++ q). split; [reflexivity|]. cbn in Hd, Hc |- *.
  destruct (N.eqb_spec c 9); [reflexivity|]. destruct (N.eqb_spec c 10); [reflexivity|].
  destruct (N.eqb_spec c 13); [subst; congruence|]. exact Hc.
Qed.

Lemma gap_lexes : forall p ts g q us, lexes p ts -> last_line_slashless p -> gap g -> lexes_after ts q us ->
  exists x, lexes (p ++ g ++ q) (ts ++ x ++ us) /\ Forall (fun t => useless t = true) x.
Proof.
  intros p ts g q us (v & w & R & E) N G (v' & w' & R' & E').
  assert (R1 : reads [] [] (p ++ g ++ q) v w (g ++ q)).
  { destruct (gap_start g q G) as [Y|[x X]].
    - exact (reads_blank _ _ _ _ _ _ _ R N Y).
    - rewrite X. exact (reads_extend _ _ _ _ _ _ x R N). }
  destruct G as (L & Ne & _). destruct (layout_reads g L Ne v w q) as (x & R2 & F).
  assert (ER : rev ts = flush w v) by (rewrite E; apply rev_involutive). rewrite ER in R'.
  destruct (reads_behind _ _ _ _ _ _ R' [] (flush w v) (x ++ flush w v) eq_refl) as (y & Ey & R3).
  { symmetry. apply useless_significant. exact F. }
  exists (rev x). split; [|apply Forall_rev; exact F].
  exists (y ++ x ++ flush w v), w'. split.
  - eapply reads_trans; [exact R1|]. eapply reads_trans; [exact R2|]. exact R3.
  - rewrite Ey, flush_app, rev_app_distr, <- ER, rev_involutive in E'. apply app_inv_head in E'. subst us.
    rewrite flush_app, !rev_app_distr, <- ER, rev_involutive, <- app_assoc. reflexivity.
Qed.

Lemma kept_gap : forall ts x us, Forall (fun t => useless t = true) x -> kept (ts ++ x ++ us) = kept ts ++ kept us.
Proof.
  intros ts x us F. unfold kept. rewrite !filter_app. f_equal.
  assert (E : filter (fun t => negb (useless t)) x = []); [|rewrite E; reflexivity].
  induction F as [|t x Ht F IH]; [reflexivity|]. cbn. rewrite Ht. exact IH.
Qed.

Theorem gap_minify : forall p ts g q us, lexes p ts -> last_line_slashless p -> gap g -> lexes_after ts q us ->
  js_minify (p ++ g ++ q) = Ok (tokens_show (drop_semicolons (kept ts ++ kept us))).
Proof.
  intros p ts g q us L N G A. destruct (gap_lexes p ts g q us L N G A) as (x & L' & F).
  rewrite (minify_kept _ _ L'), (kept_gap ts x us F). reflexivity.
Qed.

Lemma closed_after : forall ts q, closed_literals q -> exists us, lexes_after ts q us.
Proof.
  intros ts q C. destruct (closed_reads_any (fun _ => True) (fun _ _ => I) (length q) q (le_n _) C (rev ts) []) as (v & w & R & _).
  { apply Forall_forall. auto. }
  destruct (reads_behind _ _ _ _ _ _ R [] (rev ts) (rev ts) eq_refl eq_refl) as (x & -> & _).
  exists (rev (flush w x)). exists (x ++ rev ts), w. split; [exact R|]. rewrite flush_app, rev_app_distr, rev_involutive. reflexivity.
Qed.

(** ** Line ends *)

Lemma line_ends_none : forall s, Forall (fun c => newline c = false) s -> line_ends s = [].
Proof. intros s F. induction F as [|c s H F IH]; [reflexivity|]. cbn. rewrite H. exact IH. Qed.

Lemma word_char_line : forall c, word_char c = true -> newline c = false.
Proof.
  intros c H. unfold newline. destruct (N.eqb_spec c 0xA); [subst; discriminate|].
  destruct (N.eqb_spec c 0xD); [subst; discriminate|]. reflexivity.
Qed.

Lemma spells_ends : forall p t, spells p t -> useless t = false -> line_ends (token_show t) = inner_ends t.
Proof.
  intros p t H U. destruct H as [p t Ne W C| |c t C|o t O| | |q b Q B|b B|b n B Nl|b B|b B|b f B F];
    try reflexivity; try discriminate U.
  - assert (L : Forall (fun c => newline c = false) p).
    { eapply Forall_impl; [|exact W]. cbn. intros a [A|A]; [now apply word_char_line|subst; reflexivity]. }
    destruct C as [k E|I|I F|K I F]; unfold token_show; cbn [token_chunks concat inner_ends]; rewrite app_nil_r.
    + rewrite <- E. now apply line_ends_none.
    + apply line_ends_none. destruct (number_show_digits (value p)) as [D _].
      eapply Forall_impl; [|exact D]. cbn. intros a A. unfold newline. lia.
    + now apply line_ends_none.
    + now apply line_ends_none.
  - unfold simple_punct in C.
    repeat match type of C with (if ?b then _ else _) = _ => destruct b; [injection C as <-; try reflexivity; discriminate U|] end.
    discriminate.
  - unfold operators in O. cbn [In] in O. repeat (destruct O as [O|O]; [injection O as <- <-; reflexivity|]). destruct O.
  - unfold token_show, line_ends. cbn [token_chunks concat inner_ends]. rewrite app_nil_r. reflexivity.
  - unfold token_show, line_ends. cbn [token_chunks concat inner_ends]. rewrite app_nil_r. reflexivity.
  - unfold token_show, line_ends. cbn [token_chunks concat inner_ends]. rewrite !filter_app. cbn. rewrite app_nil_r. reflexivity.
  - unfold token_show, line_ends. cbn [token_chunks inner_ends]. rewrite !concat_app, !filter_app. cbn [concat].
    rewrite !filter_app. destruct (mem_char 0x67 f), (mem_char 0x69 f); cbn; rewrite !app_nil_r; reflexivity.
Qed.

Lemma separator_ends : forall a b, line_ends (separator a b) = [].
Proof. intros a b. unfold separator. destruct (_ || _); reflexivity. Qed.

Lemma joined_ends : forall l, (forall t, In t l -> line_ends (token_show t) = inner_ends t) ->
  line_ends (joined l) = flat_map inner_ends l.
Proof.
  induction l as [|a r IH]; intros H; [reflexivity|].
  replace (joined (a :: r)) with (token_show a ++ match r with [] => [] | b :: _ => separator a b end ++ joined r)
    by (destruct r; [reflexivity|reflexivity]).
  unfold line_ends in *. rewrite !filter_app. cbn [flat_map]. rewrite (H a (or_introl eq_refl)), IH by (intros t I; apply H; now right).
  f_equal. destruct r as [|b r]; [reflexivity|]. fold (line_ends (separator a b)). rewrite separator_ends. reflexivity.
Qed.

Lemma drop_ends : forall l, flat_map inner_ends (drop_semicolons l) = flat_map inner_ends l.
Proof.
  induction l as [|t r IH]; [reflexivity|]. cbn [drop_semicolons]. destruct (eq_char SemiColon t) eqn:E; [|reflexivity].
  apply eq_char_eq in E. subst t. exact IH.
Qed.

Lemma kept_ends : forall l, flat_map inner_ends (kept l) = flat_map inner_ends l.
Proof.
  induction l as [|t r IH]; [reflexivity|]. unfold kept in *. cbn [filter flat_map]. destruct (useless t) eqn:U; cbn [negb].
  - rewrite IH. destruct t; try discriminate U; reflexivity.
  - cbn [flat_map]. rewrite IH. reflexivity.
Qed.

Lemma drop_in : forall l t, In t (drop_semicolons l) -> In t l.
Proof.
  induction l as [|a r IH]; intros t H; [exact H|]. cbn [drop_semicolons] in H. destruct (eq_char SemiColon a); [right; auto|exact H].
Qed.

Theorem minify_ends : forall s ts d, lexes s ts -> js_minify s = Ok d -> line_ends d = flat_map inner_ends ts.
Proof.
  intros s ts d L M. rewrite (minify_kept s ts L) in M. injection M as <-. rewrite tokens_show_joined, joined_ends, drop_ends, kept_ends; [reflexivity|].
  intros t I. apply drop_in in I. apply filter_In in I. destruct I as [I U]. apply negb_true_iff in U.
  destruct (lexes_tiles s ts L) as (ps & _ & F).
  assert (X : exists p, spells p t).
  { clear -F I. induction F as [|p a ps ts H F IH]; [destruct I|]. destruct I as [<-|I]; eauto. }
  destruct X as [p X]. exact (spells_ends p t X U).
Qed.
