(** A tidy source and its minified form have the same tokens in the sense of EsSpec. *)
From Coq Require Import String Arith List NArith ZArith Bool Lia ZifyBool ZifyN.
From Verif Require Import Base JsModel JsUtilModel JsUtilSpec JsUtilProofs JsLexSpec JsRoundProofs1 JsRoundProofs2 JsRoundProofs3
  JsLayoutSpec JsLayoutProofs EsSpec EsProofs1.
Import ListNotations.
Open Scope N_scope.

Section Engine.
Variables start_u part_u : N -> bool.
Variable goal : list element -> bool.
Notation scan_at := (scan_at start_u part_u goal).
Notation read := (read start_u part_u goal).
Notation es_read := (es_read start_u part_u goal).
Notation es_tokens := (es_tokens start_u part_u goal).
Notation runs_on := (runs_on start_u part_u).
Notation tidy := (tidy start_u part_u goal).

Lemma read_step : forall n st c s, read (S n) st (c :: s) =
  match scan_at st (c :: s) with
  | Some (e, r) => match read n (next st e) r with Some (l, st') => Some (e :: l, st') | None => None end
  | None => None
  end.
Proof. reflexivity. Qed.

Lemma read_nil : forall n st, read n st [] = Some ([], st).
Proof. intros [|n] st; reflexivity. Qed.

Lemma read_more : forall n m st s x, read n st s = Some x -> (n <= m)%nat -> read m st s = Some x.
Proof.
  induction n as [|n IH]; intros m st s x H L.
  - destruct s as [|c s]; [rewrite read_nil in *; exact H|discriminate H].
  - destruct s as [|c s]; [rewrite read_nil in *; exact H|]. destruct m as [|m]; [lia|]. rewrite read_step in *.
    destruct (scan_at st (c :: s)) as [[e r]|]; [|discriminate H]. destruct (read n (next st e) r) as [[l st']|] eqn:E; [|discriminate H].
    rewrite (IH m _ _ _ E); [exact H|lia].
Qed.

Lemma runs_on_first : forall e x y, x <> [] -> runs_on e (x ++ y) = runs_on e x.
Proof. intros e [|c x] y H; [congruence|reflexivity]. Qed.

Lemma read_nonempty : forall n st s l st', read n st s = Some (l, st') -> s <> [] -> l <> [].
Proof.
  intros n st s l st' H N. destruct s as [|c s]; [congruence|]. destruct n as [|n]; [discriminate H|]. rewrite read_step in H.
  destruct (scan_at st (c :: s)) as [[e r]|]; [|discriminate H]. destruct (read n (next st e) r) as [[l' st1]|]; [|discriminate H]. injection H as <- <-. discriminate.
Qed.

Lemma scan_dot : forall st, scan_at st [0x2E] = Some ((Punct, S_ "."), []).
Proof. intros st. reflexivity. Qed.

Lemma read_dot : forall n st l st', read n st [0x2E] = Some (l, st') -> l = [(Punct, S_ ".")].
Proof.
  intros n st l st' H. destruct n as [|n]; [discriminate H|]. rewrite read_step, scan_dot, read_nil in H. injection H as <- <-. reflexivity.
Qed.

Lemma read_app : forall n m st x l st' y l2 st2, read n st x = Some (l, st') -> runs_on (last_of l) y = false ->
  read m st' y = Some (l2, st2) -> read (n + m) st (x ++ y) = Some (l ++ l2, st2).
Proof.
  induction n as [|n IH]; intros m st x l st' y l2 st2 H R K.
  - destruct x as [|c x]; [|discriminate H]. rewrite read_nil in H. injection H as <- <-. exact K.
  - destruct x as [|c x]; [rewrite read_nil in H; injection H as <- <-; cbn [app]; apply (read_more m); [exact K|lia]|].
    cbn [app Nat.add]. rewrite read_step in H |- *. destruct (scan_at st (c :: x)) as [[e r]|] eqn:E; [|discriminate H].
    destruct (read n (next st e) r) as [[l' st1]|] eqn:RE; [|discriminate H]. injection H as <- <-.
    assert (X : scan_at st (c :: x ++ y) = Some (e, r ++ y)).
    { unfold EsSpec.scan_at in *. apply (scan_app start_u part_u _ _ (c :: x) e r y E).
      - intros ->. rewrite read_nil in RE. injection RE as <- <-. exact R.
      - intros -> ->. assert (Q : l' = [(Punct, S_ ".")]).
        { exact (read_dot _ _ _ _ RE). }
        subst l'. cbn [last_of last] in R. destruct y as [|d y]; [reflexivity|]. cbn [starts]. destruct (0x2E =? d) eqn:D; [|reflexivity].
        apply N.eqb_eq in D. subst d. vm_compute in R. discriminate R. }
    rewrite X. rewrite (IH m _ r l' st1 y l2 st2 RE); [reflexivity| |exact K].
    destruct l' as [|e' l']; [|exact R]. destruct y; reflexivity.
Qed.

Lemma es_read_app : forall st x l st' y l2 st2, es_read st x = Some (l, st') -> runs_on (last_of l) y = false ->
  es_read st' y = Some (l2, st2) -> es_read st (x ++ y) = Some (l ++ l2, st2).
Proof. intros st x l st' y l2 st2 H R K. unfold EsSpec.es_read. rewrite app_length. exact (read_app _ _ st x l st' y l2 st2 H R K). Qed.

Lemma es_read_blank : forall st, es_read st [0x20] = Some ([(Blank, [])], st).
Proof. intros st. reflexivity. Qed.

Lemma runs_on_blank : forall e x, x <> [] -> runs_on e x = false -> runs_on e [0x20] = false.
Proof.
  intros [k s] [|c x] N H; [congruence|]. cbn [EsSpec.runs_on fst snd] in *. destruct k; try reflexivity; try discriminate H.
  - destruct (existsb (fun p => str_eqb (firstn (S (length s)) p) (s ++ [0x20])) puncts) eqn:E.
    + exfalso. apply existsb_exists in E. destruct E as (p & I & E). apply str_eqb_eq in E.
      assert (F : forallb (fun p => negb (existsb (N.eqb 0x20) p)) puncts = true) by (vm_compute; reflexivity).
      rewrite forallb_forall in F. specialize (F p I). apply negb_true_iff in F.
      assert (J : In 0x20 p). { rewrite <- (firstn_skipn (S (length s)) p), E. apply in_or_app. left. apply in_or_app. right. now left. }
      assert (Z : existsb (N.eqb 0x20) p = true) by (apply existsb_exists; exists 0x20; auto). congruence.
    + cbn [orb]. change (digit 0x20) with false. rewrite andb_false_r. change (one_of (S_ "/*") 0x20) with false. rewrite andb_false_r. reflexivity.
Qed.

(** ** Parts *)

Definition text (ps : list part) : str := flat_map part_text ps.
Definition toks (ps : list part) : list token := flat_map part_tokens ps.

Lemma joined_app : forall a b, joined (a ++ b) = joined a ++ match a, b with _ :: _, t :: _ => separator (last a (TChar Space)) t | _, _ => [] end ++ joined b.
Proof.
  induction a as [|x a IH]; intros b; [reflexivity|]. cbn [app joined]. destruct a as [|y a].
  - cbn [app]. destruct b as [|t b]; [rewrite !app_nil_r; reflexivity|]. cbn [last]. rewrite app_nil_r. reflexivity.
  - specialize (IH b). change ((y :: a) ++ b) with (y :: (a ++ b)) in *. cbn iota. rewrite IH, <- !app_assoc. change (last (x :: y :: a) (TChar Space)) with (last (y :: a) (TChar Space)). reflexivity.
Qed.

Lemma separator_cases : forall a b, separator a b = [] \/ separator a b = [0x20].
Proof. intros a b. unfold separator. destruct (_ || _); auto. Qed.

Lemma upcoming_text : forall ps, take_turns ps -> forall e, runs_on e (upcoming ps) = false -> runs_on e (text ps) = false.
Proof.
  intros [|p r] W e H; [exact H|]. cbn [text flat_map upcoming] in *. fold (text r). rewrite runs_on_first; [exact H|]. destruct p; cbn [take_turns part_text] in *; tauto.
Qed.

Lemma filter_none : forall l, forallb (fun e => negb (matters e)) l = true -> filter matters l = [].
Proof.
  induction l as [|e l IH]; intros H; [reflexivity|]. cbn [forallb filter] in *. apply andb_true_iff in H. destruct H as [H1 H2]. apply negb_true_iff in H1. rewrite H1. auto.
Qed.

Lemma parts_read : forall ps st, take_turns ps -> tidy st ps ->
  exists l l2 st', es_read st (text ps) = Some (l, st') /\ es_read st (joined (toks ps)) = Some (l2, st') /\ filter matters l = filter matters l2.
Proof.
  induction ps as [|[g|c ts] r IH]; intros st W T.
  - exists [], [], st. repeat split.
  - destruct W as (Ng & _ & W). destruct T as (l & E & F & R & T). destruct (IH st W T) as (l1 & l2 & st' & E1 & E2 & EQ).
    exists (l ++ l1), l2, st'. repeat split.
    + cbn [text flat_map part_text]. fold (text r). apply (es_read_app st g l st); [exact E|now apply upcoming_text|exact E1].
    + exact E2.
    + rewrite filter_app, (filter_none l F). exact EQ.
  - destruct W as (Nc & Nt & _ & A & W). destruct T as (l & st1 & E & J & R & B & T). destruct (IH st1 W T) as (l1 & l2 & st' & E1 & E2 & EQ).
    assert (SRC : es_read st (text (Code c ts :: r)) = Some (l ++ l1, st')).
    { cbn [text flat_map part_text]. fold (text r). apply (es_read_app st c l st1); [exact E|now apply upcoming_text|exact E1]. }
    assert (TK : toks (Code c ts :: r) = ts ++ toks r) by reflexivity. rewrite TK, joined_app, J.
    destruct ts as [|t0 ts]; [congruence|]. destruct (toks r) as [|u us] eqn:Z.
    + cbn [joined app] in *. rewrite app_nil_r. unfold EsSpec.es_read in E2. rewrite read_nil in E2. injection E2 as <- <-.
      exists (l ++ l1), l, st1. repeat split; [exact SRC|exact E|]. rewrite filter_app, EQ, app_nil_r. reflexivity.
    + (* the code behind the gap *)
      assert (RR : exists g c' ts' r', r = Gap g :: Code c' (u :: ts') :: r' /\ joined (u :: ts') = c' /\ c' <> []).
      { destruct r as [|[g|c' ts'] r]; [discriminate Z| |contradiction]. destruct W as (_ & A2 & W2). destruct T as (l' & _ & _ & _ & T).
        destruct r as [|[g'|c' ts'] r]; [discriminate Z|contradiction|]. destruct W2 as (Nc' & Nt' & _). destruct T as (l'' & st'' & _ & J' & _).
        destruct ts' as [|u' ts']; [congruence|]. cbn [toks flat_map part_tokens app] in Z. injection Z as -> Z. exists g, c', ts', r. auto. }
      destruct RR as (g & c' & ts' & r' & -> & J' & Nc').
      assert (OUT : joined (u :: us) = c' ++ skipn (length c') (joined (u :: us))).
      { assert (TT : u :: us = (u :: ts') ++ toks r') by (rewrite <- Z; reflexivity). rewrite TT, joined_app, J'. rewrite skipn_app, skipn_all, Nat.sub_diag. reflexivity. }
      destruct (separator_cases (last (t0 :: ts) (TChar Space)) u) as [S0|S0]; rewrite S0.
      * cbn [app]. exists (l ++ l1), (l ++ l2), st'. repeat split; [exact SRC| |rewrite !filter_app, EQ; reflexivity].
        apply (es_read_app st c l st1); [exact E| |exact E2]. rewrite OUT, runs_on_first by exact Nc'. apply (B c' u eq_refl S0).
      * exists (l ++ l1), (l ++ [(Blank, [])] ++ l2), st'. repeat split; [exact SRC| |rewrite !filter_app, EQ; reflexivity].
        apply (es_read_app st c l st1); [exact E| |].
        -- rewrite runs_on_first by discriminate. apply (runs_on_blank _ (upcoming (Gap g :: Code c' (u :: ts') :: r'))); [|exact R]. destruct W as (Ng & _). exact Ng.
        -- apply (es_read_app st1 [0x20] [(Blank, [])] st1); [reflexivity| |exact E2]. cbn [last_of last]. destruct (joined (u :: us)); reflexivity.
Qed.

(** ** Semicolons at the beginning *)

Lemma scan_semicolon : forall st x, scan_at st (0x3B :: x) = Some ((Punct, S_ ";"), x).
Proof.
  intros st x. unfold EsSpec.scan_at. change (0x3B :: x) with ([0x3B] ++ x).
  apply (scan_app start_u part_u _ _ [0x3B] (Punct, S_ ";") [] x); [reflexivity| |discriminate].
  intros _. destruct x as [|c x]; reflexivity.
Qed.

Lemma es_read_semicolon : forall x, es_read start (0x3B :: x) =
  match es_read start x with Some (l, st') => Some ((Punct, S_ ";") :: l, st') | None => None end.
Proof. intros x. unfold EsSpec.es_read. cbn [length]. rewrite read_step, scan_semicolon. reflexivity. Qed.

Lemma joined_semicolon : forall r, joined (TChar SemiColon :: r) = 0x3B :: joined r.
Proof.
  intros r. cbn [joined]. change (token_show (TChar SemiColon)) with [0x3B]. destruct r as [|b r]; [reflexivity|].
  unfold separator. cbn [word_left char_or_string negb andb orb]. rewrite andb_false_r. reflexivity.
Qed.

(** Dropping them from the first piece of code. *)
Lemma code_semicolons : forall ts l st', Forall (fun t => token_show t <> []) ts -> es_read start (joined ts) = Some (l, st') ->
  (drop_semicolons ts = [] /\ st' = start /\ skip_semicolons (filter matters l) = [] /\ forall x, skip_semicolons (filter matters (l ++ x)) = skip_semicolons (filter matters x))
  \/ (drop_semicolons ts <> [] /\ exists l', es_read start (joined (drop_semicolons ts)) = Some (l', st') /\ joined (drop_semicolons ts) <> [] /\ last_of l' = last_of l
      /\ forall x, skip_semicolons (filter matters (l ++ x)) = skip_semicolons (filter matters (l' ++ x))).
Proof.
  induction ts as [|t ts IH]; intros l st' F H.
  - left. cbn [joined] in H. unfold EsSpec.es_read in H. rewrite read_nil in H. injection H as <- <-. repeat split.
  - inversion F as [|? ? F1 F2]. subst. cbn [drop_semicolons]. destruct (eq_char SemiColon t) eqn:E.
    + apply eq_char_eq in E. subst t. rewrite joined_semicolon, es_read_semicolon in H.
      destruct (es_read start (joined ts)) as [[l0 st0]|] eqn:R; [|discriminate H]. injection H as <- <-.
      destruct (IH l0 st0 F2 eq_refl) as [(A & B & C & D)|(A & l' & B & C & D & G)].
      * left. split; [exact A|]. split; [exact B|]. split; [exact C|]. intros x. exact (D x).
      * right. split; [exact A|]. exists l'. split; [exact B|]. split; [exact C|]. split; [|intros x; exact (G x)].
        rewrite D. destruct l0 as [|e0 l0]; [exfalso|reflexivity].
        destruct (joined ts) as [|c s] eqn:J; [|exact (read_nonempty _ _ _ _ _ R ltac:(discriminate) eq_refl)].
        destruct ts as [|t ts]; [now apply A|]. inversion F2 as [|? ? F3 F4]. subst. cbn [joined] in J. destruct (token_show t); [congruence|discriminate J].
    + right. split; [discriminate|]. exists l. repeat split; [exact H|]. cbn [joined]. destruct (token_show t); [congruence|discriminate].
Qed.

Lemma drop_app : forall a b, drop_semicolons (a ++ b) = match drop_semicolons a with [] => drop_semicolons b | x => x ++ b end.
Proof.
  induction a as [|t a IH]; intros b; [reflexivity|]. cbn [app drop_semicolons]. destruct (eq_char SemiColon t); [apply IH|reflexivity].
Qed.

Lemma last_drop : forall a d, drop_semicolons a <> [] -> last (drop_semicolons a) d = last a d.
Proof.
  induction a as [|t a IH]; intros d H; [now destruct H|]. cbn [drop_semicolons] in *. destruct (eq_char SemiColon t); [|reflexivity].
  rewrite (IH d H). destruct a; [now destruct H|reflexivity].
Qed.

Lemma start_read : forall ps, take_turns ps -> tidy start ps ->
  exists l l2 st', es_read start (text ps) = Some (l, st') /\ es_read start (joined (drop_semicolons (toks ps))) = Some (l2, st')
    /\ skip_semicolons (filter matters l) = skip_semicolons (filter matters l2).
Proof.
  induction ps as [|[g|c ts] r IH]; intros W T.
  - exists [], [], start. repeat split.
  - destruct W as (Ng & _ & W). destruct T as (l & E & M & R & T). destruct (IH W T) as (l1 & l2 & st' & E1 & E2 & EQ).
    exists (l ++ l1), l2, st'. repeat split.
    + cbn [text flat_map part_text]. fold (text r). apply (es_read_app start g l start); [exact E|now apply upcoming_text|exact E1].
    + exact E2.
    + rewrite filter_app, (filter_none l M). exact EQ.
  - pose proof W as (Nc & Nt & F1 & A & W'). pose proof T as (l & st1 & E & J & R & B & T').
    rewrite <- J in E. destruct (code_semicolons ts l st1 F1 E) as [(A1 & -> & A3 & A4)|(A1 & l' & A2 & A3 & A4 & A5)].
    + destruct (IH W' T') as (l1 & l2 & st' & E1 & E2 & EQ). exists (l ++ l1), l2, st'. repeat split.
      * cbn [text flat_map part_text]. fold (text r). rewrite <- J. apply (es_read_app start _ l start); [exact E|now apply upcoming_text|exact E1].
      * cbn [toks flat_map part_tokens]. fold (toks r). rewrite drop_app, A1. exact E2.
      * rewrite A4. exact EQ.
    + assert (W2 : take_turns (Code (joined (drop_semicolons ts)) (drop_semicolons ts) :: r)) .
      { cbn [take_turns]. repeat split; auto. apply Forall_forall. intros t I. rewrite Forall_forall in F1. apply F1. now apply drop_in. }
      assert (T2 : tidy start (Code (joined (drop_semicolons ts)) (drop_semicolons ts) :: r)).
      { cbn [EsSpec.tidy]. exists l', st1. rewrite A4, last_drop by exact A1. repeat split; auto. }
      destruct (parts_read _ _ W2 T2) as (l1 & l2 & st' & E1 & E2 & EQ).
      destruct (parts_read _ _ W' T') as (m1 & m2 & st'' & G1 & G2 & GQ).
      assert (SRC : es_read start (text (Code c ts :: r)) = Some (l ++ m1, st'')).
      { cbn [text flat_map part_text]. fold (text r). rewrite <- J. apply (es_read_app start _ l st1); [exact E|now apply upcoming_text|exact G1]. }
      assert (SRC2 : es_read start (text (Code (joined (drop_semicolons ts)) (drop_semicolons ts) :: r)) = Some (l' ++ m1, st'')).
      { cbn [text flat_map part_text]. fold (text r). apply (es_read_app start _ l' st1); [exact A2|rewrite A4; now apply upcoming_text|exact G1]. }
      rewrite SRC2 in E1. injection E1 as <- <-. exists (l ++ m1), l2, st''. repeat split; [exact SRC| |].
      * cbn [toks flat_map part_tokens]. fold (toks r). rewrite drop_app. destruct (drop_semicolons ts) as [|x xs] eqn:D; [congruence|]. exact E2.
      * rewrite A5, EQ. reflexivity.
Qed.

Theorem same_tokens : forall s ts ps o, tokenize s = Ok ts -> cuts ps s ts -> js_minify s = Ok o ->
  tidy start ps -> exists l, es_tokens s = Some l /\ es_tokens o = Some l.
Proof.
  intros s ts ps o L (PX & PT & W) M T.
  unfold js_minify, js_minify_tokens in M. rewrite L in M. cbn [obind] in M. rewrite clean_tokens_eq in M. injection M as <-.
  rewrite tokens_show_joined, <- PT. fold (toks ps). fold (text ps) in PX.
  destruct (start_read ps W T) as (l & l2 & st' & E1 & E2 & EQ). rewrite PX in E1.
  exists (skip_semicolons (filter matters l)). unfold EsSpec.es_tokens. rewrite E1, E2, EQ. split; reflexivity.
Qed.

End Engine.
