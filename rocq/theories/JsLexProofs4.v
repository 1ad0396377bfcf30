(** Consequences of the lexical specification: the tokens tile the source, every slash-free
    source with closed literals is read, and the behaviour outside the specification. *)
From Coq Require Import String List NArith ZArith Bool Lia ZifyBool ZifyN Arith.
From Verif Require Import Base JsModel JsUtilModel JsUtilSpec JsUtilProofs JsUtilProofs2 JsLexSpec
  JsLexProofs1 JsLexProofs2 JsLexProofs3 JsWords.
Import ListNotations.
Open Scope N_scope.

(** ** Tiling *)

Definition wordlike (w : str) : Prop := Forall (fun c => word_char c = true \/ c = 0x2E) w.

Lemma wordlike_unsigned : forall w, wordlike w -> unsigned w.
Proof.
  intros w W. eapply Forall_impl; [|exact W]. cbv beta. intros c [H|H]; [|subst c; split; discriminate].
  split; intros ->; discriminate.
Qed.

(** [tiles v0 s v]: the tokens [v] (last first) are those of [v0] and others written by [s]. *)
Definition tiles (v0 : list token) (s : str) (v : list token) : Prop :=
  exists x ps, v = x ++ v0 /\ concat ps = s /\ Forall2 spells ps (rev x).

Lemma tiles_push : forall v0 s v p t, tiles v0 s v -> spells p t -> tiles v0 (s ++ p) (t :: v).
Proof.
  intros v0 s v p t (x & ps & -> & E & F) H. exists (t :: x), (ps ++ [p]). split; [reflexivity|]. split.
  - rewrite concat_app, E. cbn. rewrite app_nil_r. reflexivity.
  - cbn [rev]. apply Forall2_app; [exact F|]. constructor; [exact H|constructor].
Qed.

Lemma tiles_flush : forall v0 s v w, tiles v0 s v -> wordlike w -> tiles v0 (s ++ w) (flush w v).
Proof.
  intros v0 s v [|c w] H W; [rewrite app_nil_r; exact H|]. cbn [flush]. apply tiles_push; [exact H|].
  apply sp_word; [discriminate|exact W|]. apply word_token_classified; [|reflexivity].
  exact (wordlike_unsigned _ W).
Qed.

Lemma reads_token_tiles : forall v w s v' w' s', reads_token v w s v' w' s' ->
  forall v0 p, tiles v0 p v -> wordlike w ->
  exists p', tiles v0 p' v' /\ wordlike w' /\ p ++ w ++ s = p' ++ w' ++ s'.
Proof.
  intros v w s v' w' s' H.
  assert (TOK : forall v0 v w x t s p, spells x t -> tiles v0 p v -> wordlike w ->
    exists p', tiles v0 p' (t :: flush w v) /\ wordlike [] /\ p ++ w ++ x ++ s = p' ++ [] ++ s).
  { intros v0 v1 w0 x t s0 p X T W. exists ((p ++ w0) ++ x). split; [|split].
    - apply tiles_push; [apply tiles_flush; assumption|exact X].
    - constructor.
    - norm. reflexivity. }
  destruct H as
    [v w c s Hc
    |v w s Hd
    |v w s Hd
    |v w c t s Hc
    |v w o t s Ho Hl
    |v w s Hr Hh
    |v w s Hr
    |v w q b s Hq Hb
    |v w b s Hb
    |v w b nl s Hb Hnl
    |v w b s Hb Hh
    |v w b s Hb
    |v w b f s Hr Hb Hh Hf Hs'
    |v w l s Hr Ho Hh
    |v w l s Hr Ho]; intros v0 p T W.
  - exists p. split; [exact T|]. split.
    + apply Forall_app. split; [exact W|]. constructor; [auto|constructor].
    + norm. reflexivity.
  - exists p. split; [exact T|]. split.
    + apply Forall_app. split; [exact W|]. constructor; [auto|constructor].
    + norm. reflexivity.
  - exact (TOK v0 v w [0x2E] _ s p sp_dot T W).
  - exact (TOK v0 v w [c] _ s p (sp_punct c t Hc) T W).
  - exact (TOK v0 v w o _ s p (sp_operator o t Ho) T W).
  - exact (TOK v0 v w [0x2F] _ s p sp_divide T W).
  - exact (TOK v0 v w [0x2F; 0x3D] _ s p sp_divide_equal T W).
  - destruct (TOK v0 v w (q :: b ++ [q]) _ s p (sp_string q b Hq Hb) T W) as (p' & A & B & C).
    exists p'. split; [exact A|]. split; [exact B|]. norm_in C. exact C.
  - destruct (TOK v0 v w (0x60 :: b ++ [0x60]) _ s p (sp_template b Hb) T W) as (p' & A & B & C).
    exists p'. split; [exact A|]. split; [exact B|]. norm_in C. exact C.
  - destruct (TOK v0 v w (0x2F :: 0x2F :: b ++ [nl]) _ s p (sp_line_comment b nl Hb Hnl) T W) as (p' & A & B & C).
    exists p'. split; [exact A|]. split; [exact B|]. norm_in C. exact C.
  - destruct (TOK v0 v w (0x2F :: 0x2A :: b ++ [0x2A; 0x2F]) _ s p (sp_comment b Hb) T W) as (p' & A & B & C).
    exists p'. split; [exact A|]. split; [exact B|]. norm_in C. exact C.
  - destruct (TOK v0 v w (0x2F :: 0x2A :: 0x21 :: b ++ [0x2A; 0x2F]) _ s p (sp_license b Hb) T W) as (p' & A & B & C).
    exists p'. split; [exact A|]. split; [exact B|]. norm_in C. exact C.
  - destruct (TOK v0 v w (0x2F :: b ++ 0x2F :: f) _ s p (sp_regex b f Hb Hf) T W) as (p' & A & B & C).
    exists p'. split; [exact A|]. split; [exact B|]. norm_in C. exact C.
  - exact (TOK v0 v w [0x2F] _ (l ++ s) p sp_divide T W).
  - exact (TOK v0 v w [0x2F; 0x3D] _ (l ++ s) p sp_divide_equal T W).
Qed.

Lemma reads_tiles : forall v w s v' w' s', reads v w s v' w' s' ->
  forall v0 p, tiles v0 p v -> wordlike w ->
  exists p', tiles v0 p' v' /\ wordlike w' /\ p ++ w ++ s = p' ++ w' ++ s'.
Proof.
  intros v w s v' w' s' H. induction H as [v w s|v w s v1 w1 s1 v2 w2 s2 H _ IH]; intros v0 p T W.
  - eauto.
  - destruct (reads_token_tiles _ _ _ _ _ _ H v0 p T W) as (p1 & T1 & W1 & E1).
    destruct (IH v0 p1 T1 W1) as (p2 & T2 & W2 & E2). rewrite E1, E2. eauto.
Qed.

Theorem lexes_tiles : forall s ts, lexes s ts ->
  exists ps, concat ps = s /\ Forall2 spells ps ts.
Proof.
  intros s ts (v & w & H & ->).
  destruct (reads_tiles _ _ _ _ _ _ H [] []) as (p & T & W & E).
  - exists [], []. split; [reflexivity|]. split; [reflexivity|constructor].
  - constructor.
  - rewrite app_nil_r in E. cbn [app] in E. subst s. destruct (tiles_flush _ _ _ _ T W) as (x & ps & Ex & Ec & F).
    rewrite Ex, app_nil_r. eauto.
Qed.

(** ** Every slash-free source with closed literals is read *)

Lemma max_length : forall (l : list (str * token)), l <> [] ->
  exists x, In x l /\ forall y, In y l -> (length (fst y) <= length (fst x))%nat.
Proof.
  induction l as [|a l IH]; [congruence|]. intros _. destruct l as [|b l].
  - exists a. split; [left; reflexivity|]. intros y [<-|[]]. lia.
  - destruct IH as (x & Hx & M); [discriminate|].
    destruct (Nat.le_gt_cases (length (fst a)) (length (fst x))).
    + exists x. split; [right; exact Hx|]. intros y [<-|Hy]; [assumption|]. now apply M.
    + exists a. split; [left; reflexivity|]. intros y [<-|Hy]; [lia|]. specialize (M y Hy). lia.
Qed.

Lemma prefix_app : forall o s, prefix o s = true -> exists r, s = o ++ r.
Proof.
  induction o as [|a o IH]; intros s H; [exists s; reflexivity|].
  destruct s as [|b s]; cbn in H; [discriminate|].
  apply andb_prop in H. destruct H as [E H]. apply N.eqb_eq in E. subst b.
  destruct (IH s H) as (r & ->). exists r. reflexivity.
Qed.

Lemma longest_exists : forall s, (exists q, In q operators /\ prefix (fst q) s = true) ->
  exists o t r, In (o, t) operators /\ s = o ++ r /\ longest o r = true.
Proof.
  intros s (q & Hq & Hp).
  destruct (max_length (filter (fun q => prefix (fst q) s) operators)) as ([o t] & Hx & M).
  { intro E. assert (X : In q []) by (rewrite <- E; apply filter_In; auto). destruct X. }
  apply filter_In in Hx. destruct Hx as [Hx Px]. cbn [fst] in Px.
  destruct (prefix_app o s Px) as (r & ->). exists o, t, r. split; [exact Hx|]. split; [reflexivity|].
  unfold longest. apply forallb_forall. intros y Hy. apply negb_true_iff. apply andb_false_iff.
  destruct (prefix (fst y) (o ++ r)) eqn:Py; [right|left; reflexivity].
  apply Nat.ltb_ge. apply (M y). apply filter_In. auto.
Qed.

Lemma punctuation_cases : forall c,
  word_char c = true \/ c = 0x2E \/ (exists t, simple_punct c = Some t)
  \/ (exists t, In ([c], t) operators) \/ mem_char c [0x22; 0x27; 0x60; 0x2F] = true.
Proof.
  intro c. destruct (word_char c) eqn:W; [auto|]. right. unfold word_char in W. apply negb_false_iff in W.
  unfold mem_char in W. apply existsb_exists in W. destruct W as (d & Hd & E). apply N.eqb_eq in E. subst d.
  let p := eval vm_compute in punctuation in change punctuation with p in Hd.
  cbn [In] in Hd.
  repeat (destruct Hd as [Hd|Hd];
    [subst c; first
      [ left; reflexivity
      | right; left; eexists; reflexivity
      | right; right; right; reflexivity
      | right; right; left; eexists; unfold operators;
        repeat (first [left; reflexivity | right]) ]|]).
  destruct Hd.
Qed.

Lemma operator_chars : forall o t, In (o, t) operators ->
  o <> [] /\ Forall (fun c => mem_char c [0x22; 0x27; 0x60; 0x2F] = false) o.
Proof.
  intros o t H. unfold operators in H. cbn [In] in H.
  repeat (destruct H as [H|H]; [injection H as <- <-; split; [discriminate|repeat constructor]|]).
  destruct H.
Qed.

Lemma closed_tail : forall c s, closed_literals (c :: s) ->
  mem_char c [0x22; 0x27; 0x60; 0x2F] = false -> closed_literals s.
Proof.
  intros c s H N. inversion H; subst; auto.
  - destruct H2; subst; discriminate N.
  - discriminate N.
Qed.

Lemma closed_tails : forall o s, closed_literals (o ++ s) ->
  Forall (fun c => mem_char c [0x22; 0x27; 0x60; 0x2F] = false) o -> closed_literals s.
Proof.
  induction o as [|c o IH]; intros s H F; [exact H|]. inversion F; subst.
  apply IH; [|assumption]. eapply closed_tail; eauto.
Qed.

(** Tokens other than comments and regular expressions. *)
Definition plain (t : token) : bool :=
  match t with TComment _ | TLicense _ | TRegex _ _ _ => false | _ => true end.

Lemma plain_flush : forall w v, Forall (fun t => plain t = true) v -> Forall (fun t => plain t = true) (flush w v).
Proof.
  intros [|c w] v H; [exact H|]. cbn [flush]. constructor; [|exact H]. unfold word_token.
  destruct (keyword_of (c :: w)); [reflexivity|]. destruct (u64_of (c :: w)); [reflexivity|].
  destruct (f64_ok (c :: w)); reflexivity.
Qed.

Lemma simple_punct_plain : forall c t, simple_punct c = Some t -> plain t = true.
Proof.
  intros c t C. unfold simple_punct in C.
  repeat match type of C with (if ?b then _ else _) = _ => destruct b; [injection C as <-; reflexivity|] end.
  discriminate.
Qed.

Lemma operators_plain : forall o t, In (o, t) operators -> plain t = true.
Proof.
  intros o t O. unfold operators in O. cbn [In] in O.
  repeat (destruct O as [O|O]; [injection O as <- <-; reflexivity|]). destruct O.
Qed.

Lemma closed_reads_any : forall (Q : token -> Prop), (forall t, plain t = true -> Q t) ->
  forall n s, (length s <= n)%nat -> closed_literals s -> forall v w, Forall Q v ->
  exists v' w', reads v w s v' w' [] /\ Forall Q v'.
Proof.
  intros Q PQ.
  induction n as [|n IH]; intros s L C v w P.
  - destruct s; [|cbn in L; lia]. exists v, w. split; [constructor|exact P].
  - assert (STEP : forall v1 w1 s1, reads_token v w s v1 w1 s1 -> (length s1 < length s)%nat ->
      closed_literals s1 -> Forall Q v1 ->
      exists v' w', reads v w s v' w' [] /\ Forall Q v').
    { intros v1 w1 s1 H L1 C1 P1.
      destruct (IH s1) with (v := v1) (w := w1) as (v' & w' & R & P'); [lia|exact C1|exact P1|].
      exists v', w'. split; [|exact P']. econstructor; eauto. }
    assert (PF : Forall Q (flush w v)).
    { destruct w as [|c w]; [exact P|]. cbn [flush]. constructor; [|exact P]. apply PQ.
      assert (X : Forall (fun t => plain t = true) (flush (c :: w) [])) by (apply plain_flush; constructor).
      now inversion X. }
    destruct C as [|c s Hc C|q b s Hq Hb C|b s Hb C].
    + exists v, w. split; [constructor|exact P].
    + destruct (punctuation_cases c) as [H|[H|[(t & H)|[(t & H)|H]]]].
      * eapply STEP; [constructor; exact H|cbn; lia|exact C|exact P].
      * subst c. destruct (dot_joins w s) eqn:D.
        -- eapply STEP; [apply rd_word_dot; exact D|cbn; lia|exact C|exact P].
        -- eapply STEP; [apply rd_dot; exact D|cbn; lia|exact C|constructor; [apply PQ; reflexivity|exact PF]].
      * eapply STEP; [eapply rd_punct; exact H|cbn; lia|exact C|].
        constructor; [apply PQ; eapply simple_punct_plain; exact H|exact PF].
      * destruct (longest_exists (c :: s)) as (o & u & r & Ho & Er & Hl).
        { exists ([c], t). split; [exact H|]. cbn. rewrite N.eqb_refl. reflexivity. }
        destruct (operator_chars o u Ho) as [N F].
        assert (C2 : closed_literals (o ++ r)) by (rewrite <- Er; constructor; assumption).
        rewrite Er in *. eapply STEP; [eapply rd_operator; eauto| | |].
        -- rewrite app_length. destruct o; [congruence|]. cbn. lia.
        -- eapply closed_tails; eauto.
        -- constructor; [apply PQ; eapply operators_plain; exact Ho|exact PF].
      * congruence.
    + eapply STEP; [apply rd_string; assumption| |exact C|constructor; [apply PQ; reflexivity|exact PF]].
      cbn [length]. rewrite app_length. cbn [length]. lia.
    + eapply STEP; [apply rd_template; assumption| |exact C|constructor; [apply PQ; reflexivity|exact PF]].
      cbn [length]. rewrite app_length. cbn [length]. lia.
Qed.

Lemma closed_reads : forall n s, (length s <= n)%nat -> closed_literals s ->
  forall v w, Forall (fun t => plain t = true) v ->
  exists v' w', reads v w s v' w' [] /\ Forall (fun t => plain t = true) v'.
Proof. apply closed_reads_any. auto. Qed.

Theorem closed_lexes : forall s, closed_literals s ->
  exists ts, lexes s ts /\ Forall (fun t => plain t = true) ts.
Proof.
  intros s C. destruct (closed_reads (length s) s (le_n _) C [] []) as (v & w & H & P); [constructor|].
  exists (rev (flush w v)). split; [exists v, w; auto|]. apply Forall_rev. now apply plain_flush.
Qed.

(** ** Line comments at the end of the source *)

Lemma line_comment_open : forall r n source pre it start,
  Forall (fun c => newline c = false) r -> at_ it pre r -> (length r < n)%nat ->
  exists it', line_comment_loop n source it start = Ok (None, start, it') /\ at_ it' (pre ++ r) [].
Proof.
  induction r as [|c r IH]; intros n source pre it start F Ha Hn.
  - destruct n as [|n]; [cbn in Hn; lia|]. cbn [line_comment_loop]. rewrite (next_at_nil _ _ _ Ha).
    rewrite app_nil_r. eauto.
  - destruct n as [|n]; [cbn in Hn; lia|]. cbn [line_comment_loop].
    destruct (next_at _ _ _ _ _ Ha) as (it1 & -> & Ha1). inversion F as [|? ? Hc F']; subst.
    destruct (IH n source (pre ++ [c]) it1 start F' Ha1) as (it2 & E & Ha2); [cbn in Hn; lia|].
    norm_in Ha2. exists it2. split; [|exact Ha2].
    pose proof (rchar_not_newline c Hc). destruct (rchar_of c) as [[]|]; try exact E. congruence.
Qed.

Lemma no_boundary : forall P c r p q, P ++ c :: r = p ++ q ->
  (blen P < blen p)%nat -> (blen p < blen P + len_utf8 c)%nat -> False.
Proof.
  induction P as [|a P IH]; intros c r [|b p] q E L1 L2; cbn [app blen] in *; try lia.
  - injection E as -> _. lia.
  - injection E as -> E. apply (IH c r p q E); lia.
Qed.

(** At the end of a source, a comment of the rest of the line loses its first byte and is read
    as code. *)
Lemma final_comment : forall s v w r, reads [] [] s v w (0x2F :: 0x2F :: r) ->
  Forall (fun c => newline c = false) r ->
  tokenize s =
    match r with
    | [] => Ok (rev (flush w v))
    | c :: r' => if c <? 0x80 then Ok (rev (flush r' (flush w v))) else Panic
    end.
Proof.
  intros s v w r H F. unfold tokenize.
  destruct (reads_loop _ _ _ _ _ _ H _ _ _ _ (stands_new s)) as (n & p0 & it & E & (Hs & Ha & Hst & Hn)).
  change (blen []) with 0%nat in E. rewrite E. clear E H.
  pose proof (settled_apart _ _ _ Hst) as A.
  destruct n as [|[|[|n]]]; [cbn in Hn; lia|cbn in Hn; lia|cbn in Hn; lia|].
  destruct (slash_pushed (S (S n)) s v p0 w 0x2F r it Hs Ha A eq_refl) as (it2 & Ha2 & ->).
  destruct (step_reserved true (S n) s (TOperation Divide :: flush w v) (p0 ++ w ++ [0x2F]) [] 0x2F Slash r it2)
    as (it3 & Ha3 & ->); [| |reflexivity|discriminate|].
  { subst s. norm. reflexivity. }
  { rewrite app_nil_r. exact Ha2. }
  cbn [flush]. rewrite app_nil_r in *. cbn [app] in Ha3.
  assert (E : reserved_step s (TOperation Divide :: flush w v) (blen (p0 ++ w ++ [0x2F])) Slash it3
     = let! (o, pos', it') := get_line_comment s it3 (blen (p0 ++ w ++ [0x2F])) in Ok (push_opt o (flush w v), pos', it'))
    by reflexivity.
  rewrite E. unfold get_line_comment. clear E.
  destruct (line_comment_open r (S (left_over it3)) s _ it3 (S (blen (p0 ++ w ++ [0x2F]))) F Ha3) as (it4 & -> & Ha4).
  { rewrite (at_left _ _ _ _ Ha3). lia. }
  cbn [obind push_opt]. cbn [tokenize_loop]. norm_in Ha4. rewrite (next_at_nil _ _ _ Ha4).
  rewrite (blen_S _ 0x2F eq_refl). norm.
  assert (Es : s = (p0 ++ w ++ [0x2F; 0x2F]) ++ r) by (subst s; norm; reflexivity).
  clear Hs Ha Ha2 Ha3 Ha4. set (P := p0 ++ w ++ [0x2F; 0x2F]) in *. clearbody P.
  unfold fill_other. replace (blen s) with (blen P + blen r)%nat by (rewrite Es, blen_app; reflexivity).
  destruct r as [|c r].
  - cbn [blen]. rewrite Nat.add_0_r.
    replace (Nat.ltb (S (blen P)) (blen P)) with false
      by (symmetry; apply Nat.ltb_ge; lia).
    reflexivity.
  - cbn [blen].
    assert (LU : (len_utf8 c = 1%nat /\ c < 0x80) \/ ((2 <= len_utf8 c)%nat /\ (c <? 0x80) = false)).
    { unfold len_utf8. destruct (c <? 0x80) eqn:C; [left; split; [reflexivity|]|right; split; [|reflexivity]].
      - apply N.ltb_lt. exact C.
      - destruct (c <? 0x800); [lia|]. destruct (c <? 0x10000); lia. }
    destruct LU as [[L C]|[L C]].
    + replace (c <? 0x80) with true by (symmetry; apply N.ltb_lt; exact C). rewrite L.
      destruct r as [|d r].
      * cbn [blen]. rewrite Nat.add_0_r.
        replace (Nat.ltb (S (blen P)) (blen P + 1)) with false
          by (symmetry; apply Nat.ltb_ge; lia).
        reflexivity.
      * replace (Nat.ltb _ _) with true.
        2:{ symmetry. apply Nat.ltb_lt. cbn [blen]. unfold len_utf8.
            destruct (d <? 0x80); [lia|]. destruct (d <? 0x800); [lia|]. destruct (d <? 0x10000); lia. }
        rewrite Es.
        replace (S (blen P)) with (blen (P ++ [c])).
        2:{ rewrite !blen_app. cbn [blen]. rewrite L. lia. }
        replace (blen P + _)%nat
          with (blen (P ++ [c]) + blen (d :: r))%nat.
        2:{ rewrite !blen_app. cbn [blen]. rewrite L. lia. }
        rewrite (slice_of _ (P ++ [c]) (d :: r) []).
        2:{ rewrite app_nil_r. norm. reflexivity. }
        reflexivity.
    + rewrite C. replace (Nat.ltb _ _) with true by (symmetry; apply Nat.ltb_lt; lia).
      rewrite Es.
      destruct (slice (P ++ c :: r) (S (blen P))
        (blen P + (len_utf8 c + blen r))%nat) as [x|] eqn:Sl; [exfalso|reflexivity].
      apply slice_inv in Sl. destruct Sl as (p & q & Ep & Lp & _).
      apply (no_boundary _ c r p _ Ep); lia.
Qed.
