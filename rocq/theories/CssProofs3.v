(** clean_tokens without indices; totality and errors of css::minify. *)
From Coq Require Import String Arith List NArith ZArith Bool Lia.
From Verif Require Import Base CssModel CssSpec CssProofs1 CssProofs2.
Import ListNotations.
Open Scope N_scope.

(** ** clean_tokens as a function on lists *)

Definition blankish (t : token) : bool := is_useless t || is_comment t.

Fixpoint cz (prev : option token) (calc : bool) (paren : Z) (l : list token) : list token :=
  match l with
  | [] => []
  | t :: r =>
      let (calc', paren') := calc_step t calc paren in
      if blankish t then
        if match prev with Some p => retain_blank p (hd_error r) calc' | None => true end
        then let t' := if is_comment t then TChar Space else t in
             t' :: cz (Some t') calc' paren' r
        else cz prev calc' paren' r
      else t :: cz (Some t) calc' paren' r
  end.

Lemma update_app : forall A (a : list A) x y r, update (a ++ x :: r) (length a) y = a ++ y :: r.
Proof. induction a as [|z a IH]; intros; cbn; [reflexivity|]. rewrite IH. reflexivity. Qed.

Lemma nth_error_snoc : forall A (a : list A) x r, nth_error (a ++ x :: r) (length a) = Some x.
Proof. induction a as [|z a IH]; intros; cbn; auto. Qed.

Lemma nth_error_next : forall A (a : list A) x r, nth_error (a ++ x :: r) (S (length a)) = hd_error r.
Proof. induction a as [|z a IH]; intros; cbn; [destruct r; reflexivity|]. apply IH. Qed.

Lemma nth_error_app_some : forall A (a : list A) r i x, nth_error a i = Some x -> nth_error (a ++ r) i = Some x.
Proof.
  intros A a r i x H. rewrite nth_error_app1; [exact H|]. apply nth_error_Some. congruence.
Qed.

Definition prev_ok (done : list token) (pi : option nat) (prev : option token) : Prop :=
  match pi, prev with
  | Some i, Some t => nth_error done i = Some t
  | None, None => True
  | _, _ => False
  end.

Lemma prev_ok_snoc : forall done pi prev t, prev_ok done pi prev -> prev_ok (done ++ [t]) pi prev.
Proof.
  intros done [i|] [p|] t H; cbn in *; auto. apply nth_error_app_some. exact H.
Qed.

Lemma clean_loop_spec : forall l done pi prev calc paren b,
  prev_ok done pi prev ->
  exists l' bs, clean_loop (length l) (done ++ l) (length done) pi calc paren b = Ok (done ++ l', rev bs ++ b)
    /\ length l' = length bs /\ length l' = length l /\ retain_list l' bs = Ok (cz prev calc paren l).
Proof.
  induction l as [|t r IH]; intros done pi prev calc paren b Hp.
  - exists [], []. cbn [length clean_loop]. rewrite app_nil_r.
    rewrite Nat.ltb_irrefl. cbn. auto.
  - cbn [length clean_loop].
    replace (Nat.ltb (length done) (length (done ++ t :: r))) with true
      by (symmetry; apply Nat.ltb_lt; rewrite app_length; cbn; lia).
    cbn [negb]. unfold index at 1. rewrite nth_error_snoc. cbn [obind cz].
    destruct (calc_step t calc paren) as [calc' paren'].
    fold (blankish t).
    assert (Hlen : forall x, length (done ++ [x]) = S (length done)) by (intro; rewrite app_length; cbn; lia).
    assert (Hlast : forall x, prev_ok (done ++ [x]) (Some (length done)) (Some x)).
    { intro x. cbn. apply nth_error_snoc. }
    destruct (blankish t).
    + rewrite nth_error_next.
      set (rt := match prev with Some p => retain_blank p (hd_error r) calc' | None => true end).
      assert (E : match pi with
                  | Some p => let! prev0 := index (done ++ t :: r) p in
                              Ok (retain_blank prev0 (hd_error r) calc')
                  | None => Ok true end = Ok rt).
      { unfold rt. destruct pi as [i|], prev as [p|]; cbn in Hp; try contradiction; [|reflexivity].
        unfold index. rewrite (nth_error_app_some _ _ _ _ _ Hp). reflexivity. }
      rewrite E. cbn [obind]. destruct rt.
      * set (t' := if is_comment t then TChar Space else t).
        assert (Ev : (if true && is_comment t then update (done ++ t :: r) (length done) (TChar Space)
                      else done ++ t :: r) = (done ++ [t']) ++ r).
        { unfold t'. cbn [andb]. destruct (is_comment t); [rewrite update_app|]; rewrite <- app_assoc; reflexivity. }
        rewrite Ev, <- (Hlen t').
        destruct (IH (done ++ [t']) (Some (length done)) (Some t') calc' paren' (true :: b)) as (l' & bs & H1 & H2 & H3 & H4).
        { apply Hlast. }
        exists (t' :: l'), (true :: bs). split; [|split; [|split]].
        -- rewrite H1. rewrite <- app_assoc. cbn [rev app]. rewrite <- app_assoc. reflexivity.
        -- cbn. lia.
        -- cbn. lia.
        -- cbn [retain_list]. rewrite H4. reflexivity.
      * cbn [andb]. replace (done ++ t :: r) with ((done ++ [t]) ++ r) by (rewrite <- app_assoc; reflexivity).
        rewrite <- (Hlen t).
        destruct (IH (done ++ [t]) pi prev calc' paren' (false :: b)) as (l' & bs & H1 & H2 & H3 & H4).
        { apply prev_ok_snoc. exact Hp. }
        exists (t :: l'), (false :: bs). split; [|split; [|split]].
        -- rewrite H1. rewrite <- app_assoc. cbn [rev app]. rewrite <- app_assoc. reflexivity.
        -- cbn. lia.
        -- cbn. lia.
        -- cbn [retain_list]. rewrite H4. reflexivity.
    + replace (done ++ t :: r) with ((done ++ [t]) ++ r) by (rewrite <- app_assoc; reflexivity).
      rewrite <- (Hlen t).
      destruct (IH (done ++ [t]) (Some (length done)) (Some t) calc' paren' (true :: b)) as (l' & bs & H1 & H2 & H3 & H4).
      { apply Hlast. }
      exists (t :: l'), (true :: bs). split; [|split; [|split]].
      -- rewrite H1. rewrite <- app_assoc. cbn [rev app]. rewrite <- app_assoc. reflexivity.
      -- cbn. lia.
      -- cbn. lia.
      -- cbn [retain_list]. rewrite H4. reflexivity.
Qed.

Lemma clean_tokens_cz : forall v, clean_tokens v = Ok (cz None false 0 v).
Proof.
  intro v. unfold clean_tokens.
  destruct (clean_loop_spec v [] None None false 0 [] I) as (l' & bs & H1 & H2 & H3 & H4).
  cbn [app length] in H1. rewrite H1. cbn [obind]. rewrite app_nil_r.
  rewrite rev_length, rev_involutive, H2, Nat.eqb_refl. exact H4.
Qed.

(** ** Punctuation pieces are reserved characters *)

Lemma punct_char_rchar : forall c, punct_char c = true ->
  exists k, rchar_of c = Some k /\ c = rchar_show k /\ rchar_useless k = false /\
    k <> Backslash /\ k <> Quote /\ k <> DoubleQuote.
Proof.
  intros c H. unfold punct_char in H. cbn in H.
  repeat (apply orb_true_iff in H; destruct H as [H|H]; [apply N.eqb_eq in H; subst;
    eexists; split; [reflexivity|]; repeat split; discriminate|]).
  discriminate.
Qed.

Definition punct_ok (p : piece) : Prop := match p with PPunct c => punct_char c = true | _ => True end.

Lemma lexf_punct_ok : forall n s, Forall punct_ok (fst (lexf n s)).
Proof.
  induction n as [|n IH]; intro s; [constructor|]. destruct s as [|c r]; [constructor|]. cbn [lexf].
  destruct (c =? 0x5C).
  { destruct r; cbn [pcons fst]; repeat constructor; auto. }
  destruct ((c =? 0x27) || (c =? 0x22)).
  { destruct (str_body c r) as [[t r']|]; cbn [pcons fst]; repeat constructor; auto. }
  destruct ((c =? 0x2F) && _).
  { destruct (comment_at (tl r)) as [[p r']|] eqn:E; cbn [pcons fst]; [|constructor].
    destruct (comment_at_piece _ _ _ E) as (b & [-> | ->]); repeat constructor; auto. }
  destruct (blank_char c); [cbn [pcons fst]; repeat constructor; auto|].
  destruct (punct_char c) eqn:E; cbn [pcons fst]; constructor; auto. exact I.
Qed.

Lemma lex_punct_ok : forall s, Forall punct_ok (fst (lex s)).
Proof. intro. apply lexf_punct_ok. Qed.

(** ** Errors *)

Lemma prun_problem : forall alpha ps st depth e,
  Forall punct_ok ps -> mblock st = Z.of_nat depth ->
  match problem depth (mattr st) ps e with
  | Some m => prun alpha st ps e = Err m
  | None => exists v, prun alpha st ps e = Ok v
  end.
Proof.
  intros alpha ps. induction ps as [|p ps IH]; intros st depth e Hok Hb.
  - cbn [problem prun]. destruct e as [[|]|]; eauto.
  - inversion Hok as [|? ? Hp Hok']; subst. cbn [prun].
    destruct p as [c| | |t|b|b|c]; cbn [problem].
    + cbn [pstep]. destruct (mesc st); cbn [obind].
      * apply (IH (mk _ false (mblock st) (mmedia st) (mattr st) false)); auto.
      * apply (IH {| mv := mv st; mseg := mseg st ++ [c]; mcol := mcol st; mblock := mblock st;
                     mmedia := mmedia st; mattr := mattr st; mesc := false |}); auto.
    + cbn [pstep obind]. apply (IH (mk _ false (mblock st) _ (mattr st) true)); auto.
    + cbn [pstep obind]. apply (IH (mk _ false (mblock st) _ (mattr st) false)); auto.
    + cbn [pstep obind]. apply (IH (mk _ false (mblock st) _ (mattr st) false)); auto.
    + cbn [pstep obind]. apply (IH (mk _ false (mblock st) _ (mattr st) false)); auto.
    + cbn [pstep obind]. apply (IH (mk _ false (mblock st) _ (mattr st) false)); auto.
    + cbn in Hp. destruct (punct_char_rchar c Hp) as (k & Hk & -> & Hu & H1 & H2 & H3).
      unfold pstep. rewrite Hk. set (v := fillp alpha st).
      set (media := mmedia st || some_and is_a_media (hd_error v)).
      assert (Hgo : forall v' col block' media' attr' depth',
        block' = Z.of_nat depth' ->
        match problem depth' attr' ps e with
        | Some m => (let! st' := Ok (mk v' col block' media' attr' false) in prun alpha st' ps e) = Err m
        | None => exists v0, (let! st' := Ok (mk v' col block' media' attr' false) in prun alpha st' ps e) = Ok v0
        end).
      { intros. cbn [obind]. apply (IH (mk v' col block' media' attr' false) depth'); auto. }
      destruct k; try congruence; try discriminate Hu;
        change (rchar_show OpenBracket =? 91) with true;
        repeat match goal with
        | |- context [rchar_show ?k =? ?n] =>
            let b := eval vm_compute in (rchar_show k =? n) in change (rchar_show k =? n) with b
        end; cbn iota; try (apply Hgo; exact Hb).
      * apply Hgo. lia.
      * destruct depth as [|d].
        -- rewrite Hb. reflexivity.
        -- replace (Z.ltb (mblock st - 1) 0) with false by (symmetry; apply Z.ltb_ge; lia).
           apply Hgo. lia.
      * destruct (mattr st); [reflexivity|]. apply Hgo; exact Hb.
      * destruct (mattr st); [|reflexivity]. apply Hgo; exact Hb.
      * destruct (equal_operator v); apply Hgo; exact Hb.
Qed.

Section Alpha.
Variable alpha : N -> bool.

Theorem css_minify_cases : forall s,
  match css_problem s with
  | Some m => css_minify alpha s = Err m
  | None => exists v, prun alpha pinit (fst (lex s)) None = Ok v /\
                      css_minify alpha s = Ok (concat (map token_show (cz None false 0 v)))
  end.
Proof.
  intro s. unfold css_minify, tokenize.
  fold (raw_tokens alpha s). rewrite raw_tokens_run.
  pose proof (prun_problem alpha (fst (lex s)) pinit 0 (snd (lex s)) (lex_punct_ok s) eq_refl) as H.
  change (mattr pinit) with false in H. unfold css_problem.
  destruct (problem 0 false (fst (lex s)) (snd (lex s))) as [m|] eqn:E.
  - rewrite H. reflexivity.
  - destruct H as [v H]. exists v.
    assert (He : snd (lex s) = None).
    { destruct (snd (lex s)) as [e|]; [|reflexivity]. exfalso. clear -E.
      revert E. generalize 0%nat as d. generalize false as b. generalize (fst (lex s)) as ps.
      induction ps as [|p ps IH]; intros b d E; cbn [problem] in E.
      - destruct e; discriminate.
      - destruct p; try (eapply IH; exact E).
        destruct (c =? 91). { destruct b; [discriminate|eapply IH; exact E]. }
        destruct (c =? 93). { destruct b; [eapply IH; exact E|discriminate]. }
        destruct (c =? 123). { eapply IH; exact E. }
        destruct (c =? 125). { destruct d; [discriminate|eapply IH; exact E]. }
        eapply IH; exact E. }
    rewrite He in H. rewrite He, H. split; [reflexivity|]. cbn [obind].
    rewrite clean_tokens_cz. reflexivity.
Qed.

End Alpha.
