(** The tokenizer loop is the piece machine; consequences for totality and errors. *)
From Coq Require Import String Arith List NArith ZArith Bool Lia.
From Verif Require Import Base CssModel CssSpec CssProofs1.
Import ListNotations.
Open Scope N_scope.

Section Alpha.
Variable alpha : N -> bool.

Notation selement_of := (selement_of alpha).
Notation fill_other := (fill_other alpha).
Notation tokenize_loop := (tokenize_loop alpha).
Notation fillp := (fillp alpha).
Notation pstep := (pstep alpha).
Notation prun := (prun alpha).

Definition rel (source : str) (st : tstate) (p : pst) (pos : nat) (rest : str) : Prop :=
  exists pre,
    source = pre ++ mseg p ++ rest /\ tstart st = blen pre /\ pos = blen (pre ++ mseg p) /\
    tv st = mv p /\ tblock st = mblock p /\ tmedia st = mmedia p /\ tattr st = mattr p /\
    mesc p = false /\
    (some_and (is_the_char Colon) (hd_error (mv p)) = true ->
     exists pre' c, pre = pre' ++ [c] /\
       ((c = 0x3A /\ mcol p = true) \/ (blank_char c = true /\ mcol p = false))).

Lemma selement_of_blank : forall c s, blank_char c = true -> selement_of (c :: s) = None.
Proof.
  intros c s H. unfold blank_char in H.
  repeat (apply orb_true_iff in H; destruct H as [H|H]); apply N.eqb_eq in H; subst; reflexivity.
Qed.

Lemma blank_char_len : forall c, blank_char c = true -> len_utf8 c = 1%nat.
Proof.
  intros c H. unfold blank_char in H.
  repeat (apply orb_true_iff in H; destruct H as [H|H]); apply N.eqb_eq in H; subst; reflexivity.
Qed.

Lemma fill_spec : forall source st p pos rest, rel source st p pos rest ->
  fill_other source (tv st) (tstart st) pos (tblock st) (tmedia st) (tattr st) = Ok (fillp p).
Proof.
  intros source st p pos rest (pre & Hs & Hst & Hpos & Hv & Hb & Hm & Ha & _ & Hcol).
  unfold CssModel.fill_other, CssProofs1.fillp. rewrite Hv, Hb, Hm, Ha, Hst, Hpos.
  destruct (mseg p) as [|c seg] eqn:Eseg.
  - rewrite app_nil_r. rewrite Nat.ltb_irrefl. reflexivity.
  - replace (Nat.ltb (blen pre) (blen (pre ++ c :: seg))) with true.
    2:{ symmetry. apply Nat.ltb_lt. rewrite blen_app. cbn [blen]. pose proof (len_utf8_pos c). lia. }
    assert (Hsl : slice source (blen pre) (blen (pre ++ c :: seg)) = Some (c :: seg)).
    { apply (slice_mid_eq source pre (c :: seg) rest); [exact Hs|reflexivity|apply blen_app]. }
    fold (selector_context (mblock p) (mmedia p) (mattr p)).
    destruct (selector_context (mblock p) (mmedia p) (mattr p)).
    2:{ rewrite Hsl. reflexivity. }
    destruct (some_and (is_the_char Colon) (hd_error (mv p))) eqn:Ecol.
    + destruct (Hcol eq_refl) as (pre' & d & -> & Hd).
      assert (Hd1 : len_utf8 d = 1%nat).
      { destruct Hd as [[-> _]|[Hd _]]; [reflexivity|]. apply blank_char_len; exact Hd. }
      assert (Hbl : blen (pre' ++ [d]) = S (blen pre')).
      { rewrite blen_app. cbn [blen]. lia. }
      unfold usub. rewrite Hbl.
      replace (Nat.leb 1 (S (blen pre'))) with true by reflexivity. cbn [obind].
      replace (S (blen pre') - 1)%nat with (blen pre') by lia.
      rewrite (slice_mid_eq source pre' (d :: c :: seg) rest).
      * cbn [oslice obind]. destruct Hd as [[-> ->]|[Hd ->]].
        -- destruct (selement_of (58 :: c :: seg)); [reflexivity|].
           rewrite <- Hbl, Hsl. reflexivity.
        -- rewrite selement_of_blank by exact Hd. rewrite <- Hbl, Hsl. reflexivity.
      * rewrite Hs, <- app_assoc. reflexivity.
      * reflexivity.
      * rewrite <- app_assoc, blen_app. reflexivity.
    + unfold usub. cbn [Nat.leb obind]. rewrite Nat.sub_0_r, Hsl. cbn [oslice obind].
      destruct (selement_of (c :: seg)); reflexivity.
Qed.

Lemma hd_snoc_false : forall t l, is_the_char Colon t = false ->
  some_and (is_the_char Colon) (hd_error (t :: l)) = true -> False.
Proof. intros t l H H2. cbn in H2. congruence. Qed.

(** One more character of the current run. *)
Lemma rel_char : forall source st p pos c r, rel source st p pos (c :: r) ->
  exists p', pstep p (PChar c) = Ok p' /\ rel source st p' (pos + len_utf8 c) r.
Proof.
  intros source st p pos c r (pre & Hs & Hst & Hpos & Hv & Hb & Hm & Ha & He & Hcol).
  unfold CssProofs1.pstep. rewrite He. eexists. split; [reflexivity|].
  exists pre. cbn [mv mseg mcol mblock mmedia mattr mesc].
  split. { rewrite Hs. rewrite <- !app_assoc. reflexivity. }
  split; [exact Hst|]. split. { rewrite Hpos, !blen_app. cbn [blen]. lia. }
  repeat (split; [assumption|]). split; [reflexivity|exact Hcol].
Qed.

(** Establishing the relation after a reserved character. *)
Lemma rel_after : forall source pre' st' v col block media attr pos rest,
  source = pre' ++ rest -> tstart st' = blen pre' -> pos = blen pre' ->
  tv st' = v -> tblock st' = block -> tmedia st' = media -> tattr st' = attr ->
  (some_and (is_the_char Colon) (hd_error v) = true ->
   exists pre'' c, pre' = pre'' ++ [c] /\
       ((c = 0x3A /\ col = true) \/ (blank_char c = true /\ col = false))) ->
  rel source st' (mk v col block media attr false) pos rest.
Proof.
  intros. exists pre'. cbn [mk mv mseg mcol mblock mmedia mattr mesc app].
  rewrite app_nil_r. repeat (split; [assumption|]). split; [reflexivity|assumption].
Qed.

Lemma lexf_punct : forall m k r,
  rchar_useless k = false -> k <> Backslash -> k <> Quote -> k <> DoubleQuote -> k <> Slash ->
  lexf (S m) (rchar_show k :: r) = pcons (PPunct (rchar_show k)) (lexf m r).
Proof. intros m k r H1 H2 H3 H4 H5. destruct k; try congruence; try discriminate; reflexivity. Qed.

Lemma lexf_blank : forall m c r, blank_char c = true -> lexf (S m) (c :: r) = pcons PBlank (lexf m r).
Proof.
  intros m c r H. unfold blank_char in H.
  repeat (apply orb_true_iff in H; destruct H as [H|H]); apply N.eqb_eq in H; subst; reflexivity.
Qed.

Lemma lexf_slash : forall m r, match r with d :: _ => d =? 0x2A | [] => false end = false ->
  lexf (S m) (0x2F :: r) = pcons (PPunct 0x2F) (lexf m r).
Proof. intros m r H. cbn [lexf]. rewrite H. reflexivity. Qed.

Lemma lexf_comment : forall m r,
  lexf (S m) (0x2F :: 0x2A :: r) =
  match comment_at r with
  | Some (p, r') => pcons p (lexf m r')
  | None => ([], Some UnclosedComment)
  end.
Proof. reflexivity. Qed.

Lemma lexf_string : forall m c r, c = 0x27 \/ c = 0x22 ->
  lexf (S m) (c :: r) =
  match str_body c r with
  | Some (t, r') => pcons (PStr (c :: t)) (lexf m r')
  | None => ([], Some UnclosedString)
  end.
Proof. intros m c r [-> | ->]; reflexivity. Qed.

Lemma comment_at_piece : forall s p r, comment_at s = Some (p, r) ->
  exists b, p = PCom b \/ p = PLic b.
Proof.
  intros s p r H. unfold comment_at in H. destruct s as [|c s]; [discriminate|].
  destruct ((c =? 33) || _).
  - destruct (com_body s) as [[b r']|]; [|discriminate]. injection H as <- <-. eauto.
  - destruct (com_body (c :: s)) as [[b r']|]; [|discriminate]. injection H as <- <-. eauto.
Qed.

Lemma loop_run : forall n m source st p pos rest,
  rel source st p pos rest -> (length rest < n)%nat -> (length rest <= m)%nat ->
  tokenize_loop n source st pos rest = prun p (fst (lexf m rest)) (snd (lexf m rest)).
Proof.
  induction n as [|n IH]; intros m source st p pos rest Hrel Hn Hm; [lia|].
  pose proof (fill_spec _ _ _ _ _ Hrel) as Hfill.
  destruct rest as [|c r].
  - cbn [CssModel.tokenize_loop]. assert (Hpos : blen source = pos).
    { destruct Hrel as (pre & Hs & _ & Hpos & _). rewrite Hs, Hpos, app_nil_r. reflexivity. }
    rewrite Hpos, Hfill. cbn [obind]. destruct m; reflexivity.
  - destruct m as [|m]; [cbn in Hm; lia|]. cbn in Hn, Hm.
    cbn [CssModel.tokenize_loop].
    destruct (rchar_of c) as [k|] eqn:Ek.
    2:{ destruct (class_word c Ek) as (C1 & C2 & C3 & C4 & C5).
        cbn [lexf]. rewrite C1, C2, C3, C4, C5. cbn [andb pcons fst snd CssProofs1.prun].
        destruct (rel_char _ _ _ _ _ _ Hrel) as (p' & E & Hrel'). rewrite E. cbn [obind].
        apply IH; [exact Hrel'|lia|lia]. }
    rewrite Hfill. cbn [obind].
    pose proof Hrel as (pre & Hs & Hst & Hpos & Hv & Hb & Hm' & Ha & He & Hcol).
    set (v := fillp p) in *.
    assert (Hsrc : source = (pre ++ mseg p) ++ c :: r) by (rewrite Hs, app_assoc; reflexivity).
    set (q := pre ++ mseg p) in *.
    rewrite Hm', Hb, Ha. set (media := mmedia p || some_and is_a_media (hd_error v)).
    (* the common continuation *)
    assert (Hgo : forall v' col block' media' attr' pos' npos' mid r' ps e,
      source = (q ++ mid) ++ r' -> S pos' = blen (q ++ mid) -> npos' = blen (q ++ mid) ->
      (some_and (is_the_char Colon) (hd_error v') = true ->
       exists pre'' c, q ++ mid = pre'' ++ [c] /\
       ((c = 0x3A /\ col = true) \/ (blank_char c = true /\ col = false))) ->
      (length r' <= length r)%nat -> (ps, e) = lexf m r' ->
      tokenize_loop n source
        {| tv := v'; tstart := S pos'; tblock := block'; tmedia := media'; tattr := attr' |} npos' r'
      = prun (mk v' col block' media' attr' false) ps e).
    { intros v' col block' media' attr' pos' npos' mid r' ps e H1 H2 H3 H4 H5 H6.
      replace ps with (fst (lexf m r')) by (rewrite <- H6; reflexivity).
      replace e with (snd (lexf m r')) by (rewrite <- H6; reflexivity).
      apply IH; [|lia|lia].
      apply (rel_after _ (q ++ mid)); cbn [tv tstart tblock tmedia tattr]; auto. }
    (* plain punctuation *)
    assert (Hpunct : forall block' media' attr', len_utf8 c = 1%nat ->
      (is_the_char Colon (TChar k) = true -> c = 0x3A) ->
      tokenize_loop n source
        {| tv := TChar k :: v; tstart := S pos; tblock := block'; tmedia := media'; tattr := attr' |}
        (pos + len_utf8 c) r
      = prun (mk (TChar k :: v) (c =? 0x3A) block' media' attr' false) (fst (lexf m r)) (snd (lexf m r))).
    { intros block' media' attr' Hl Hk.
      apply (Hgo _ _ _ _ _ _ _ [c] r).
      - rewrite Hsrc. rewrite <- app_assoc. reflexivity.
      - rewrite Hpos, blen_app. cbn [blen]. lia.
      - rewrite Hpos, blen_app. cbn [blen]. lia.
      - cbn [hd_error some_and]. intro H. exists q, c. split; [reflexivity|].
        left. specialize (Hk H). subst c. auto.
      - lia.
      - destruct (lexf m r); reflexivity. }
    pose proof Ek as Ek0. apply rchar_of_inv in Ek.
    assert (Hblank : blank_char c = true -> rchar_useless k = true ->
      (let! (v', pos', block', media', attr', npos', r') :=
         reserved_step source v pos k (mblock p) media (mattr p) (pos + len_utf8 c) r in
       tokenize_loop n source
         {| tv := v'; tstart := S pos'; tblock := block'; tmedia := media'; tattr := attr' |} npos' r')
      = prun p (fst (lexf (S m) (c :: r))) (snd (lexf (S m) (c :: r)))).
    { intros Hbl Hu. rewrite lexf_blank by exact Hbl. cbn [pcons fst snd CssProofs1.prun].
      unfold CssProofs1.pstep. cbn [obind]. fold v. fold media.
      assert (E : reserved_step source v pos k (mblock p) media (mattr p) (pos + len_utf8 c) r =
        Ok ((if push_blank v then TChar Space :: v else v), pos, mblock p, media, mattr p,
            (pos + len_utf8 c)%nat, r)).
      { destruct k; try discriminate Hu; unfold reserved_step;
          cbn [rchar_eqb rchar_eq_dec andb rchar_useless negb operator_of];
          destruct (push_blank v); reflexivity. }
      rewrite E. cbn [obind].
      apply (Hgo _ _ _ _ _ _ _ [c] r).
      - rewrite Hsrc. rewrite <- app_assoc. reflexivity.
      - rewrite Hpos, blen_app. cbn [blen]. rewrite (blank_char_len c Hbl). lia.
      - rewrite Hpos, blen_app. cbn [blen]. lia.
      - intros _. exists q, c. split; [reflexivity|]. right. auto.
      - lia.
      - destruct (lexf m r); reflexivity. }
    assert (Hstr : (k = Quote \/ k = DoubleQuote) ->
      (let! (v', pos', block', media', attr', npos', r') :=
         reserved_step source v pos k (mblock p) media (mattr p) (pos + len_utf8 c) r in
       tokenize_loop n source
         {| tv := v'; tstart := S pos'; tblock := block'; tmedia := media'; tattr := attr' |} npos' r')
      = prun p (fst (lexf (S m) (c :: r))) (snd (lexf (S m) (c :: r)))).
    { intros Hk. assert (Hq : (c = 0x27 /\ k = Quote) \/ (c = 0x22 /\ k = DoubleQuote)).
      { clear - Ek Hk. destruct Hk as [Hk|Hk]; subst k; (destruct Ek as [->|[? _]]; [cbn; tauto|discriminate]). }
      rewrite lexf_string by tauto.
      assert (E : reserved_step source v pos k (mblock p) media (mattr p) (pos + len_utf8 c) r =
        let! o := get_string source (pos + len_utf8 c) r pos k in
        match o with
        | Some (t, pos', npos', r) => Ok (t :: v, pos', mblock p, media, mattr p, npos', r)
        | None => Err (S_ "Unclosed string")
        end) by (destruct Hk as [->| ->]; reflexivity).
      rewrite E. subst pos.
      rewrite (get_string_spec (length r) r source q [] c k); [|lia|exact Hq| |].
      2:{ rewrite Hsrc. reflexivity. }
      2:{ rewrite blen_app. cbn [blen]. lia. }
      destruct (str_body c r) as [[b r']|] eqn:Eb; cbn [obind].
      2:{ reflexivity. }
      cbn [app].
      assert (Hb1 : exists b', b = b' ++ [c]) by (apply (str_body_last (length r) r c b r'); [lia|exact Eb]).
      apply (str_body_app (length r)) in Eb; [|lia]. subst r.
      cbn [pcons fst snd CssProofs1.prun]. unfold CssProofs1.pstep. cbn [obind]. fold v. fold media.
      apply (Hgo _ _ _ _ _ _ _ (c :: b) r').
      - rewrite Hsrc. rewrite <- app_assoc. reflexivity.
      - rewrite blen_app. cbn [blen]. pose proof (len_utf8_pos c). lia.
      - reflexivity.
      - cbn [hd_error some_and is_the_char]. discriminate.
      - rewrite app_length. lia.
      - destruct (lexf m r'); reflexivity. }
    assert (Hslash : k = Slash ->
      (let! (v', pos', block', media', attr', npos', r') :=
         reserved_step source v pos k (mblock p) media (mattr p) (pos + len_utf8 c) r in
       tokenize_loop n source
         {| tv := v'; tstart := S pos'; tblock := block'; tmedia := media'; tattr := attr' |} npos' r')
      = prun p (fst (lexf (S m) (c :: r))) (snd (lexf (S m) (c :: r)))).
    { intros ->. destruct Ek as [->|[? _]]; [|discriminate].
      change (rchar_show Slash) with 0x2F in *. change (len_utf8 0x2F) with 1%nat in *.
      cbn [reserved_step].
      replace (some_and (fun d => d =? 0x2A) (hd_error r))
        with (match r with d :: _ => d =? 0x2A | [] => false end) by (destruct r; reflexivity).
      destruct (match r with d :: _ => d =? 0x2A | [] => false end) eqn:Er.
      2:{ rewrite lexf_slash by exact Er. cbn [obind pcons fst snd CssProofs1.prun].
          unfold CssProofs1.pstep. cbn [rchar_of]. change (rchar_of 0x2F) with (Some Slash). cbn iota.
          fold v. fold media. cbn [obind].
          apply Hpunct; [reflexivity|discriminate]. }
      destruct r as [|d r]; [discriminate|]. apply N.eqb_eq in Er. subst d.
      rewrite lexf_comment. cbn [tl].
      pose proof (get_comment_spec source q r) as Hc. specialize (Hc ltac:(rewrite Hsrc, <- app_assoc; reflexivity)).
      rewrite Hpos. replace (blen q + 1 + 1)%nat with (blen q + 2)%nat by lia.
      destruct (comment_at r) as [[pc r']|] eqn:Ec.
      2:{ rewrite Hc. reflexivity. }
      destruct Hc as (mid & Hmid & Hc). rewrite Hc. cbn [obind].
      cbn [pcons fst snd CssProofs1.prun].
      assert (Hstep : pstep p pc = Ok (mk (piece_token pc :: v) false (mblock p) media (mattr p) false)).
      { destruct (comment_at_piece _ _ _ Ec) as (b & [-> | ->]); reflexivity. }
      rewrite Hstep. cbn [obind].
      apply (Hgo _ _ _ _ _ _ _ (0x2F :: 0x2A :: mid ++ [0x2F]) r').
      - rewrite Hsrc, Hmid. rewrite <- app_assoc. cbn [app]. rewrite <- app_assoc. reflexivity.
      - rewrite blen_app. cbn [blen]. rewrite blen_app. cbn [blen].
        change (len_utf8 0x2F) with 1%nat. change (len_utf8 0x2A) with 1%nat. lia.
      - rewrite blen_app. cbn [blen]. rewrite blen_app. cbn [blen].
        change (len_utf8 0x2F) with 1%nat. change (len_utf8 0x2A) with 1%nat. lia.
      - destruct (comment_at_piece _ _ _ Ec) as (b & [-> | ->]); discriminate.
      - pose proof (comment_at_length _ _ _ Ec). cbn [length]. lia.
      - destruct (lexf m r'); reflexivity. }
    assert (Hbs : k = Backslash ->
      (let! (v', pos', block', media', attr', npos', r') :=
         reserved_step source v pos k (mblock p) media (mattr p) (pos + len_utf8 c) r in
       tokenize_loop n source
         {| tv := v'; tstart := S pos'; tblock := block'; tmedia := media'; tattr := attr' |} npos' r')
      = prun p (fst (lexf (S m) (c :: r))) (snd (lexf (S m) (c :: r)))).
    { intros ->. destruct Ek as [->|[? _]]; [|discriminate].
      change (rchar_show Backslash) with 0x5C in *. change (len_utf8 0x5C) with 1%nat in *.
      cbn [reserved_step]. destruct r as [|d r].
      - cbn [obind]. destruct n as [|n]; [cbn in Hn; lia|].
        cbn [CssModel.tokenize_loop lexf]. change (92 =? 92) with true. cbn iota.
        cbn [fst snd CssProofs1.prun]. unfold CssProofs1.pstep. fold v. fold media. cbn [obind].
        unfold CssModel.fill_other. cbn [tv tstart tblock tmedia tattr].
        replace (Nat.ltb (S pos) (blen source)) with false.
        { reflexivity. }
        symmetry. apply Nat.ltb_ge. rewrite Hsrc, Hpos, blen_app. cbn. lia.
      - rewrite (slice_mid_eq source (q ++ [0x5C]) [d] r).
        + cbn [oslice obind]. cbn [lexf]. change (92 =? 92) with true. cbn iota.
          cbn [pcons fst snd CssProofs1.prun]. unfold CssProofs1.pstep at 1. fold v. fold media. cbn [obind].
          unfold CssProofs1.pstep. cbn [mk mesc mv mblock mmedia mattr obind].
          apply (Hgo _ _ _ _ _ _ _ [0x5C; d] r).
          * rewrite Hsrc. rewrite <- app_assoc. reflexivity.
          * rewrite blen_app. cbn [blen]. change (len_utf8 0x5C) with 1%nat. lia.
          * rewrite blen_app. cbn [blen]. change (len_utf8 0x5C) with 1%nat. lia.
          * discriminate.
          * cbn [length]. lia.
          * destruct (lexf m r); reflexivity.
        + rewrite Hsrc, <- app_assoc. reflexivity.
        + rewrite Hpos, blen_app. reflexivity.
        + rewrite Hpos, blen_app. cbn [blen]. change (len_utf8 0x5C) with 1%nat. lia. }
    assert (Hp : forall st', rchar_useless k = false -> k <> Backslash -> k <> Quote -> k <> DoubleQuote ->
      k <> Slash -> pstep p (PPunct c) = st' -> prun p (fst (lexf (S m) (c :: r))) (snd (lexf (S m) (c :: r))) =
      obind st' (fun st => prun st (fst (lexf m r)) (snd (lexf m r)))).
    { intros st' H1 H2 H3 H4 H5 H6. destruct Ek as [->|[-> _]]; [|discriminate H1].
      rewrite lexf_punct by assumption. cbn [pcons fst snd CssProofs1.prun]. rewrite H6. reflexivity. }
    assert (Hc3 : k = Colon -> c = 0x3A).
    { intros ->. destruct Ek as [->|[? _]]; [reflexivity|discriminate]. }
    assert (Hl : rchar_useless k = false -> len_utf8 c = 1%nat).
    { intros Hu. destruct Ek as [->|[-> _]]; [destruct k; reflexivity|discriminate Hu]. }
    destruct k;
      try (apply Hblank; [destruct Ek as [->|[_ ->]]; reflexivity|reflexivity]);
      try (apply Hstr; auto; fail); try (apply Hslash; reflexivity); try (apply Hbs; reflexivity);
      (erewrite Hp; [|reflexivity|discriminate|discriminate|discriminate|discriminate
                     |unfold CssProofs1.pstep; rewrite Ek0; fold v; fold media; reflexivity]);
      cbn [reserved_step rchar_eqb rchar_eq_dec andb rchar_useless negb];
      try (cbn [obind]; apply Hpunct; [apply Hl; reflexivity|first [exact (fun _ => Hc3 eq_refl)|discriminate]]; fail).
    + (* CloseCurlyBrace *)
      destruct (Z.ltb (mblock p - 1) 0); [reflexivity|]. cbn [obind].
      apply Hpunct; [apply Hl; reflexivity|discriminate].
    + (* OpenBracket *)
      destruct (mattr p); [reflexivity|]. cbn [obind].
      apply Hpunct; [apply Hl; reflexivity|discriminate].
    + (* CloseBracket *)
      destruct (mattr p); cbn [negb]; [|reflexivity]. cbn [obind].
      apply Hpunct; [apply Hl; reflexivity|discriminate].
    + (* SemiColon *)
      destruct (Z.eqb (mblock p) 0); cbn [obind]; (apply Hpunct; [apply Hl; reflexivity|discriminate]).
    + (* EqualSign *)
      destruct (equal_operator v) as [o|].
      * cbn [obind]. destruct Ek as [->|[? _]]; [|discriminate].
        apply (Hgo _ _ _ _ _ _ _ [rchar_show EqualSign] r).
        -- rewrite Hsrc. rewrite <- app_assoc. reflexivity.
        -- rewrite Hpos, blen_app. cbn. lia.
        -- rewrite Hpos, blen_app. cbn. lia.
        -- discriminate.
        -- lia.
        -- destruct (lexf m r); reflexivity.
      * cbn [obind]. apply Hpunct; [apply Hl; reflexivity|discriminate].
Qed.

(** The vector before clean_tokens. *)
Definition raw_tokens (s : str) : outcome (list token) :=
  tokenize_loop (S (length s)) s
    {| tv := []; tstart := 0; tblock := 0; tmedia := false; tattr := false |} 0 s.

Theorem raw_tokens_run : forall s, raw_tokens s = prun pinit (fst (lex s)) (snd (lex s)).
Proof.
  intro s. unfold raw_tokens, lex. apply loop_run; [|lia|lia].
  exists []. cbn. repeat (split; [reflexivity|]). discriminate.
Qed.

End Alpha.
