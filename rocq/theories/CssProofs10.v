(** Needless blanks: what clean_tokens drops. *)
From Coq Require Import String Arith List NArith ZArith Bool Lia ZifyBool ZifyN.
From Verif Require Import Base CssModel CssSpec CssGapSpec CssProofs1 CssProofs2 CssProofs3 CssProofs4 CssProofs5 CssProofs6 CssProofs7 CssProofs8 CssProofs9.
Import ListNotations.
Open Scope N_scope.

(** ** Items at a boundary that no word crosses *)

Definition wordless (p : piece) : Prop := ~ word_piece p.

Lemma wordless_step : forall p w r, wordless p -> items_from w (p :: r) = flush w (items_from [] (p :: r)).
Proof.
  intros p w r H. destruct p; try (exfalso; apply H; (left; reflexivity) || (right; eexists; reflexivity)); reflexivity.
Qed.

Lemma items_boundary : forall p1 w p2,
  (p1 = [] /\ w = [] \/ (exists q x, p1 = q ++ [x] /\ wordless x) \/ p2 = [] \/ (exists x q, p2 = x :: q /\ wordless x)) ->
  items_from w (p1 ++ p2) = items_from w p1 ++ items_from [] p2.
Proof.
  induction p1 as [|p p1 IH]; intros w p2 H.
  - destruct H as [[_ ->]|[(q & x & E & _)|[->|(x & q & -> & Hx)]]].
    + reflexivity.
    + destruct q; discriminate.
    + rewrite !app_nil_r. reflexivity.
    + cbn [app]. rewrite (wordless_step x w q Hx). destruct w; reflexivity.
  - assert (HI : forall w', (match p with PChar _ | PBs => True | _ => w' = [] end) ->
      items_from w' (p1 ++ p2) = items_from w' p1 ++ items_from [] p2).
    { intros w' Hw. apply IH. destruct H as [[E _]|[(q & x & E & Hx)|[->|H]]]; [discriminate| |auto|auto].
      destruct q as [|y q]; injection E as <- ->.
      - left. split; [reflexivity|]. destruct p; try exact Hw; exfalso; apply Hx; [right; eexists; reflexivity|left; reflexivity].
      - right. left. eauto. }
    cbn [app]. destruct p; cbn [items_from]; rewrite HI by (exact I || reflexivity); try reflexivity;
      rewrite ?app_comm_cons, flush_app; reflexivity.
Qed.

(** ** clean_tokens on a gap *)

Lemma cz_drop : forall G p c pa R, Forall (fun t => blankish t = true) G ->
  (forall n, (n = hd_error R \/ exists g, n = Some g /\ blankish g = true) -> retain_blank p n c = false) ->
  cz (Some p) c pa (G ++ R) = cz (Some p) c pa R.
Proof.
  induction G as [|g G IH]; intros p c pa R HF Hr; [reflexivity|]. inversion HF; subst.
  cbn [app cz]. rewrite calc_step_blank by assumption. rewrite H1.
  rewrite Hr; [apply IH; assumption|]. destruct G as [|g' G]; [left; reflexivity|].
  right. exists g'. inversion H2; subst. auto.
Qed.

Lemma blank_drops : forall k n c, rchar_useless k = true -> retain_blank (TChar k) n c = false.
Proof. intros k n c H. destruct k; try discriminate; destruct c; destruct n as [n|]; reflexivity. Qed.

Lemma cz_one : forall G p c pa n r, Forall (fun t => blankish t = true) G -> blankish n = false ->
  exists g, cz (Some p) c pa (G ++ n :: r) = g ++ n :: cz (Some n) (fst (calc_step n c pa)) (snd (calc_step n c pa)) r /\
    (g = [] \/ exists k, g = [TChar k] /\ rchar_useless k = true) /\
    ((forall n', (n' = Some n \/ exists g, n' = Some g /\ blankish g = true) -> retain_blank p n' c = false) -> g = []).
Proof.
  intros G p c pa n r HF Hn.
  assert (E0 : forall q, cz (Some q) c pa (n :: r) = n :: cz (Some n) (fst (calc_step n c pa)) (snd (calc_step n c pa)) r).
  { intro q. cbn [cz]. rewrite Hn. destruct (calc_step n c pa). reflexivity. }
  induction G as [|g G IH].
  - exists []. split; [apply E0|]. split; [auto|reflexivity].
  - inversion HF; subst. specialize (IH H2). cbn [app cz]. rewrite calc_step_blank by assumption. rewrite H1.
    destruct (retain_blank p (hd_error (G ++ n :: r)) c) eqn:Er.
    + assert (Hk : exists k, (if is_comment g then TChar Space else g) = TChar k /\ rchar_useless k = true).
      { destruct g as [b|b|k|s|e|s|o|o]; try discriminate; [exists Space; auto|].
        exists k. split; [reflexivity|]. unfold blankish in H1. cbn in H1. rewrite orb_false_r in H1. exact H1. }
      destruct Hk as (k & Ek & Hk). rewrite Ek. exists [TChar k]. split.
      * cbn [app]. f_equal. rewrite cz_drop; [apply E0|assumption|]. intros n' _. apply blank_drops. exact Hk.
      * split; [right; eauto|]. intro Hd. rewrite Hd in Er; [discriminate|].
        destruct G as [|g' G]; [left; reflexivity|]. right. exists g'. inversion H2; subst. auto.
    + exact IH.
Qed.

Section Alpha.
Variable alpha : N -> bool.

(** ** Outside calc *)

Definition CO (done : list piece) (st : pst) : Prop :=
  fst (cs (mv st)) = true ->
  (snd (cs (mv st)) = 0%Z /\ pend done) \/
  (exists q g inner, done = q ++ calc_name ++ g ++ PPunct 0x28 :: inner /\ run_starts q /\ Forall separator g /\
     stays_open inner /\ snd (cs (mv st)) = (Z.of_nat (opened inner) - Z.of_nat (closed inner) + 1)%Z).

Lemma opened_app : forall a b, opened (a ++ b) = (opened a + opened b)%nat.
Proof. intros. unfold opened. rewrite filter_app, app_length. reflexivity. Qed.
Lemma closed_app : forall a b, closed (a ++ b) = (closed a + closed b)%nat.
Proof. intros. unfold closed. rewrite filter_app, app_length. reflexivity. Qed.

Lemma stays_open_snoc : forall ps p, stays_open ps -> (closed (ps ++ [p]) <= opened (ps ++ [p]))%nat -> stays_open (ps ++ [p]).
Proof.
  intros ps p H Hp a b E. destruct b as [|x b _] using rev_ind.
  - rewrite app_nil_r in E. subst a. exact Hp.
  - rewrite app_assoc in E. apply app_inj_tail in E. destruct E as [E _]. eapply H. exact E.
Qed.

Lemma stays_open_nil : stays_open [].
Proof. intros a b E. symmetry in E. apply app_eq_nil in E. destruct E as [-> _]. apply le_n. Qed.

Lemma CO_step : forall done st p rest st', Forall punct_ok done -> punct_ok p -> before alpha done st -> CI done st -> CO done st ->
  calc_called (done ++ p :: rest) -> pstep alpha st p = Ok st' -> CO (done ++ [p]) st'.
Proof.
  intros done st p rest st' HF Hp Hb HC HO Hc H. pose proof H as Hst. apply pstep_cs in H; [|exact Hp].
  (* nothing but the count of parentheses changes *)
  assert (Hgen : cs (mv st') = paren_step p (cs (mv st)) -> CO (done ++ [p]) st').
  { intros E F. rewrite E in F |- *.
    assert (F0 : fst (cs (mv st)) = true).
    { destruct p; try exact F. cbn [paren_step] in F. destruct (fst (cs (mv st))) eqn:F1; [reflexivity|]. rewrite F1 in F. exact F. }
    destruct (HO F0) as [[Z0 Hpe]|(q & g & inner & -> & Hr & Hg & Ho & Zn)].
    - destruct (pend_next _ _ _ Hpe Hc) as [Hs|Hs].
      + left. split; [destruct Hs as [->|[b ->]]; exact Z0|apply pend_snoc; assumption].
      + subst p. right. destruct Hpe as (q & g & -> & Hr & Hg & _). exists q, g, [].
        rewrite <- !app_assoc. split; [reflexivity|]. split; [exact Hr|]. split; [exact Hg|]. split; [exact stays_open_nil|].
        cbn [paren_step]. rewrite F0. cbn. lia.
    - right. exists q, g, (inner ++ [p]). rewrite <- !app_assoc. split; [reflexivity|]. split; [exact Hr|]. split; [exact Hg|].
      rewrite opened_app, closed_app.
      assert (Hcl : (closed inner <= opened inner)%nat) by (apply (Ho inner []); symmetry; apply app_nil_r).
      assert (Hsame : paren_step p (cs (mv st)) = cs (mv st) -> opened [p] = 0%nat -> closed [p] = 0%nat ->
        stays_open (inner ++ [p]) /\ snd (paren_step p (cs (mv st))) =
          (Z.of_nat (opened inner + opened [p]) - Z.of_nat (closed inner + closed [p]) + 1)%Z).
      { intros E1 O1 C1. split.
        - apply stays_open_snoc; [exact Ho|]. rewrite opened_app, closed_app. lia.
        - rewrite E1, Zn, O1, C1. lia. }
      destruct p as [c| | |t|b|b|c]; try (apply Hsame; reflexivity).
      cbn [paren_step] in F, Hsame |- *. rewrite F0 in F, Hsame |- *.
      destruct (N.eqb_spec c 40) as [->|N1].
      { cbn [snd]. change (opened [PPunct 40]) with 1%nat. change (closed [PPunct 40]) with 0%nat. split; [|lia].
        apply stays_open_snoc; [exact Ho|]. rewrite opened_app, closed_app.
        change (opened [PPunct 40]) with 1%nat. change (closed [PPunct 40]) with 0%nat. lia. }
      destruct (N.eqb_spec c 41) as [->|N2].
      { cbn [fst snd] in F |- *. change (opened [PPunct 41]) with 0%nat. change (closed [PPunct 41]) with 1%nat. split; [|lia].
        apply stays_open_snoc; [exact Ho|]. rewrite opened_app, closed_app.
        change (opened [PPunct 41]) with 0%nat. change (closed [PPunct 41]) with 1%nat. lia. }
      apply Hsame; [reflexivity| |]; unfold opened, closed; cbn [filter length].
      + destruct (N.eqb_spec c 40); [congruence|reflexivity].
      + destruct (N.eqb_spec c 41); [congruence|reflexivity]. }
  assert (Hnew : (forall c, p <> PChar c) -> cs (mv st') = paren_step p (cs (fillp alpha st)) -> CO (done ++ [p]) st').
  { intros Hnc E. destruct (fillp_cs alpha st) as [E1|[Em E1]]; rewrite E1 in E; [apply Hgen; exact E|].
    destruct (fst (cs (mv st))) eqn:F0.
    { apply Hgen. rewrite E. f_equal. destruct (cs (mv st)) as [x y]. cbn in *. congruence. }
    intros F. assert (Hm : mseg st <> []) by (rewrite Em; discriminate).
    destruct (run_split alpha done st HF Hb Hm) as (q & Eq & Hr). rewrite Em in Eq. change (map PChar (S_ "calc")) with calc_name in Eq.
    assert (Z0 : snd (cs (mv st)) = 0%Z) by (destruct HC as [C1 _]; apply C1; exact F0).
    destruct (Hc q (p :: rest)) as (g' & r' & E' & Hg').
    { rewrite Eq, <- app_assoc. reflexivity. } { exact Hr. } { destruct p; try exact I. eapply Hnc. reflexivity. }
    destruct (sep_paren [] p rest g' r' ltac:(constructor) Hg' E') as [Hs|Hs].
    - left. split; [rewrite E; destruct Hs as [->|[b ->]]; exact Z0|].
      exists q, [p]. rewrite Eq, <- app_assoc. repeat split; try apply Hr; auto. discriminate.
    - subst p. right. exists q, [], []. rewrite Eq, <- app_assoc. split; [reflexivity|]. split; [exact Hr|].
      split; [constructor|]. split; [exact stays_open_nil|]. rewrite E. cbn. rewrite Z0. reflexivity. }
  destruct p; try (apply Hnew; [discriminate|exact H]). apply Hgen. exact H.
Qed.

Lemma CO_before : forall done rest st, Forall punct_ok done -> calc_called (done ++ rest) -> before alpha done st -> CO done st.
Proof.
  induction done as [|p done IH] using rev_ind; intros rest st HF Hc H.
  - cbn in H. injection H as <-. intro E. discriminate.
  - apply before_snoc in H. destruct H as (st0 & Hb & Hs). apply Forall_app in HF. destruct HF as [HF1 HF2]. inversion HF2; subst.
    rewrite <- app_assoc in Hc. cbn [app] in Hc.
    eapply CO_step; [exact HF1|assumption|exact Hb| | |exact Hc|exact Hs].
    + eapply CI_before; [exact HF1|exact Hc|exact Hb].
    + eapply IH; [exact HF1|exact Hc|exact Hb].
Qed.

Lemma outside_calc : forall ps rest st, Forall punct_ok ps -> calc_called (ps ++ rest) -> before alpha ps st -> ~ in_calc ps ->
  fst (cs (fillp alpha st)) = false.
Proof.
  intros ps rest st HF Hc Hb Hn. destruct (fst (cs (fillp alpha st))) eqn:E; [exfalso|reflexivity]. apply Hn.
  assert (Hmv : fst (cs (mv st)) = true -> in_calc ps).
  { intro F. destruct (CO_before ps rest st HF Hc Hb F) as [(_ & q & g & -> & Hr & Hg & _)|(q & g & inner & -> & Hr & Hg & Ho & _)].
    - exists q, g, []. rewrite app_nil_r. auto.
    - exists q, g, (PPunct 0x28 :: inner). repeat (split; [auto|]). right. eauto. }
  destruct (fillp_cs alpha st) as [E1|[Em E1]]; rewrite E1 in E; [apply Hmv; exact E|].
  assert (Hm : mseg st <> []) by (rewrite Em; discriminate).
  destruct (run_split alpha ps st HF Hb Hm) as (q & Eq & Hr). rewrite Em in Eq. change (map PChar (S_ "calc")) with calc_name in Eq.
  exists q, [], []. rewrite Eq. repeat (split; [auto|]). auto.
Qed.

(** ** The first token after a gap, whatever is before *)

Lemma first_any : forall st b post v h h', mseg st = [] -> mcol st = false -> mesc st = false -> ~ separator b ->
  hrun h (b :: post) = Some h' -> h <> HBs -> Forall punct_ok (b :: post) ->
  (b = PPunct 0x3D -> equal_operator (mv st) = None) -> prun alpha st (b :: post) None = Ok v ->
  exists rest n, v = rev (mv st) ++ n :: rest /\ first_class b n.
Proof.
  intros st b post v h h' Hms Hmc Hme Hs Hh Hnb HF Heq H.
  assert (Hgen : (forall t, b <> PChar t) -> exists rest n, v = rev (mv st) ++ n :: rest /\ first_class b n).
  { intro Hnc. inversion HF; subst.
    cbn [prun] in H. destruct (pstep alpha st b) as [st'| | |] eqn:E; cbn [obind] in H; try discriminate.
    assert (Hf : fillp alpha st = mv st) by (unfold fillp; rewrite Hms; reflexivity).
    assert (Hb : base (first_class b) (mv st) (mv st')).
    { apply pstep_cases in E; [|assumption]. destruct E as [E _]. rewrite Hf in E.
      destruct b as [c| | |t|bd|bd|c]; try (exfalso; eapply Hnc; reflexivity);
        try (destruct E as [-> _]; exists []; eexists; split; reflexivity).
      - exfalso. apply Hs. left. reflexivity.
      - exfalso. apply Hs. right. eauto.
      - destruct E as (k & Hk & Hc & _ & [[-> _]|(o & -> & Ho & _)]).
        + exists [], (TChar k). split; [reflexivity|]. cbn [first_class]. eauto.
        + exfalso. cbn in Hc. subst c. rewrite Heq in Ho by reflexivity. discriminate. }
    destruct (base_prun alpha post (first_class b) (mv st) st' v (closedK_first b)) as (n & rest & E1 & E2); [assumption|exact Hb|exact H|].
    eauto. }
  destruct b as [c| | |t|bd|bd|c]; try (apply Hgen; discriminate).
  clear Hgen Heq. destruct (span_chars post) as (w & r & -> & Hr).
  change (PChar c :: map PChar w ++ r) with (map PChar (c :: w) ++ r) in H, Hh.
  assert (Hw : Forall (fun c => wordc c = true) (c :: w)) by (eapply hrun_wordc; eauto).
  rewrite prun_app, pmulti_chars in H by exact Hme. cbn [obind] in H. rewrite Hms, Hmc in H. cbn [app] in H.
  set (st1 := {| mv := mv st; mseg := c :: w; mcol := false; mblock := mblock st; mmedia := mmedia st; mattr := mattr st; mesc := false |}) in H.
  assert (Hn : exists n, fillp alpha st1 = n :: mv st /\ wordtok n /\ is_pseudo n = false).
  { unfold fillp, st1. cbn [mv mseg mcol mblock mmedia mattr].
    assert (Ho : exists n, TOther (c :: w) :: mv st = n :: mv st /\ wordtok n /\ is_pseudo n = false).
    { exists (TOther (c :: w)). split; [reflexivity|]. split; [left; eauto|reflexivity]. }
    destruct (selector_context _ _ _); [|exact Ho]. destruct (some_and _ _); [exact Ho|].
    destruct (selement_of alpha (c :: w)) as [e|] eqn:Ee; [|exact Ho].
    exists (TSelectorElement e). split; [reflexivity|]. split; [right; eauto|]. eapply selement_not_pseudo; eauto. }
  destruct Hn as (n & Ef & Hn).
  destruct (finish_run alpha st1 r n v (first_class (PChar c)) (closedK_first (PChar c))) with (L := mv st) as (rest & n' & E & K); try assumption.
  - inversion HF; subst. apply Forall_app in H3. tauto.
  - intros o Ho. destruct Hn as [[[? ->]|[? ->]] _]; discriminate.
  - eauto.
Qed.

Lemma first_class_solid : forall b n, ~ separator b -> punct_ok b -> first_class b n -> blankish n = false.
Proof.
  intros b n Hs Hp H. destruct b as [c| | |t|bd|bd|c]; cbn [first_class piece_token] in H; try contradiction; try (subst n; reflexivity).
  - destruct H as [[[? ->]|[? ->]] _]; reflexivity.
  - cbn in Hp. destruct (punct_char_rchar c Hp) as (k' & Hk' & _ & Hu & _).
    destruct H as (k & Hk & [->|[[_ H]|(o & _ & ->)]]); [|destruct n; try discriminate; reflexivity|reflexivity].
    assert (k' = k) by congruence. subst k'. unfold blankish. cbn. rewrite Hu. reflexivity.
Qed.

Lemma first_class_punct : forall b n, punct_ok b -> ~ separator b -> ~ word_piece b -> first_class b n ->
  exists x q, tp n = x :: q /\ wordless x /\ ~ separator x.
Proof.
  assert (W : forall c, wordless (PPunct c) /\ ~ separator (PPunct c)).
  { intro c. split; [intros [E|[d E]]; discriminate|intros [E|[d E]]; discriminate]. }
  intros b n Hp Hs Hw H. destruct b as [c| | |t|bd|bd|c]; cbn [first_class piece_token] in H; try contradiction.
  - exfalso. apply Hw. right. eauto.
  - exfalso. apply Hw. left. reflexivity.
  - subst n. eexists. eexists. split; [reflexivity|]. split; [intros [E|[d E]]; discriminate|exact Hs].
  - subst n. eexists. eexists. split; [reflexivity|]. split; [intros [E|[d E]]; discriminate|exact Hs].
  - cbn in Hp. destruct (punct_char_rchar c Hp) as (k' & Hk' & _ & Hu & Hb1 & Hb2 & Hb3).
    destruct H as (k & Hk & H). assert (k' = k) by congruence. subst k'.
    destruct H as [->|[[_ H]|(o & _ & ->)]].
    + cbn [tp]. rewrite Hu. destruct k; try congruence; try discriminate; (eexists; eexists; split; [reflexivity|apply W]).
    + destruct n as [| | | |e| | |]; try discriminate. destruct e; try discriminate. cbn [tp]. eexists. eexists. split; [reflexivity|apply W].
    + cbn [tp]. eexists. eexists. split; [reflexivity|apply W].
Qed.

(** A token that is not a blank or a comment does not start with one. *)
Lemma solid_first : forall n, blankish n = false -> exists x q, tp n = x :: q /\ ~ separator x.
Proof.
  assert (W : forall s, exists x q, wordp s = x :: q /\ ~ separator x).
  { intros [|c s]; eexists; eexists; (split; [reflexivity|]); intros [E|[d E]]; discriminate. }
  intros n H. destruct n as [b|b|k|s|e|s|o|o]; try discriminate; try exact (W _);
    try (eexists; eexists; split; [reflexivity|]; intros [E|[d E]]; discriminate).
  - destruct k; try discriminate; (eexists; eexists; split; [reflexivity|]; intros [E|[d E]]; discriminate).
  - destruct e; try exact (W _); (eexists; eexists; split; [reflexivity|]; intros [E|[d E]]; discriminate).
Qed.

(** ** The last token before a gap *)

Definition last_exact (a : piece) (t : token) : Prop :=
  match a with
  | PChar _ => wordtok t
  | PPunct c => exists k, rchar_of c = Some k /\ (t = TChar k \/ k = EqualSign /\ exists o, t = TSelectorOperator o)
  | PBlank | PCom _ => False
  | _ => t = piece_token a
  end.

Lemma last_exact_token : forall st a st1, punct_ok a -> ~ separator a -> pstep alpha st a = Ok st1 ->
  exists t L, fillp alpha st1 = t :: L /\ last_exact a t.
Proof.
  intros st a st1 Hg Hs H. destruct (last_token alpha st a st1 Hg Hs H) as (t & L & Ef & Ht).
  destruct a as [c| | |x|b|b|c]; try (exists t, L; split; [exact Ef|exact Ht]).
  - exfalso. apply Hs. left. reflexivity.
  - exfalso. apply Hs. right. eauto.
  - exists t, L. split; [exact Ef|]. clear Ht. apply pstep_cases in H; [|exact Hg]. destruct H as (H & Hm & _).
    assert (Hf : fillp alpha st1 = mv st1) by (unfold fillp; rewrite Hm; reflexivity).
    destruct H as (k & Hk & _ & _ & [[E _]|(o & -> & _ & E & _)]); rewrite Hf, E in Ef; injection Ef as <- _; eexists; (split; [exact Hk|]); [left; reflexivity|right; eauto].
Qed.

Lemma last_exact_solid : forall a t, punct_ok a -> last_exact a t -> blankish t = false.
Proof.
  intros a t Hp H. destruct a as [c| | |x|b|b|c]; cbn [last_exact] in H; try contradiction; try (subst t; reflexivity).
  - destruct H as [[? ->]|[? ->]]; reflexivity.
  - cbn in Hp. destruct (punct_char_rchar c Hp) as (k' & Hk' & _ & Hu & _).
    destruct H as (k & Hk & [->|[_ [o ->]]]); [|reflexivity]. assert (k' = k) by congruence. subst k'.
    unfold blankish. cbn. rewrite Hu. reflexivity.
Qed.

(** The last piece of a token, when it does not bring its own blank. *)
Lemma solid_last : forall t, blankish t = false -> is_a_media t = false -> is_a_license t = false ->
  exists q x, tp t = q ++ [x] /\ ~ separator x.
Proof.
  assert (W : forall s, exists q x, wordp s = q ++ [x] /\ ~ separator x).
  { intros s. destruct s as [|c s].
    - exists [], (PPunct 0). split; [reflexivity|]. intros [E|[d E]]; discriminate.
    - destruct (@exists_last _ (c :: s)) as (q & x & E); [discriminate|]. exists (map PChar q), (PChar x).
      unfold wordp. rewrite E, map_app. split; [reflexivity|]. intros [E1|[d E1]]; discriminate. }
  assert (W2 : forall p s, exists q x, p :: wordp s = q ++ [x] /\ ~ separator x).
  { intros p s. destruct (W s) as (q & x & -> & Hx). exists (p :: q), x. auto. }
  intros t H Hm Hl. destruct t as [b|b|k|s|e|s|o|o]; try discriminate; try exact (W _).
  - destruct k; try discriminate; (exists []; eexists; split; [reflexivity|]; intros [E|[d E]]; discriminate).
  - destruct e; try discriminate; try exact (W _); exact (W2 _ _).
  - exists []. eexists. split; [reflexivity|]. intros [E|[d E]]; discriminate.
  - eexists [_], _. split; [reflexivity|]. intros [E|[d E]]; discriminate.
  - exists []. eexists. split; [reflexivity|]. intros [E|[d E]]; discriminate.
Qed.

(** ** The tokens of a gap of blanks *)

Lemma blanks_only : forall gap st st', Forall (fun p => p = PBlank) gap -> gap <> [] -> pmulti alpha st gap = Ok st' ->
  mv st' = if push_blank (fillp alpha st) then TChar Space :: fillp alpha st else fillp alpha st.
Proof.
  induction gap as [|p gap IH]; intros st st' HF Hn H; [congruence|]. inversion HF; subst.
  cbn [pmulti] in H. destruct (pstep alpha st PBlank) as [st1| | |] eqn:E; cbn [obind] in H; try discriminate.
  apply pstep_cases in E; [|exact I]. destruct E as ([E _] & Em & _).
  assert (Ef : fillp alpha st1 = mv st1) by (unfold fillp; rewrite Em; reflexivity).
  destruct gap as [|p' gap].
  - cbn in H. injection H as <-. exact E.
  - assert (Hp : pmulti alpha st1 (p' :: gap) = Ok st') by exact H.
    inversion H3; subst.
    assert (K : push_blank (mv st1) = false -> mv st' = mv st1).
    { clear - Hp Em H4. intro Hpb. revert st1 st' Em Hp Hpb. generalize (PBlank :: gap) (Forall_cons PBlank eq_refl H4).
      intros l Hl. induction Hl as [|q l Hq Hl IHl]; intros st1 st' Em Hp Hpb.
      - cbn in Hp. congruence.
      - subst q. cbn [pmulti] in Hp. destruct (pstep alpha st1 PBlank) as [st2| | |] eqn:E2; cbn [obind] in Hp; try discriminate.
        apply pstep_cases in E2; [|exact I]. destruct E2 as ([E2 _] & Em2 & _).
        assert (Ef : fillp alpha st1 = mv st1) by (unfold fillp; rewrite Em; reflexivity).
        rewrite Ef, Hpb in E2. rewrite (IHl st2 st' Em2 Hp) by (rewrite E2; exact Hpb). exact E2. }
    destruct (push_blank (fillp alpha st)) eqn:Epb.
    + rewrite K; [exact E|]. rewrite E. reflexivity.
    + rewrite K; [exact E|]. rewrite E. exact Epb.
Qed.

(** ** A gap outside calc *)

Lemma output_pieces : forall s o v, regular s -> prun alpha pinit (fst (lex s)) None = Ok v ->
  o = concat (map token_show (cz None false 0 v)) -> fst (lex o) = tps (cz None false 0 v).
Proof.
  intros s o v Hreg Hv Ho. destruct (lex_accept s Hreg) as [h Hh].
  destruct (prun_AI alpha (fst (lex s)) pinit x0) with (v := v)
    (x' := (h, fold_left istep (fst (lex s)) (snd x0))) as (yv & Hyv & _).
  - exact AI_init.
  - rewrite xrun_hrun. cbn [fst x0]. rewrite Hh. reflexivity.
  - exact Hv.
  - destruct (cz_run v None false 0 x0 x0 yv eq_refl (or_introl eq_refl) Hyv) as (yv' & Hyv' & _).
    pose proof (cz_no_comment v None false 0) as Hnc.
    destruct (tokens_text _ _ _ Hnc Hyv') as (ts & HF & Ec).
    apply xrun_fst in Hyv'.
    pose proof (lex_back _ _ _ HN (fst yv') (le_n _) Hyv' ltac:(discriminate) HF) as Hlb.
    rewrite Ho, <- Ec. unfold lex. rewrite Hlb. reflexivity.
Qed.

(** A combinator that no equal sign follows stays a token of its own. *)
Definition sealed (k : rchar) (L : list token) (st : pst) : Prop :=
  exists M, mv st = M ++ TChar k :: L /\ (M = [] -> mseg st <> []).

Lemma sealed_fillp : forall k L st, k <> Colon -> sealed k L st -> exists M, fillp alpha st = M ++ TChar k :: L /\ M <> [].
Proof.
  intros k L st Hk (M & E & HM). unfold fillp. destruct (mseg st) as [|c w] eqn:Em.
  - exists M. split; [exact E|]. intros ->. apply HM; reflexivity.
  - assert (Ho : forall x, exists M0, x :: mv st = M0 ++ TChar k :: L /\ M0 <> []).
    { intro x. exists (x :: M). rewrite E. split; [reflexivity|discriminate]. }
    destruct (selector_context _ _ _); [|apply Ho]. destruct (some_and _ _) eqn:Es.
    + destruct (if mcol st then _ else _) as [e|]; [|apply Ho].
      destruct M as [|y M].
      * rewrite E in Es. cbn in Es. apply rchar_eqb_eq in Es. congruence.
      * rewrite E. cbn [app tl]. exists (TSelectorElement e :: M). split; [reflexivity|discriminate].
    + destruct (selement_of alpha (c :: w)); apply Ho.
Qed.

Lemma sealed_step : forall k L st p st', k <> Colon -> punct_ok p -> sealed k L st -> pstep alpha st p = Ok st' -> sealed k L st'.
Proof.
  intros k L st p st' Hk Hp HJ H. destruct (sealed_fillp k L st Hk HJ) as (M & Ef & HM).
  apply pstep_cases in H; [|exact Hp]. destruct H as (H & _ & _).
  assert (Hc : forall x, mv st' = x :: fillp alpha st -> sealed k L st').
  { intros x E. exists (x :: M). rewrite E, Ef. split; [reflexivity|discriminate]. }
  destruct p as [c| | |t|b|b|c]; try (destruct H as [H _]; eapply Hc; exact H).
  - destruct HJ as (M0 & E0 & HM0). destruct H as [(_ & E & _)|(_ & E & E2 & _)].
    + exists (TOther [c] :: M0). rewrite E, E0. split; [reflexivity|discriminate].
    + exists M0. rewrite E. split; [exact E0|]. intros _. rewrite E2. intro E3. apply app_eq_nil in E3. destruct E3; discriminate.
  - destruct H as [H _]. destruct (push_blank _); [eapply Hc; exact H|].
    exists M. rewrite H. split; [exact Ef|]. intro E. congruence.
  - destruct H as (k' & _ & _ & _ & [[H _]|(o & _ & _ & H & _)]); [eapply Hc; exact H|].
    rewrite Ef in H. destruct M as [|y M]; [congruence|]. cbn [app tl] in H.
    exists (TSelectorOperator o :: M). rewrite H. split; [reflexivity|discriminate].
Qed.

Lemma sealed_run : forall ps k L st v, k <> Colon -> Forall punct_ok ps -> sealed k L st -> prun alpha st ps None = Ok v ->
  exists rest, v = rev L ++ TChar k :: rest.
Proof.
  induction ps as [|p ps IH]; intros k L st v Hk HF HJ H.
  - rewrite prun_nil in H. injection H as <-. destruct (sealed_fillp k L st Hk HJ) as (M & -> & _).
    exists (rev M). rewrite rev_app_distr. cbn [rev]. rewrite <- app_assoc. reflexivity.
  - inversion HF; subst. cbn [prun] in H. destruct (pstep alpha st p) as [st'| | |] eqn:E; cbn [obind] in H; try discriminate.
    eapply IH; [exact Hk|exact H3| |exact H]. eapply sealed_step; [exact Hk|exact H2|exact HJ|exact E].
Qed.

Lemma sep_span : forall ps : list piece, exists g r, ps = g ++ r /\ Forall separator g /\ match r with [] => True | x :: _ => ~ separator x end.
Proof.
  induction ps as [|p ps (g & r & -> & Hg & Hr)]; [exists [], []; auto|].
  assert (D : separator p \/ ~ separator p).
  { destruct p; try (right; intros [E|[d E]]; discriminate); left; [left; reflexivity|right; eauto]. }
  destruct D as [D|D]; [exists (p :: g), r; auto|]. exists [], (p :: g ++ r). auto.
Qed.

Lemma lone_char : forall st c k post v, mseg st = [] -> rchar_of c = Some k -> c <> 0x3D -> k <> Colon ->
  Forall punct_ok (PPunct c :: post) -> no_equal_next post -> prun alpha st (PPunct c :: post) None = Ok v ->
  exists rest, v = rev (mv st) ++ TChar k :: rest.
Proof.
  intros st c k post v Hm Hk Hc Hcol HF Hne H. inversion HF; subst.
  cbn [prun] in H. destruct (pstep alpha st (PPunct c)) as [st1| | |] eqn:E; cbn [obind] in H; try discriminate.
  apply pstep_cases in E; [|assumption]. destruct E as (E & Em & Ee).
  assert (Ef : fillp alpha st = mv st) by (unfold fillp; rewrite Hm; reflexivity). rewrite Ef in E.
  assert (E1 : mv st1 = TChar k :: mv st).
  { destruct E as (k' & Hk' & Hc' & _ & [[E _]|(o & -> & _)]); [congruence|]. exfalso. apply Hc. exact Hc'. }
  clear E. destruct (sep_span post) as (g & r & -> & Hg & Hr).
  apply Forall_app in H3. destruct H3 as [_ HFr].
  assert (Hgap : exists st2 G, mv st2 = G ++ TChar k :: mv st /\ mseg st2 = [] /\ mesc st2 = false /\ prun alpha st2 r None = Ok v).
  { destruct g as [|x g].
    - exists st1, []. auto.
    - rewrite prun_app in H. destruct (pmulti alpha st1 (x :: g)) as [st2| | |] eqn:E2; cbn [obind] in H; try discriminate.
      destruct (gap_steps alpha (x :: g) st1 st2 Hg) as (G & A1 & _ & _ & A4 & _ & A6 & _); [discriminate|exact E2|].
      assert (Ef1 : fillp alpha st1 = mv st1) by (unfold fillp; rewrite Em; reflexivity).
      exists st2, G. rewrite A1, Ef1, E1. auto. }
  destruct Hgap as (st2 & G & Eg & Em2 & Ee2 & Hv). assert (Ef2 : fillp alpha st2 = mv st2) by (unfold fillp; rewrite Em2; reflexivity).
  destruct r as [|x r].
  - rewrite prun_nil, Ef2, Eg in Hv. injection Hv as <-. exists (rev G). rewrite rev_app_distr. cbn [rev]. rewrite <- app_assoc. reflexivity.
  - inversion HFr; subst. cbn [prun] in Hv. destruct (pstep alpha st2 x) as [st3| | |] eqn:E3; cbn [obind] in Hv; try discriminate.
    eapply sealed_run; [exact Hcol| |  |exact Hv]; [assumption|].
    apply pstep_cases in E3; [|assumption]. destruct E3 as (E3 & _ & _). rewrite Ef2 in E3.
    assert (Hpush : forall y, mv st3 = y :: mv st2 -> sealed k (mv st) st3).
    { intros y E4. exists (y :: G). rewrite E4, Eg. split; [reflexivity|discriminate]. }
    destruct x as [d| | |t|b|b|d]; try (destruct E3 as [E3 _]; eapply Hpush; exact E3).
    + destruct E3 as [(E4 & _)|(_ & E4 & E5 & _)]; [congruence|]. exists G. rewrite E4. split; [exact Eg|].
      intros _. rewrite E5, Em2. discriminate.
    + exfalso. apply Hr. left. reflexivity.
    + destruct E3 as (k' & _ & Hd & _ & [[E3 _]|(o & -> & _)]); [eapply Hpush; exact E3|]. exfalso.
      cbn in Hd. subst d. eapply Hne; [reflexivity|exact Hg].
Qed.

Definition next_is (post : list piece) (R : list token) : Prop :=
  match post with
  | [] => R = []
  | b :: post' => exists n rest, R = n :: rest /\ first_class b n /\ blankish n = false /\
      (forall c k, b = PPunct c -> rchar_of c = Some k -> c <> 0x3D -> k <> Colon -> no_equal_next post' -> n = TChar k)
  end.

Lemma gap_shape : forall s o q a gap post,
  css_minify alpha s = Ok o -> regular s -> gap_between s (q ++ [a]) gap post -> ~ separator a ->
  match post with [] => True | b :: _ => ~ separator b end ->
  (forall b post', post = b :: post' -> b = PPunct 0x3D ->
     forall c, a = PPunct c -> ~ In c (S_ "~|$^*")) ->
  exists st0 st1 t L G p1 R pa,
    before alpha q st0 /\ pstep alpha st0 a = Ok st1 /\ before alpha (q ++ [a]) st1 /\ Forall punct_ok (q ++ [a]) /\
    fillp alpha st1 = t :: L /\ last_exact a t /\ blankish t = false /\
    Forall (fun t => blankish t = true) G /\ (push_blank (t :: L) = true -> G <> []) /\
    (Forall (fun p => p = PBlank) gap -> G = if push_blank (t :: L) then [TChar Space] else []) /\
    fst (lex o) = (p1 ++ tp t) ++ tps (cz (Some t) (fst (cs (t :: L))) pa (G ++ R)) /\
    items_from [] (p1 ++ tp t) = items_from [] (q ++ [a]) /\
    items_from [] (fst (lex o)) = items_from [] (q ++ [a]) ++ items_from [] post /\
    next_is post R.
Proof.
  intros s o q a gap post H Hreg Hgap Ha Hb Heq.
  destruct (gap_run alpha s o _ _ _ H Hreg Hgap) as (st1 & st2 & v & h & (F1 & F2 & F3 & F4 & F5) & Hv & Ho).
  destruct Hgap as (Hl & Hgn & HG).
  destruct (before_snoc alpha q a st1 F1) as (st0 & F0 & Hst).
  assert (HFp : Forall punct_ok (q ++ [a])) by (apply Forall_app in F4; tauto).
  assert (Hpa : punct_ok a) by (apply Forall_app in HFp; destruct HFp as [_ X]; inversion X; assumption).
  destruct (last_exact_token st0 a st1 Hpa Ha Hst) as (t & L & Hf & Ht).
  pose proof (last_exact_solid a t Hpa Ht) as Hbt.
  destruct (gap_steps alpha gap st1 st2 HG Hgn F2) as (G & A1 & A2 & A3 & A4 & A5 & A6 & _). rewrite Hf in A1, A3.
  assert (HR : exists R, v = rev (mv st2) ++ R /\ next_is post R).
  { destruct post as [|b post].
    - exists []. split; [|reflexivity]. rewrite prun_nil in F3. rewrite app_nil_r. unfold fillp in F3. rewrite A4 in F3. congruence.
    - rewrite app_assoc in F4, F5. destruct (hrun_mid _ _ _ F5 (gap_last (q ++ [a]) gap Hgn HG)) as (h1 & Hh1 & Hnbs).
      assert (HFb : Forall punct_ok (b :: post)) by (apply Forall_app in F4; tauto).
      destruct (first_any st2 b post v h1 h A4 A5 A6 Hb Hh1 Hnbs HFb) as (rest & n & Ev & Hn); [|exact F3|].
      + intro Eb. rewrite A1. destruct G as [|g G].
        * cbn [app]. rewrite equal_operator_hd. specialize (Heq b post eq_refl Eb).
          destruct t as [| |k| | | | |]; try reflexivity.
          destruct a as [c| | |x|bd|bd|c]; cbn [last_exact piece_token] in Ht; try contradiction; try discriminate.
          { destruct Ht as [[? E]|[? E]]; discriminate. }
          { injection Ht as ->. reflexivity. }
          specialize (Heq c eq_refl). destruct Ht as (k' & Hk & [E|[_ [op E]]]); [|discriminate]. injection E as <-.
          cbn in Hpa. destruct (punct_char_rchar c Hpa) as (k' & Hk' & Hc & _). assert (k' = k) by congruence. subst k'.
          destruct k; try reflexivity; exfalso; apply Heq; rewrite Hc; cbn; tauto.
        * inversion A2; subst. cbn [app]. rewrite equal_operator_hd. destruct g as [| |k| | | | |]; try discriminate; try reflexivity.
          destruct k; try discriminate; reflexivity.
      + exists (n :: rest). split; [exact Ev|]. exists n, rest. split; [reflexivity|]. split; [exact Hn|].
        split; [inversion HFb; subst; eapply first_class_solid; eauto|].
        intros c k Eb Hk Hc Hcol Hne. subst b. destruct (lone_char st2 c k post v A4 Hk Hc Hcol HFb Hne F3) as (rest' & E').
        rewrite Ev in E'. apply app_inv_head in E'. congruence. }
  destruct HR as (R & Ev & HR).
  assert (Ev2 : v = rev (t :: L) ++ rev G ++ R).
  { rewrite Ev, A1, rev_app_distr, <- app_assoc. reflexivity. }
  assert (Hpre : prun alpha pinit (q ++ [a]) None = Ok (rev (t :: L))).
  { rewrite <- (app_nil_r (q ++ [a])), prun_app, F1. cbn [obind]. rewrite prun_nil, Hf. reflexivity. }
  assert (Hxp : exists xp, xrun x0 (q ++ [a]) = Some xp).
  { rewrite hrun_app in F5. destruct (hrun HN (q ++ [a])) as [hp|] eqn:Ep; [|discriminate].
    rewrite xrun_hrun. cbn [fst x0]. rewrite Ep. cbn. eauto. }
  destruct Hxp as [xp Hxp]. pose proof (xrun_items _ _ Hxp) as Hip.
  destruct (prun_AI alpha _ _ _ _ _ AI_init Hxp Hpre) as (yp & Hyp & Eyp).
  destruct (cz_run (rev (t :: L)) None false 0 x0 x0 yp eq_refl (or_introl eq_refl) Hyp) as (yp' & Hyp' & Eyp').
  pose proof (xrun_items _ _ Hyp') as Hpi.
  assert (Hitems : items_from [] (tps (cz None false 0 (rev (t :: L)))) = items_from [] (q ++ [a])) by congruence.
  assert (Hlo : fst (lex o) = tps (cz None false 0 v)) by (eapply output_pieces; eassumption).
  assert (Hall : items_from [] (fst (lex o)) = items_from [] (q ++ [a]) ++ items_from [] post).
  { change (items_from [] (fst (lex o))) with (items o).
    rewrite (proj1 (css_main alpha s o H Hreg)). unfold items. rewrite Hl. apply items_from_gap; assumption. }
  assert (Ecz : cz None false 0 v = cz None false 0 (rev (t :: L)) ++
    cz (Some t) (fst (calcs (false, 0%Z) (rev (t :: L)))) (snd (calcs (false, 0%Z) (rev (t :: L)))) (rev G ++ R)).
  { rewrite Ev2. cbn [rev]. apply cz_app. exact Hbt. }
  destruct (cz_snoc (rev L) None false 0 t Hbt) as [X EX]. cbn [rev] in Hitems, Ecz. rewrite EX in Ecz, Hitems.
  assert (Et : tps (X ++ [t]) = tps X ++ tp t) by (rewrite tps_app; unfold tps at 2; cbn [map concat]; rewrite app_nil_r; reflexivity).
  rewrite Et in Hitems.
  exists st0, st1, t, L, (rev G), (tps X), R, (snd (calcs (false, 0%Z) (rev (t :: L)))).
  split; [exact F0|]. split; [exact Hst|]. split; [exact F1|]. split; [exact HFp|]. split; [exact Hf|]. split; [exact Ht|]. split; [exact Hbt|].
  split; [apply Forall_rev; exact A2|]. split.
  { intros Hp E. apply (A3 (or_introl Hp)). apply (f_equal (@rev token)) in E. rewrite rev_involutive in E. exact E. }
  split.
  { intro Hbl. pose proof (blanks_only gap st1 st2 Hbl Hgn F2) as E. rewrite Hf, A1 in E. destruct (push_blank (t :: L)).
    - change (TChar Space :: t :: L) with ([TChar Space] ++ t :: L) in E. apply app_inv_tail in E. subst G. reflexivity.
    - change (t :: L) with ([] ++ t :: L) in E at 2. apply app_inv_tail in E. subst G. reflexivity. }
  split. { rewrite Hlo, Ecz, tps_app, Et. reflexivity. }
  split; [exact Hitems|]. split; [exact Hall|exact HR].
Qed.


Lemma shape_no_blank : forall o p1 t R' pre post,
  fst (lex o) = (p1 ++ tp t) ++ tps R' ->
  items_from [] (p1 ++ tp t) = items_from [] pre ->
  items_from [] (fst (lex o)) = items_from [] pre ++ items_from [] post ->
  blankish t = false -> is_a_media t = false -> is_a_license t = false ->
  (R' = [] \/ exists n r, R' = n :: r /\ blankish n = false /\
     ((exists q x, tp t = q ++ [x] /\ wordless x) \/ (exists x q, tp n = x :: q /\ wordless x))) ->
  no_blank o pre post.
Proof.
  intros o p1 t R' pre post El Ei Ea Ht Hm Hl HR. exists (p1 ++ tp t), (tps R'). split; [exact El|]. split; [exact Ei|].
  assert (Hlast : forall q g, p1 ++ tp t = q ++ [g] -> ~ separator g).
  { intros q g E. destruct (solid_last t Ht Hm Hl) as (y & x & Ex & Hx). rewrite Ex, app_assoc in E. apply app_inj_tail in E.
    destruct E as [_ <-]. exact Hx. }
  assert (Hsplit : items_from [] (tps R') = items_from [] post).
  { rewrite El, items_boundary, Ei in Ea; [apply app_inv_head in Ea; exact Ea|].
    destruct HR as [->|(n & r & -> & _ & [(q & x & -> & Hx)|(x & q & E & Hx)])].
    - right. right. left. reflexivity.
    - right. left. exists (p1 ++ q), x. split; [apply app_assoc|exact Hx].
    - right. right. right. exists x, (q ++ tps r). rewrite tps_cons, E. split; [reflexivity|exact Hx]. }
  split; [exact Hsplit|]. split; [exact Hlast|].
  intros g q E. destruct HR as [->|(n & r & -> & Hn & _)]; [discriminate|].
  destruct (solid_first n Hn) as (x & y & Ex & Hx). rewrite tps_cons, Ex in E. injection E as <- _. exact Hx.
Qed.

(** Punctuation: what the token prints. *)
Lemma char_tp : forall c k, punct_ok (PPunct c) -> rchar_of c = Some k -> tp (TChar k) = [PPunct c].
Proof.
  intros c k Hp Hk. cbn in Hp. destruct (punct_char_rchar c Hp) as (k' & Hk' & Hc & Hu & H1 & H2 & H3).
  assert (k' = k) by congruence. subst k' c. cbn [tp]. rewrite Hu. destruct k; try congruence; reflexivity.
Qed.

Lemma punct_wordless : forall c, wordless (PPunct c).
Proof. intros c [E|[d E]]; discriminate. Qed.

Lemma outside_cs : forall q a rest st1 t L, Forall punct_ok (q ++ [a]) -> calc_called ((q ++ [a]) ++ rest) -> before alpha (q ++ [a]) st1 ->
  ~ in_calc (q ++ [a]) -> fillp alpha st1 = t :: L -> fst (cs (t :: L)) = false.
Proof. intros q a rest st1 t L HF Hc Hb Hn Hf. rewrite <- Hf. eapply outside_calc; eauto. Qed.

(** ** After punctuation *)

Lemma first_not : forall b n d k, first_class b n -> b <> PPunct d -> rchar_of d = Some k -> d = rchar_show k ->
  rchar_useless k = false -> punct_ok b -> k <> Backslash -> is_the_char k n = false.
Proof.
  intros b n d k H Hb Hd Hs Hu Hp Hbs. destruct (is_the_char k n) eqn:E; [exfalso|reflexivity].
  destruct n as [| |k'| | | | |]; try discriminate. cbn in E. apply rchar_eqb_eq in E.
  destruct b as [c| | |t|bd|bd|c]; cbn [first_class piece_token] in H; try contradiction; try discriminate.
  - destruct H as [[[? F]|[? F]] _]; discriminate.
  - congruence.
  - cbn in Hp. destruct (punct_char_rchar c Hp) as (k2 & Hk2 & Hc & _).
    destruct H as (k1 & Hk1 & [F|[[_ F]|(o & _ & F)]]); try discriminate. injection F as <-.
    apply Hb. f_equal. congruence.
Qed.

Lemma after_char : forall s o q c k gap post,
  css_minify alpha s = Ok o -> regular s -> gap_between s (q ++ [PPunct c]) gap post ->
  calc_called (fst (lex s)) -> ~ in_calc (q ++ [PPunct c]) -> allows_next c post ->
  rchar_of c = Some k -> ~ In k [CloseParenthese; CloseBracket; Star] ->
  (c <> 0x3D \/ exists q' d, q = q' ++ [PChar d]) ->
  no_blank o (q ++ [PPunct c]) post.
Proof.
  intros s o q c k gap post H Hreg Hgap Hcc Hnc Hpost Hk Hin Heq.
  destruct (gap_shape s o q (PPunct c) gap post H Hreg Hgap) as
    (st0 & st1 & t & L & G & p1 & R & pa & B0 & Hst & B1 & HF & Ef & Ht & Hbt & HG & _ & _ & El & Ei & Ea & HR).
  { intros [E|[d E]]; discriminate. }
  { destruct post; [exact I|]. apply Hpost. }
  { intros b post' -> ->. destruct Hpost as (_ & E & _). congruence. }
  destruct Hgap as (Hl & _ & _).
  assert (Hc0 : fst (cs (t :: L)) = false).
  { eapply outside_cs; eauto. rewrite <- Hl. exact Hcc. }
  assert (Hpc : punct_ok (PPunct c)) by (apply Forall_app in HF; destruct HF as [_ X]; inversion X; assumption).
  assert (Hcs : c = rchar_show k /\ rchar_useless k = false /\ k <> Backslash).
  { cbn in Hpc. destruct (punct_char_rchar c Hpc) as (k' & Hk' & A & B & C1 & C2 & C3). assert (k' = k) by congruence. subst k'.
    repeat split; assumption. }
  destruct Hcs as (Hcs & Hu & Hbs).
  assert (Htk : t = TChar k).
  { destruct Ht as (k' & Hk' & [->|[-> [op ->]]]); [congruence|]. exfalso.
    assert (Ek : k = EqualSign) by congruence. subst k. destruct Heq as [Heq|(q' & d & ->)]; [exact (Heq Hcs)|].
    apply before_snoc in B0. destruct B0 as (st' & _ & Hst').
    destruct (last_exact_token st' (PChar d) st0 I) with (2 := Hst') as (t0 & L0 & Ef0 & Ht0); [intros [E|[x E]]; discriminate|].
    apply pstep_cases in Hst; [|exact Hpc]. destruct Hst as (Hst & Hm & _).
    assert (Ef1 : fillp alpha st1 = mv st1) by (unfold fillp; rewrite Hm; reflexivity).
    destruct Hst as (k2 & _ & _ & _ & [[E _]|(o2 & _ & E & _)]); [congruence|].
    rewrite Ef0, equal_operator_hd in E. destruct Ht0 as [[? ->]|[? ->]]; discriminate. }
  subst t. rewrite Hc0 in El.
  assert (Hret : forall n', (n' = hd_error R \/ exists g, n' = Some g /\ blankish g = true) -> retain_blank (TChar k) n' false = false).
  { intros n' Hn'.
    assert (Hne : is_the_char Star (TChar k) = false /\ is_the_char CloseBracket (TChar k) = false /\ is_the_char CloseParenthese (TChar k) = false).
    { destruct k; try (split; [|split]; reflexivity); exfalso; apply Hin; cbn; tauto. }
    destruct Hne as (N1 & N2 & N3).
    assert (Hx : some_and (is_the_char EqualSign) n' = false /\ (is_the_char Slash (TChar k) && some_and (is_the_char Star) n' = false)).
    { destruct Hn' as [->|(g & -> & Hg)].
      - unfold next_is in HR. destruct post as [|b post].
        + subst R. cbn. rewrite andb_false_r. auto.
        + destruct HR as (n & rest & -> & Hn & _ & _). cbn [hd_error some_and]. destruct Hpost as (Hb & He & Hst2).
          assert (Hpb : punct_ok b).
          { pose proof (lex_punct_ok s) as X. rewrite Hl in X. apply Forall_app in X. destruct X as [_ X]. apply Forall_app in X. destruct X as [_ X]. inversion X; assumption. }
          split; [apply (first_not b n 0x3D EqualSign Hn); try reflexivity; try assumption; discriminate|].
          destruct (is_the_char Slash (TChar k)) eqn:Es; [|reflexivity]. cbn in Es. apply rchar_eqb_eq in Es.
          cbn [andb]. apply (first_not b n 0x2A Star Hn); try reflexivity; try assumption; try discriminate. apply Hst2. subst k. exact Hcs.
      - destruct g as [| |k'| | | | |]; try discriminate; cbn; rewrite ?andb_false_r; auto.
        destruct k'; try discriminate; cbn; rewrite ?andb_false_r; auto. }
    destruct Hx as [X1 X2]. unfold retain_blank. rewrite N1, N2, N3, X1, X2. cbn [is_other is_a_selector_element is_char andb orb negb].
    rewrite andb_false_r. reflexivity. }
  rewrite cz_drop in El by assumption.
  assert (HR' : cz (Some (TChar k)) false pa R = [] \/ exists n r, cz (Some (TChar k)) false pa R = n :: r /\ blankish n = false).
  { unfold next_is in HR. destruct post as [|b post]; [subst R; left; reflexivity|].
    destruct HR as (n & rest & -> & _ & Hn & _). right. cbn [cz]. rewrite Hn. destruct (calc_step n false pa). eauto. }
  eapply shape_no_blank; [exact El|exact Ei|exact Ea|exact Hbt|reflexivity|reflexivity|].
  destruct HR' as [->|(n & r & -> & Hn)]; [left; reflexivity|]. right. exists n, r. split; [reflexivity|]. split; [exact Hn|].
  left. exists [], (PPunct c). split; [apply char_tp; assumption|apply punct_wordless].
Qed.

Theorem gap_after_punct : forall s o q c gap post,
  css_minify alpha s = Ok o -> regular s -> gap_between s (q ++ [PPunct c]) gap post ->
  calc_called (fst (lex s)) -> ~ in_calc (q ++ [PPunct c]) -> In c (S_ "{};,>:([+/|~$^") -> allows_next c post ->
  no_blank o (q ++ [PPunct c]) post.
Proof.
  intros s o q c gap post H Hreg Hgap Hcc Hnc Hin Hpost.
  cbn in Hin. repeat (destruct Hin as [<-|Hin]); [..|contradiction];
    (eapply after_char; try eassumption; [reflexivity|cbn; intuition discriminate|left; discriminate]).
Qed.

(** Anywhere, calc included, for a gap of blanks. *)
Theorem gap_blanks_after_punct : forall s o q c gap post,
  css_minify alpha s = Ok o -> regular s -> gap_between s (q ++ [PPunct c]) gap post ->
  Forall (fun p => p = PBlank) gap -> In c (S_ "{};,>:([|~$^") -> allows_next c post ->
  no_blank o (q ++ [PPunct c]) post.
Proof.
  intros s o q c gap post H Hreg Hgap Hbl Hin Hpost.
  destruct (gap_shape s o q (PPunct c) gap post H Hreg Hgap) as
    (st0 & st1 & t & L & G & p1 & R & pa & B0 & Hst & B1 & HF & Ef & Ht & Hbt & HG & _ & HGb & El & Ei & Ea & HR).
  { intros [E|[d E]]; discriminate. }
  { destruct post; [exact I|]. apply Hpost. }
  { intros b post' -> ->. destruct Hpost as (_ & E & _). congruence. }
  assert (Hpc : punct_ok (PPunct c)) by (apply Forall_app in HF; destruct HF as [_ X]; inversion X; assumption).
  assert (Hk : exists k, rchar_of c = Some k /\ t = TChar k /\ push_blank (TChar k :: L) = false).
  { destruct Ht as (k & Hk & [->|[-> _]]); [|exfalso; cbn in Hin; repeat (destruct Hin as [<-|Hin]); [..|contradiction]; discriminate].
    exists k. split; [exact Hk|]. split; [reflexivity|].
    cbn in Hin. repeat (destruct Hin as [<-|Hin]); [..|contradiction]; cbn in Hk; injection Hk as <-; reflexivity. }
  destruct Hk as (k & Hk & -> & Hpb). specialize (HGb Hbl). rewrite Hpb in HGb. subst G. cbn [app] in El.
  assert (HR' : cz (Some (TChar k)) (fst (cs (TChar k :: L))) pa R = [] \/
    exists n r, cz (Some (TChar k)) (fst (cs (TChar k :: L))) pa R = n :: r /\ blankish n = false).
  { unfold next_is in HR. destruct post as [|b post]; [subst R; left; reflexivity|].
    destruct HR as (n & rest & -> & _ & Hn & _). right. cbn [cz]. rewrite Hn. destruct (calc_step n _ pa). eauto. }
  eapply shape_no_blank; [exact El|exact Ei|exact Ea|exact Hbt|reflexivity|reflexivity|].
  destruct HR' as [->|(n & r & -> & Hn)]; [left; reflexivity|]. right. exists n, r. split; [reflexivity|]. split; [exact Hn|].
  left. exists [], (PPunct c). split; [apply char_tp; assumption|apply punct_wordless].
Qed.

Theorem gap_after_equal : forall s o q d gap post,
  css_minify alpha s = Ok o -> regular s -> gap_between s ((q ++ [PChar d]) ++ [PPunct 0x3D]) gap post ->
  calc_called (fst (lex s)) -> ~ in_calc ((q ++ [PChar d]) ++ [PPunct 0x3D]) -> allows_next 0x3D post ->
  no_blank o ((q ++ [PChar d]) ++ [PPunct 0x3D]) post.
Proof.
  intros s o q d gap post H Hreg Hgap Hcc Hnc Hpost.
  eapply after_char; try eassumption; [reflexivity|cbn; intuition discriminate|right; eauto].
Qed.

(** ** Before punctuation *)

Lemma media_at_word : forall q a st0 st1 m L, Forall punct_ok (q ++ [a]) -> before alpha (q ++ [a]) st1 -> ~ separator a ->
  pstep alpha st0 a = Ok st1 -> fillp alpha st1 = TSelectorElement (Media m) :: L -> at_word (q ++ [a]).
Proof.
  intros q a st0 st1 m L HF Hb Ha Hst Ef.
  assert (Hpa : punct_ok a) by (apply Forall_app in HF; destruct HF as [_ X]; inversion X; assumption).
  apply pstep_cases in Hst; [|exact Hpa]. destruct Hst as (Hst & Hm & _).
  destruct (mseg st1) as [|c w] eqn:Em.
  - exfalso. assert (Ef1 : fillp alpha st1 = mv st1) by (unfold fillp; rewrite Em; reflexivity). rewrite Ef1 in Ef.
    destruct a as [c| | |t|b|b|c]; cbn [piece_token] in Hst; try (destruct Hst as [E _]; rewrite E in Ef; discriminate).
    + destruct Hst as [(_ & E & _)|(_ & _ & E & _)]; [rewrite E in Ef; discriminate|]. symmetry in E. apply app_eq_nil in E. destruct E; discriminate.
    + apply Ha. left. reflexivity.
    + destruct Hst as (k & _ & _ & _ & [[E _]|(o & _ & _ & E & _)]); rewrite E in Ef; discriminate.
  - destruct (run_split alpha _ st1 HF Hb) as (q0 & Eq & Hr); [congruence|]. rewrite Em in Eq.
    unfold fillp in Ef. rewrite Em in Ef. destruct (selector_context _ _ _); [|discriminate].
    assert (Hse : forall v, selement_of alpha v = Some (Media m) -> exists w', v = 64 :: w' /\ w' <> []).
    { intros v Hv. destruct v as [|d v]; cbn in Hv; [discriminate|].
      destruct (d =? 46); [destruct v; discriminate|]. destruct (d =? 35); [destruct v; discriminate|].
      destruct (N.eqb_spec d 64); [subst; destruct v; [discriminate|]; eexists; split; [reflexivity|discriminate]|].
      destruct (d =? 58); [destruct v; discriminate|]. destruct (is_alphabetic alpha d); discriminate. }
    destruct (some_and (is_the_char Colon) (hd_error (mv st1))).
    + destruct (mcol st1); [|discriminate]. destruct (selement_of alpha (58 :: c :: w)) as [e|] eqn:Ee; [|discriminate].
      injection Ef as -> _. destruct (Hse _ Ee) as (w' & E & _). discriminate.
    + destruct (selement_of alpha (c :: w)) as [e|] eqn:Ee; [|discriminate]. injection Ef as -> _.
      destruct (Hse _ Ee) as (w' & E & Hw). injection E as -> ->. exists q0, w'. auto.
Qed.


Lemma post_punct_ok : forall s pre gap post, fst (lex s) = pre ++ gap ++ post -> Forall punct_ok post.
Proof.
  intros s pre gap post Hl. pose proof (lex_punct_ok s) as X. rewrite Hl in X. apply Forall_app in X. destruct X as [_ X].
  apply Forall_app in X. tauto.
Qed.

Theorem gap_before_punct : forall s o q a gap c post,
  css_minify alpha s = Ok o -> regular s -> gap_between s (q ++ [a]) gap (PPunct c :: post) ->
  calc_called (fst (lex s)) -> ~ in_calc (q ++ [a]) ->
  Forall (fun p => p = PBlank) gap -> ~ separator a -> (forall b, a <> PLic b) -> ~ at_word (q ++ [a]) ->
  (a = PPunct 0x5D -> c = 0x7B) ->
  In c (S_ "{};,>)]+/") \/ In c (S_ "|~$^") /\ no_equal_next post ->
  no_blank o (q ++ [a]) (PPunct c :: post).
Proof.
  intros s o q a gap c post H Hreg Hgap Hcc Hnc Hbl Ha Hlic Hat Hbr Hin.
  assert (Hc61 : c <> 0x3D) by (intros ->; cbn in Hin; intuition discriminate).
  destruct (gap_shape s o q a gap (PPunct c :: post) H Hreg Hgap Ha) as
    (st0 & st1 & t & L & G & p1 & R & pa & B0 & Hst & B1 & HF & Ef & Ht & Hbt & HG & _ & HGb & El & Ei & Ea & HR).
  { intros [E|[d E]]; discriminate. }
  { intros b post' E ->. congruence. }
  destruct Hgap as (Hl & _ & _). pose proof (post_punct_ok s _ _ _ Hl) as Hpp.
  assert (Hc0 : fst (cs (t :: L)) = false).
  { eapply outside_cs; eauto. rewrite <- Hl. exact Hcc. }
  rewrite Hc0 in El. destruct HR as (n & rest & -> & Hn & Hbn & Hlone).
  assert (Hkn : exists k, n = TChar k /\ rchar_of c = Some k).
  { destruct Hin as [Hin|[Hin Hne]].
    - destruct Hn as (k & Hk & Hn). exists k. split; [|exact Hk].
      cbn in Hin. repeat (destruct Hin as [<-|Hin]); [..|contradiction]; cbn in Hk; injection Hk as <-;
        (destruct Hn as [->|[[E _]|(o' & E & _)]]; [reflexivity|discriminate|discriminate]).
    - assert (Hk : exists k, rchar_of c = Some k /\ k <> Colon).
      { cbn in Hin. repeat (destruct Hin as [<-|Hin]); [..|contradiction]; (eexists; split; [reflexivity|discriminate]). }
      destruct Hk as (k & Hk & Hcol). exists k. split; [|exact Hk]. eapply Hlone; eauto. }
  destruct Hkn as (k & -> & Hk).
  assert (Hmed : is_a_media t = false).
  { destruct (is_a_media t) eqn:E; [|reflexivity]. exfalso. destruct t as [| | | |e| | |]; try discriminate. destruct e as [| | | |m]; try discriminate.
    apply Hat. eapply media_at_word; eauto. }
  assert (Hlc : is_a_license t = false).
  { destruct t as [|b| | | | | |]; try reflexivity. exfalso. destruct a as [d| | |x|bd|bd|d]; cbn [last_exact piece_token] in Ht; try contradiction; try discriminate.
    - destruct Ht as [[? E]|[? E]]; discriminate.
    - eapply Hlic. reflexivity.
    - destruct Ht as (? & _ & [E|[_ [? E]]]); discriminate. }
  assert (Hret : retain_blank t (Some (TChar k)) false = false).
  { assert (Hkk : k <> OpenParenthese /\ k <> Star /\ k <> EqualSign /\ k <> OpenBracket).
    { cbn in Hin. decompose [or and] Hin; try contradiction; subst c; cbn in Hk; injection Hk as <-; repeat split; discriminate. }
    assert (Hcb : is_the_char CloseBracket t = true -> k = OpenCurlyBrace).
    { intro E. destruct t as [| |k'| | | | |]; try discriminate. cbn in E. apply rchar_eqb_eq in E. subst k'.
      assert (a = PPunct 0x5D).
      { destruct a as [d| | |x|bd|bd|d]; cbn [last_exact piece_token] in Ht; try contradiction; try discriminate.
        - destruct Ht as [[? E]|[? E]]; discriminate.
        - destruct Ht as (k' & Hk' & [E|[_ [? E]]]); [|discriminate]. injection E as <-.
          assert (Hpd : punct_ok (PPunct d)) by (apply Forall_app in HF; destruct HF as [_ X]; inversion X; assumption).
          cbn in Hpd. destruct (punct_char_rchar d Hpd) as (k2 & Hk2 & Hd & _). assert (k2 = CloseBracket) by congruence. subst k2 d. reflexivity. }
      specialize (Hbr H0). subst c. cbn in Hk. congruence. }
    destruct Hkk as (K1 & K2 & K3 & K4).
    unfold retain_blank. destruct (is_the_char CloseBracket t) eqn:E1; [rewrite (Hcb eq_refl); reflexivity|].
    assert (E2 : some_and (fun x => is_other x || is_the_char OpenParenthese x) (Some (TChar k)) = false) by (cbn; destruct k; try reflexivity; congruence).
    assert (E3 : some_and (is_the_char Star) (Some (TChar k)) = false) by (cbn; destruct k; try reflexivity; congruence).
    assert (E4 : some_and (is_the_char EqualSign) (Some (TChar k)) = false) by (cbn; destruct k; try reflexivity; congruence).
    assert (E5 : some_and (fun x => is_char x && negb (is_the_char OpenBracket x)) (Some (TChar k)) = true) by (cbn; destruct k; try reflexivity; congruence).
    rewrite E2, E3, E4, E5. cbn [some_and is_a_selector_element]. rewrite !andb_false_r, !orb_true_r. reflexivity. }
  assert (Ecz : exists r, cz (Some t) false pa (G ++ TChar k :: rest) = TChar k :: r).
  { rewrite (HGb Hbl). destruct (push_blank (t :: L)); cbn [app].
    - rewrite cz_gap_none by (reflexivity || assumption). cbn [cz]. rewrite Hbn. destruct (calc_step _ _ _). eauto.
    - cbn [cz]. rewrite Hbn. destruct (calc_step _ _ _). eauto. }
  destruct Ecz as [r Er]. rewrite Er in El.
  eapply shape_no_blank; [exact El|exact Ei|exact Ea|exact Hbt|exact Hmed|exact Hlc|].
  right. exists (TChar k), r. split; [reflexivity|]. split; [exact Hbn|]. right. inversion Hpp; subst.
  exists (PPunct c), []. split; [apply char_tp; assumption|apply punct_wordless].
Qed.

(** ** At the start *)

Theorem gap_start : forall s o gap post,
  css_minify alpha s = Ok o -> regular s -> gap_between s [] gap post ->
  Forall (fun p => p = PBlank) gap -> match post with [] => True | b :: _ => ~ separator b end ->
  forall g q, fst (lex o) = g :: q -> ~ separator g.
Proof.
  intros s o gap post H Hreg Hgap Hbl Hb.
  destruct (gap_run alpha s o _ _ _ H Hreg Hgap) as (st1 & st2 & v & h & (F1 & F2 & F3 & F4 & F5) & Hv & Ho).
  destruct Hgap as (Hl & Hgn & HG). rewrite (output_pieces s o v Hreg Hv Ho).
  cbn in F1. injection F1 as <-.
  destruct (gap_steps alpha gap pinit st2 HG Hgn F2) as (G & A1 & _ & _ & A4 & A5 & A6 & _).
  assert (Hmv : mv st2 = []).
  { clear - Hbl F2 Hgn. assert (K : forall gap st st', Forall (fun p => p = PBlank) gap -> fillp alpha st = [] -> mseg st = [] -> pmulti alpha st gap = Ok st' ->
      fillp alpha st' = [] /\ mseg st' = []).
    { induction gap0 as [|p g IH]; intros st st' HF Hf Hm H; [cbn in H; injection H as <-; auto|]. inversion HF; subst.
      cbn [pmulti] in H. destruct (pstep alpha st PBlank) as [st1| | |] eqn:E; cbn [obind] in H; try discriminate.
      apply pstep_cases in E; [|exact I]. destruct E as ([E _] & Em & _). rewrite Hf in E. cbn in E.
      eapply IH; [exact H3| |exact Em|exact H]. unfold fillp. rewrite Em. exact E. }
    destruct (K gap pinit st2 Hbl eq_refl eq_refl F2) as [E1 E2]. unfold fillp in E1. rewrite E2 in E1. exact E1. }
  destruct post as [|b post].
  - rewrite prun_nil in F3. unfold fillp in F3. rewrite A4, Hmv in F3. injection F3 as <-. discriminate.
  - cbn [app] in F4, F5. destruct (hrun_mid gap (b :: post) h F5) as (h1 & Hh1 & Hnbs).
    { destruct (gap_last [] gap Hgn HG) as (x & y & E & Hy). exists x, y. auto. }
    assert (HFb : Forall punct_ok (b :: post)) by (apply Forall_app in F4; tauto).
    destruct (first_any st2 b post v h1 h A4 A5 A6 Hb Hh1 Hnbs HFb) as (rest & n & Ev & Hn); [rewrite Hmv; reflexivity|exact F3|].
    rewrite Hmv in Ev. cbn [rev app] in Ev. subst v. inversion HFb; subst.
    pose proof (first_class_solid b n Hb ltac:(assumption) Hn) as Hbn.
    intros g q. cbn [cz]. rewrite Hbn. destruct (calc_step n false 0) as [c' p']. rewrite tps_cons.
    destruct (solid_first n Hbn) as (x & y & -> & Hx). cbn [app]. intro E. injection E as <- _. exact Hx.
Qed.

(** ** At most one blank *)

Theorem gap_one_blank : forall s o q a gap b post,
  css_minify alpha s = Ok o -> regular s -> gap_between s (q ++ [a]) gap (b :: post) ->
  calc_called (fst (lex s)) -> ~ in_calc (q ++ [a]) -> ~ separator a -> ~ separator b -> b <> PPunct 0x3D ->
  ~ (at_word (q ++ [a]) /\ b = PPunct 0x2A) ->
  one_blank o (q ++ [a]) (b :: post).
Proof.
  intros s o q a gap b post H Hreg Hgap Hcc Hnc Ha Hb Heq Hat.
  destruct (gap_shape s o q a gap (b :: post) H Hreg Hgap Ha) as
    (st0 & st1 & t & L & G & p1 & R & pa & B0 & Hst & B1 & HF & Ef & Ht & Hbt & HG & HGn & _ & El & Ei & Ea & HR).
  { exact Hb. }
  { intros b0 post' E ->. congruence. }
  destruct Hgap as (Hl & Hgn & HGs). pose proof (post_punct_ok s _ _ _ Hl) as Hpp. inversion Hpp as [|? ? Hpb _]; subst.
  assert (Hc0 : fst (cs (t :: L)) = false).
  { eapply outside_cs; eauto. rewrite <- Hl. exact Hcc. }
  rewrite Hc0 in El. destruct HR as (n & rest & -> & Hn & Hbn & _).
  destruct (cz_one G t false pa n rest HG Hbn) as (g & Ecz & Hg & Hg0). rewrite Ecz in El.
  set (tl := cz (Some n) (fst (calc_step n false pa)) (snd (calc_step n false pa)) rest) in El.
  destruct (solid_first n Hbn) as (x & y & Ex & Hx).
  assert (Hfirst : forall x0 q0, tps (n :: tl) = x0 :: q0 -> ~ separator x0).
  { intros x0 q0 E. rewrite tps_cons, Ex in E. injection E as <- _. exact Hx. }
  (* a token that brings its own blank *)
  assert (Hown : forall w, tp t = w ++ [PBlank] -> w <> [] -> (forall z q0, w = q0 ++ [z] -> ~ separator z) -> g = [] -> one_blank o (q ++ [a]) (b :: post)).
  { intros w Et Hw Hz ->. cbn [app] in El. exists (p1 ++ w), [PBlank], (tps (n :: tl)).
    split; [rewrite El, Et, <- !app_assoc; reflexivity|].
    assert (E1 : items_from [] (p1 ++ w) = items_from [] (q ++ [a])).
    { rewrite <- Ei, Et, app_assoc, items_from_app_sep by (left; reflexivity). cbn. rewrite app_nil_r. reflexivity. }
    split; [exact E1|]. split.
    { rewrite El, Et, app_assoc, <- app_assoc in Ea. cbn [app] in Ea. rewrite items_from_app_sep, E1 in Ea by (left; reflexivity).
      apply app_inv_head in Ea. exact Ea. }
    split; [right; reflexivity|]. split; [|exact Hfirst].
    intros q0 z E. destruct (@exists_last _ w Hw) as (w' & z' & E'). rewrite E', app_assoc in E. apply app_inj_tail in E. destruct E as [_ <-].
    eapply Hz. exact E'. }
  destruct (is_a_license t) eqn:Elic.
  { destruct t as [|bd| | | | | |]; try discriminate. apply (Hown [PLic bd]).
    - reflexivity.
    - discriminate.
    - intros z q0 E. destruct q0 as [|? [|? ?]]; try discriminate. injection E as <-. intros [E|[d E]]; discriminate.
    - apply Hg0. intros n' _. reflexivity. }
  destruct (is_a_media t) eqn:Emed.
  { destruct t as [| | | |e| | |]; try discriminate. destruct e as [| | | |m]; try discriminate.
    assert (Haw : at_word (q ++ [a])) by (eapply media_at_word; eauto).
    apply (Hown (PChar 0x40 :: wordp m)).
    - reflexivity.
    - discriminate.
    - intros z q0 E. destruct m as [|d m].
      + destruct q0 as [|? [|? [|? ?]]]; try discriminate. injection E as _ <-. intros [E|[d E]]; discriminate.
      + destruct (@exists_last _ (d :: m)) as (m' & d' & Em); [discriminate|]. unfold wordp in E. rewrite Em, map_app, app_comm_cons in E.
        apply app_inj_tail in E. destruct E as [_ <-]. intros [E|[d0 E]]; discriminate.
    - apply Hg0. intros n' Hn'.
      assert (Est : some_and (is_the_char Star) n' = false).
      { destruct Hn' as [->|(g' & -> & Hg')].
        - cbn [some_and]. apply (first_not b n 0x2A Star Hn); try reflexivity; try assumption; try discriminate. intro E. apply Hat. auto.
        - destruct g' as [| |k| | | | |]; try discriminate; try reflexivity. destruct k; try discriminate; reflexivity. }
      unfold retain_blank. cbn [is_the_char is_other is_a_selector_element is_char is_a_media andb orb negb]. rewrite Est. reflexivity. }
  (* any other *)
  assert (Hlast : forall q0 x0, p1 ++ tp t = q0 ++ [x0] -> ~ separator x0).
  { intros q0 x0 E. destruct (solid_last t Hbt Emed Elic) as (y1 & x1 & E1 & Hx1). rewrite E1, app_assoc in E. apply app_inj_tail in E.
    destruct E as [_ <-]. exact Hx1. }
  exists (p1 ++ tp t), (tps g), (tps (n :: tl)). split; [rewrite El, tps_app; reflexivity|]. split; [exact Ei|].
  assert (Hgt : tps g = [] /\ g = [] \/ tps g = [PBlank]).
  { destruct Hg as [->|(k & -> & Hk)]; [left; auto|right]. unfold tps. cbn [map concat tp]. rewrite Hk. reflexivity. }
  split; [|split; [tauto|split; [exact Hlast|exact Hfirst]]].
  destruct Hgt as [[Eg ->]|Eg].
  - (* the blank is dropped: one of the two sides is not a word *)
    cbn [app] in El. rewrite El, items_boundary, Ei in Ea; [apply app_inv_head in Ea; exact Ea|].
    assert (D : word_piece b \/ ~ word_piece b).
    { destruct b; try (right; intros [E|[d E]]; discriminate); left; [right; eauto|left; reflexivity]. }
    destruct D as [D|D].
    + right. left.
      assert (Hdrop : ~ wordtok t).
      { intro Hw. assert (Hac : exists d, a = PChar d).
        { clear - Ht Hw. destruct a as [d| | |x2|bd|bd|d]; cbn [last_exact piece_token] in Ht; try contradiction; [eauto|..];
            [..|destruct Ht as (? & _ & [->|[_ [? ->]]])]; try subst t; destruct Hw as [[? E]|[? E]]; discriminate E. }
        destruct Hac as [d ->]. destruct D as [->|[c ->]].
        - destruct Hreg as (_ & Hreg & _). apply Hreg. exists q, (PChar d), gap, post.
          rewrite Hl, <- app_assoc. split; [reflexivity|]. split; [right; eauto|]. auto.
        - assert (Hpu : push_blank (t :: L) = true) by (destruct Hw as [[? ->]|[? ->]]; reflexivity).
          destruct (cz_gap G t false pa n rest HG (HGn Hpu)) as (sp & r & Er & Esp).
          { destruct Hn as [Hn _]. clear - Hn Hw Emed. destruct Hw as [[? ->]|[? ->]]; destruct Hn as [[? ->]|[? ->]]; try reflexivity.
            - cbn in Emed. unfold retain_blank. cbn. rewrite Emed. reflexivity.
            - cbn in Emed. unfold retain_blank. cbn. rewrite Emed. reflexivity. }
          cbn [app] in Ecz. rewrite Ecz in Er. injection Er as <- _. rewrite Ex in Esp. injection Esp as -> _. apply Hx. left. reflexivity. }
      destruct (solid_last t Hbt Emed Elic) as (y1 & x1 & E1 & _). exists (p1 ++ y1), x1. rewrite E1, app_assoc. split; [reflexivity|].
      (* t is not a word *)
      destruct t as [bd|bd|k|w|e|w|op|op]; try discriminate.
      * destruct (tp (TChar k)) as [|z [|? ?]] eqn:Ez; [destruct y1; discriminate E1| |].
        -- destruct y1 as [|? [|? ?]]; try discriminate. injection E1 as <-.
           cbn [tp] in Ez. destruct (rchar_useless k); [injection Ez as <-; intros [E|[d E]]; discriminate|].
           destruct a as [d| | |x2|bd|bd|d]; cbn [last_exact piece_token] in Ht; try contradiction; try discriminate.
           { (* an escape cannot be followed by a gap *)
             exfalso. destruct (lex_accept s Hreg) as [hh Hh]. rewrite Hl, hrun_app in Hh.
             destruct (hrun HN (q ++ [PBs])) as [h1|] eqn:E1; [|discriminate]. rewrite hrun_app in E1.
             destruct (hrun HN q) as [h2|]; [|discriminate]. cbn in E1.
             destruct gap as [|s0 gap]; [congruence|]. inversion HGs as [|? ? Hs0 _]; subst. cbn [app hrun] in Hh.
             assert (h1 = HBs) by (destruct h2; cbn in E1; congruence). subst h1. destruct Hs0 as [->|[bd ->]]; discriminate. }
           assert (Hpd : punct_ok (PPunct d)) by (apply Forall_app in HF; destruct HF as [_ X]; inversion X; assumption).
           destruct Ht as (k' & Hk' & [E|[_ [? E]]]); [|discriminate]. injection E as ->.
           pose proof (char_tp d k' Hpd Hk') as Et. cbn [tp] in Et. destruct (rchar_useless k'); [congruence|]. rewrite Ez in Et. injection Et as ->. apply punct_wordless.
        -- cbn [tp] in Ez. destruct (rchar_useless k); [discriminate|]. destruct k; discriminate.
      * exfalso. apply Hdrop. left. eauto.
      * exfalso. apply Hdrop. right. eauto.
      * cbn [tp] in E1. destruct y1 as [|? [|? ?]]; try discriminate. injection E1 as <-. intros [E|[d E]]; discriminate.
      * cbn [tp] in E1. destruct y1 as [|? [|? [|? ?]]]; try discriminate. injection E1 as _ <-. apply punct_wordless.
      * cbn [tp] in E1. destruct y1 as [|? [|? ?]]; try discriminate. injection E1 as <-. apply punct_wordless.
    + right. right. right. destruct (first_class_punct b n Hpb Hb D Hn) as (x1 & y1 & E1 & Hx1 & _).
      exists x1, (y1 ++ tps tl). rewrite tps_cons, E1. split; [reflexivity|exact Hx1].
  - rewrite El, tps_app, Eg in Ea. cbn [app] in Ea. rewrite items_from_app_sep, Ei in Ea by (left; reflexivity). apply app_inv_head in Ea. exact Ea.
Qed.

End Alpha.
