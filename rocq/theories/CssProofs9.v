(** The blanks inside calc. *)
From Coq Require Import String Arith List NArith ZArith Bool Lia ZifyBool ZifyN.
From Verif Require Import Base CssModel CssSpec CssGapSpec CssProofs1 CssProofs2 CssProofs3 CssProofs4 CssProofs5 CssProofs6 CssProofs7 CssProofs8.
Import ListNotations.
Open Scope N_scope.

Section Alpha.
Variable alpha : N -> bool.

Definition cs (l : list token) : bool * Z := calcs (false, 0%Z) (rev l).

Lemma cs_cons : forall t l, cs (t :: l) = calc_step t (fst (cs l)) (snd (cs l)).
Proof. intros t l. unfold cs. cbn [rev]. rewrite calcs_app. reflexivity. Qed.

Lemma cs_same : forall t l, is_calc t = false -> is_the_char OpenParenthese t = false -> is_the_char CloseParenthese t = false ->
  cs (t :: l) = cs l.
Proof.
  intros t l H1 H2 H3. rewrite cs_cons. unfold calc_step. rewrite H1, H2, H3. destruct (cs l) as [[|] p]; reflexivity.
Qed.

Lemma fillp_cs : forall st, cs (fillp alpha st) = cs (mv st) \/
  (mseg st = S_ "calc" /\ cs (fillp alpha st) = (true, snd (cs (mv st)))).
Proof.
  intro st. destruct (fillp_cases alpha st) as [[_ ->]|(Hs & n & Hn & [E|(L & s & E1 & -> & E2)])]; [left; reflexivity| |].
  - destruct (is_calc n) eqn:Ec.
    + right. rewrite E, cs_cons. unfold calc_step. rewrite Ec. split; [|reflexivity].
      destruct n as [| | |w| | | |]; try discriminate. cbn in Ec. apply str_eqb_eq in Ec. subst w.
      unfold fillp in E. destruct (mseg st) as [|c w] eqn:Em; [congruence|]. rewrite <- Em in *.
      destruct (selector_context _ _ _); [|injection E as E; exact E].
      destruct (some_and _ _).
      * destruct (if mcol st then _ else None); [discriminate|injection E as E; exact E].
      * destruct (selement_of alpha (mseg st)); [discriminate|injection E as E; exact E].
    + left. rewrite E. apply cs_same; [exact Ec| |]; destruct Hn as [[? ->]|[? ->]]; reflexivity.
  - left. rewrite E2, E1. rewrite !cs_same by reflexivity. reflexivity.
Qed.

Definition paren_step (p : piece) (x : bool * Z) : bool * Z :=
  match p with
  | PPunct c =>
      if fst x then
        if c =? 0x28 then (true, (snd x + 1)%Z)
        else if c =? 0x29 then (negb (Z.eqb (snd x - 1) 0), (snd x - 1)%Z) else x
      else x
  | _ => x
  end.

Lemma pstep_cs : forall st p st', punct_ok p -> pstep alpha st p = Ok st' ->
  match p with
  | PChar _ => cs (mv st') = cs (mv st)
  | _ => cs (mv st') = paren_step p (cs (fillp alpha st))
  end.
Proof.
  intros st p st' Hp H. apply pstep_cases in H; [|exact Hp]. destruct H as [H _].
  destruct p as [c| | |t|b|b|c]; cbn [paren_step].
  - destruct H as [(_ & -> & _)|(_ & -> & _)]; [|reflexivity]. apply cs_same; try reflexivity.
    cbn. destruct (N.eqb c 99); reflexivity.
  - destruct H as [-> _]. apply cs_same; reflexivity.
  - destruct H as [-> _]. destruct (push_blank _); [|reflexivity]. apply cs_same; reflexivity.
  - destruct H as [-> _]. apply cs_same; reflexivity.
  - destruct H as [-> _]. apply cs_same; reflexivity.
  - destruct H as [-> _]. apply cs_same; reflexivity.
  - destruct H as (k & _ & -> & _ & [[-> _]|(o & -> & Ho & -> & _)]).
    + rewrite cs_cons. unfold calc_step. destruct (cs (fillp alpha st)) as [[|] m]; destruct k; reflexivity.
    + destruct (fillp alpha st) as [|t l]; [discriminate|]. cbn [tl].
      destruct t as [| |k| | | | |]; try discriminate. rewrite cs_same by reflexivity.
      assert (E : cs (TChar k :: l) = cs l) by (apply cs_same; destruct k; try discriminate; reflexivity).
      rewrite E. destruct (cs l) as [[|] m]; reflexivity.
Qed.

Lemma run_split : forall done st, Forall punct_ok done -> before alpha done st -> mseg st <> [] ->
  exists q, done = q ++ map PChar (mseg st) /\ run_starts q.
Proof.
  induction done as [|p done IH] using rev_ind; intros st HF H Hm.
  - cbn in H. injection H as <-. cbn in Hm. congruence.
  - apply before_snoc in H. destruct H as (st0 & Hb & Hs). apply Forall_app in HF. destruct HF as [HF1 HF2]. inversion HF2; subst.
    apply pstep_cases in Hs; [|assumption]. destruct Hs as (Hs & Hm0 & _).
    destruct p as [c| | |t|b|b|c]; try congruence.
    destruct Hs as [(_ & _ & Hs & _)|(He & _ & Hs & _)]; [congruence|].
    destruct (mseg st0) as [|d w] eqn:E0.
    + exists done. rewrite Hs. split; [reflexivity|]. split.
      * intros q ->. assert (mesc st0 = true) by (apply (esc_last alpha _ st0 HF1 Hb); eauto). congruence.
      * intros q d ->. apply before_snoc in Hb. destruct Hb as (st' & Hb' & Hs').
        apply pstep_cases in Hs'; [|exact I]. destruct Hs' as (Hs' & _).
        destruct Hs' as [(He' & _)|(_ & _ & E & _)].
        -- apply Forall_app in HF1. eapply esc_last; [|exact Hb'|exact He']. tauto.
        -- rewrite E0 in E. symmetry in E. apply app_eq_nil in E. destruct E; discriminate.
    + destruct (IH st0 HF1 Hb) as (q & E & Hr); [congruence|]. exists q. split; [|exact Hr].
      rewrite Hs, map_app, app_assoc, <- E0, <- E. reflexivity.
Qed.

(** A calc has been read and its parenthesis has not. *)
Definition pend (done : list piece) : Prop :=
  exists q g, done = q ++ calc_name ++ g /\ run_starts q /\ Forall separator g /\ g <> [].

Definition CI (done : list piece) (st : pst) : Prop :=
  (fst (cs (mv st)) = false -> snd (cs (mv st)) = 0%Z) /\
  (fst (cs (mv st)) = true -> (1 <= snd (cs (mv st)))%Z \/ (0 <= snd (cs (mv st)))%Z /\ pend done).

Lemma sep_paren : forall g p rest g' r', Forall separator g -> Forall separator g' ->
  g ++ p :: rest = g' ++ PPunct 0x28 :: r' -> separator p \/ p = PPunct 0x28.
Proof.
  induction g as [|x g IH]; intros p rest g' r' Hg Hg' E.
  - destruct g' as [|y g']; cbn in E; injection E; intros; subst; [right; reflexivity|left]. inversion Hg'; assumption.
  - destruct g' as [|y g']; cbn in E; injection E; intros E1 E2; subst.
    + inversion Hg; subst. destruct H1 as [H1|[b H1]]; discriminate.
    + inversion Hg; inversion Hg'; subst. eapply IH; eauto.
Qed.

Lemma pend_next : forall done p rest, pend done -> calc_called (done ++ p :: rest) -> separator p \/ p = PPunct 0x28.
Proof.
  intros done p rest (q & g & -> & Hr & Hg & Hn) Hc.
  destruct (Hc q (g ++ p :: rest)) as (g' & r' & E & Hg').
  - rewrite <- !app_assoc. reflexivity.
  - exact Hr.
  - destruct g as [|x g]; [congruence|]. inversion Hg; subst. destruct H1 as [->|[b ->]]; exact I.
  - exact (sep_paren g p rest g' r' Hg Hg' E).
Qed.

Lemma pend_snoc : forall done p, pend done -> separator p -> pend (done ++ [p]).
Proof.
  intros done p (q & g & -> & Hr & Hg & Hn) Hs. exists q, (g ++ [p]). rewrite <- !app_assoc.
  repeat split; try apply Hr; auto. { apply Forall_app. auto. } intro E. apply app_eq_nil in E. destruct E; discriminate.
Qed.

Lemma CI_step : forall done st p rest st', Forall punct_ok done -> punct_ok p -> before alpha done st -> CI done st ->
  calc_called (done ++ p :: rest) -> pstep alpha st p = Ok st' -> CI (done ++ [p]) st'.
Proof.
  intros done st p rest st' HF Hp Hb (C1 & C2) Hc H. apply pstep_cs in H; [|exact Hp].
  assert (Hchar : cs (mv st') = cs (mv st) -> CI (done ++ [p]) st').
  { intro E. unfold CI. rewrite E. split; [exact C1|]. intro F. destruct (C2 F) as [G|[G1 G2]]; [left; exact G|].
    destruct (pend_next _ _ _ G2 Hc) as [Hs|Hs]; [right; split; [exact G1|]; apply pend_snoc; assumption|].
    subst p. cbn [paren_step] in H. destruct (fillp_cs st) as [E'|[_ E']]; rewrite E' in H; cbn [fst snd] in H.
    - rewrite F in H. cbn in H. rewrite H in E. destruct (cs (mv st)) as [x y]. cbn in E. injection E. lia.
    - cbn in H. rewrite H in E. destruct (cs (mv st)) as [x y]. cbn in E. injection E. lia. }
  assert (Hgen : (forall c, p <> PChar c) -> cs (mv st') = paren_step p (cs (fillp alpha st)) -> CI (done ++ [p]) st').
  { clear H. intros Hnc H. destruct (fillp_cs st) as [E|[Em E]]; rewrite E in H.
    - assert (Hid : paren_step p (cs (mv st)) = cs (mv st) -> CI (done ++ [p]) st') by (intro; apply Hchar; congruence).
      destruct p as [c| | |t|b|b|c]; try (apply Hid; reflexivity).
      cbn [paren_step] in H, Hid. destruct (fst (cs (mv st))) eqn:F; [|apply Hid; reflexivity].
      destruct (C2 eq_refl) as [G|[G1 G2]].
      + unfold CI. rewrite H. destruct (c =? 40); cbn [fst snd]; [split; [discriminate|intros _; left; lia]|].
        destruct (c =? 41); cbn [fst snd].
        * split; intro; [lia|left; lia].
        * split; [congruence|]. auto.
      + destruct (pend_next _ _ _ G2 Hc) as [[Hs|[b Hs]]|Hs]; try discriminate. injection Hs as ->.
        unfold CI. rewrite H. cbn. split; [discriminate|]. left. lia.
    - assert (Hm : mseg st <> []) by (rewrite Em; discriminate).
      destruct (run_split done st HF Hb Hm) as (q & Eq & Hr). rewrite Em in Eq. change (map PChar (S_ "calc")) with calc_name in Eq.
      assert (M0 : (0 <= snd (cs (mv st)))%Z).
      { destruct (fst (cs (mv st))) eqn:F; [|rewrite C1; [lia|reflexivity]]. destruct (C2 eq_refl) as [G|[G _]]; lia. }
      destruct (Hc q (p :: rest)) as (g' & r' & E' & Hg').
      { rewrite Eq, <- app_assoc. reflexivity. } { exact Hr. } { destruct p; try exact I. eapply Hnc. reflexivity. }
      destruct (sep_paren [] p rest g' r' ltac:(constructor) Hg' E') as [Hs|Hs].
      + assert (E2 : cs (mv st') = (true, snd (cs (mv st)))) by (rewrite H; destruct Hs as [->|[b ->]]; reflexivity).
        unfold CI. rewrite E2. cbn. split; [discriminate|]. intros _. right. split; [exact M0|].
        exists q, [p]. rewrite Eq, <- app_assoc. repeat split; try apply Hr; auto. discriminate.
      + subst p. cbn in H. unfold CI. rewrite H. cbn. split; [discriminate|]. intros _. left. lia. }
  destruct p; try (apply Hgen; [discriminate|exact H]). apply Hchar. exact H.
Qed.

Lemma CI_before : forall done rest st, Forall punct_ok done -> calc_called (done ++ rest) -> before alpha done st -> CI done st.
Proof.
  induction done as [|p done IH] using rev_ind; intros rest st HF Hc H.
  - cbn in H. injection H as <-. split; intro E; [reflexivity|discriminate].
  - apply before_snoc in H. destruct H as (st0 & Hb & Hs). apply Forall_app in HF. destruct HF as [HF1 HF2]. inversion HF2; subst.
    rewrite <- app_assoc in Hc. cbn [app] in Hc.
    eapply CI_step; [exact HF1|assumption|exact Hb| |exact Hc|exact Hs]. eapply IH; [exact HF1|exact Hc|exact Hb].
Qed.

Lemma fillp_true : forall st, fst (cs (mv st)) = true -> cs (fillp alpha st) = (true, snd (cs (mv st))).
Proof.
  intros st H. destruct (fillp_cs st) as [->|[_ ->]]; [|reflexivity]. destruct (cs (mv st)) as [x y]. cbn in *. congruence.
Qed.

Lemma inner_run : forall inner st st' m, Forall punct_ok inner -> cs (mv st) = (true, m) -> (1 <= m)%Z ->
  (forall a b, inner = a ++ b -> (Z.of_nat (closed a) <= Z.of_nat (opened a) + (m - 1))%Z) ->
  pmulti alpha st inner = Ok st' -> fst (cs (mv st')) = true.
Proof.
  induction inner as [|p inner IH]; intros st st' m HF Hc Hm Ho H; cbn [pmulti] in H.
  - injection H as <-. rewrite Hc. reflexivity.
  - inversion HF; subst. destruct (pstep alpha st p) as [st1| | |] eqn:E; cbn [obind] in H; try discriminate.
    apply pstep_cs in E; [|assumption].
    assert (Hf : cs (fillp alpha st) = (true, m)) by (rewrite fillp_true; rewrite Hc; reflexivity). rewrite Hf in E.
    assert (Hsame : cs (mv st1) = (true, m) -> opened [p] = 0%nat -> closed [p] = 0%nat -> fst (cs (mv st')) = true).
    { intros E1 O1 C1. eapply (IH st1 st' m); try eassumption. intros a b Eab. specialize (Ho (p :: a) b).
      unfold opened, closed in *. cbn [filter length] in *.
      destruct (match p with PPunct c => c =? 40 | _ => false end); [discriminate|].
      destruct (match p with PPunct c => c =? 41 | _ => false end); [discriminate|]. apply Ho. rewrite Eab. reflexivity. }
    destruct p as [c| | |t|b|b|c]; try (apply Hsame; [first [exact E|rewrite E; exact Hc]|reflexivity|reflexivity]).
    cbn [paren_step fst snd] in E. destruct (N.eqb_spec c 40) as [->|N1].
    { eapply (IH st1 st' (m + 1)%Z); try eassumption; [lia|]. intros a b Eab. specialize (Ho (PPunct 40 :: a) b).
      unfold opened, closed in *. cbn [filter length N.eqb Pos.eqb] in *. rewrite Eab in Ho. specialize (Ho eq_refl). lia. }
    destruct (N.eqb_spec c 41) as [->|N2].
    { pose proof (Ho [PPunct 41] inner eq_refl) as Ho1. change (1 <= 0 + (m - 1))%Z in Ho1.
      eapply (IH st1 st' (m - 1)%Z); [assumption| |lia| |eassumption].
      - rewrite E. f_equal. lia.
      - intros a b Eab. specialize (Ho (PPunct 41 :: a) b).
        unfold opened, closed in *. cbn [filter length N.eqb Pos.eqb] in *. rewrite Eab in Ho. specialize (Ho eq_refl). lia. }
    apply Hsame; [exact E| |]; unfold opened, closed; cbn [filter length].
    + destruct (N.eqb_spec c 40); [congruence|reflexivity].
    + destruct (N.eqb_spec c 41); [congruence|reflexivity].
Qed.

Lemma sep_run : forall g st st', Forall separator g -> pmulti alpha st g = Ok st' -> fst (cs (fillp alpha st)) = true ->
  cs (fillp alpha st') = cs (fillp alpha st).
Proof.
  induction g as [|p g IH]; intros st st' HF H Hc; cbn [pmulti] in H; [injection H as <-; reflexivity|].
  inversion HF; subst. destruct (pstep alpha st p) as [st1| | |] eqn:E; cbn [obind] in H; try discriminate.
  assert (E1 : cs (fillp alpha st1) = cs (fillp alpha st)).
  { destruct (gap_step alpha st p st1 H2 E) as (_ & _ & _ & _ & _ & Em & _).
    assert (Ef : fillp alpha st1 = mv st1) by (unfold fillp; rewrite Em; reflexivity). rewrite Ef.
    apply pstep_cs in E; [|destruct H2 as [->|[b ->]]; exact I]. destruct H2 as [->|[b ->]]; exact E. }
  rewrite (IH st1 st' H3 H); [exact E1|congruence].
Qed.

Lemma inside_calc_state : forall ps rest st, Forall punct_ok ps -> inside_calc ps -> calc_called (ps ++ rest) ->
  before alpha ps st -> fst (cs (fillp alpha st)) = true.
Proof.
  intros ps rest st HF (q & g & inner & -> & Hr & Hd & Hg & Ho) Hc H.
  apply Forall_app in HF. destruct HF as [HFq HF]. apply Forall_app in HF. destruct HF as [HFc HF].
  apply Forall_app in HF. destruct HF as [HFg HF]. inversion HF as [|? ? _ HFi]; subst.
  rewrite app_assoc in H. apply before_app in H. destruct H as (st1 & H1 & H).
  destruct (before_run alpha q (S_ "calc") st1 HFq H1 Hr) as (st0 & Hb & Hm & He & E1).
  assert (Hc0 : CI q st0) by (eapply CI_before; [exact HFq| |exact Hb]; rewrite <- app_assoc in Hc; exact Hc).
  pose proof (declaration_place alpha q st0 HFq Hb Hd) as Hsel.
  assert (Ef : cs (fillp alpha st1) = (true, snd (cs (mv st0)))).
  { rewrite E1. unfold fillp. cbn [mv mseg mcol mblock mmedia mattr]. rewrite Hsel.
    change (cs (TOther (S_ "calc") :: mv st0) = (true, snd (cs (mv st0)))). rewrite cs_cons. reflexivity. }
  assert (M0 : (0 <= snd (cs (mv st0)))%Z).
  { destruct Hc0 as [C1 C2]. destruct (fst (cs (mv st0))) eqn:F; [|rewrite C1; [lia|reflexivity]]. destruct (C2 eq_refl) as [G|[G _]]; lia. }
  rewrite pmulti_app in H. destruct (pmulti alpha st1 g) as [st2| | |] eqn:E2; cbn [obind] in H; try discriminate.
  assert (E3 : cs (fillp alpha st2) = (true, snd (cs (mv st0)))).
  { rewrite (sep_run g st1 st2 Hg E2); [exact Ef|rewrite Ef; reflexivity]. }
  cbn [pmulti] in H. destruct (pstep alpha st2 (PPunct 40)) as [st3| | |] eqn:E4; cbn [obind] in H; try discriminate.
  apply pstep_cs in E4; [|reflexivity]. rewrite E3 in E4. cbn in E4.
  rewrite fillp_true; [reflexivity|].
  eapply (inner_run inner st3 st); [exact HFi|exact E4|lia| |exact H].
  intros a b Eab. specialize (Ho a b Eab). lia.
Qed.

Lemma calc_last : forall st a st1, closes a \/ calc_operator a -> pstep alpha st a = Ok st1 ->
  exists t L, fillp alpha st1 = t :: L /\ push_blank (t :: L) = true /\ blankish t = false /\ is_useless t = false /\
    (is_the_char CloseBracket t = true -> a = PPunct 0x5D).
Proof.
  intros st a st1 [Ha|Ha] H.
  - destruct (last_closing alpha st a st1 Ha H) as (t & L & Ef & Ht & _). exists t, L. split; [exact Ef|].
    destruct (closing_push t L Ht) as [A B]. split; [exact A|]. split; [exact B|].
    split. { unfold blankish in B. apply orb_false_iff in B. tauto. }
    intro E. destruct (last_token alpha st a st1) as (t' & L' & Ef' & Hc); try exact H.
    { destruct Ha as [[c ->]|[[c ->]|[->| ->]]]; exact I || reflexivity. }
    { destruct Ha as [[c ->]|[[c ->]|[->| ->]]]; intros [E'|[b E']]; discriminate. }
    rewrite Ef in Ef'. injection Ef' as <- <-.
    destruct Ha as [[c ->]|[[c ->]|[->| ->]]]; cbn [last_class piece_token] in Hc; try reflexivity; exfalso.
    + destruct Hc as [[? ->]|[? ->]]; discriminate.
    + subst t. discriminate.
    + destruct Hc as (k & Hk & ->); [discriminate|]. vm_compute in Hk. injection Hk as <-. discriminate.
  - destruct (last_token alpha st a st1) as (t & L & Ef & Hc); try exact H.
    { destruct Ha as [->|[->| ->]]; reflexivity. }
    { destruct Ha as [->|[->| ->]]; intros [E'|[b E']]; discriminate. }
    exists t, L. split; [exact Ef|].
    destruct Ha as [->|[->| ->]]; cbn [last_class] in Hc; (destruct Hc as (k & Hk & ->); [discriminate|]);
      vm_compute in Hk; injection Hk as <-; repeat split; discriminate.
Qed.

Theorem gap_calc : forall s o q a gap b post,
  css_minify alpha s = Ok o -> regular s -> gap_between s (q ++ [a]) gap (b :: post) -> ~ separator b ->
  inside_calc (q ++ [a]) -> calc_called (fst (lex s)) ->
  closes a \/ calc_operator a -> (a = PPunct 0x5D -> b <> PPunct 0x7B) ->
  blank_stays o (q ++ [a]) (b :: post).
Proof.
  intros s o q a gap b post H Hreg Hgap Hb Hin Hcc Ha Hab.
  assert (Hcl : a = PPunct 0x5D \/ a <> PPunct 0x5D).
  { destruct Ha as [[[c ->]|[[c ->]|[->| ->]]]|[->|[->| ->]]]; ((left; reflexivity) || (right; discriminate)). }
  destruct Hcl as [->|Hcl].
  { eapply gap_close_bracket; eauto. }
  eapply gap_rule; try eassumption. intros st1 H1 HF1. pose proof H1 as H1'.
  apply before_snoc in H1. destruct H1 as (st0 & _ & Hst).
  destruct (calc_last st0 a st1 Ha Hst) as (t & L & Ef & Hpb & Hbt & Hut & Hbr).
  exists t, L. split; [exact Ef|]. split; [left; exact Hpb|]. split; [exact Hbt|].
  intros st2 v h1 h2 H2 Hag Hh Hnb HF Hv.
  destruct (after_post alpha st2 _ _ v h1 h2 _ Hag Hb Hh Hnb HF Hv) as (rest & n & En & Hn). exists rest, n. split; [exact En|]. right.
  assert (Hcalc : fst (calcs (false, 0%Z) (rev (t :: L))) = true).
  { change (fst (cs (t :: L)) = true). rewrite <- Ef. eapply (inside_calc_state (q ++ [a]) (gap ++ b :: post)); try assumption.
    destruct Hgap as (Hl & _). rewrite <- Hl. exact Hcc. }
  rewrite Hcalc. unfold retain_blank. rewrite Hut. cbn [andb negb].
  destruct (is_the_char CloseBracket t); [destruct (Hcl (Hbr eq_refl))|].
  repeat match goal with |- (if ?c then true else _) = true => destruct c; [reflexivity|] end. reflexivity.
Qed.
End Alpha.
