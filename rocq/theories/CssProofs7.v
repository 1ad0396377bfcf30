(** Blanks that stay: the tokens around a gap, and what clean_tokens does with it. *)
From Coq Require Import String Arith List NArith ZArith Bool Lia.
From Verif Require Import Base CssModel CssSpec CssGapSpec CssProofs1 CssProofs2 CssProofs3 CssProofs4 CssProofs5 CssProofs6.
Import ListNotations.
Open Scope N_scope.

(** ** Items around a separator *)

Lemma items_from_app_sep : forall p1 w g p2, separator g ->
  items_from w (p1 ++ g :: p2) = items_from w p1 ++ items_from [] p2.
Proof.
  induction p1 as [|p p1 IH]; intros w g p2 Hg.
  - cbn [app]. destruct Hg as [->|[b ->]]; cbn [items_from]; destruct w; reflexivity.
  - cbn [app]. destruct p; cbn [items_from]; rewrite IH by exact Hg; try reflexivity;
      rewrite ?app_comm_cons, flush_app; reflexivity.
Qed.

Lemma items_from_seps : forall g w p, Forall separator g -> g <> [] ->
  items_from w (g ++ p) = flush w (items_from [] p).
Proof.
  induction g as [|x g IH]; intros w p HF Hn; [congruence|]. inversion HF; subst.
  assert (E : items_from w ((x :: g) ++ p) = flush w (items_from [] (g ++ p))).
  { cbn [app]. destruct H1 as [->|[b ->]]; reflexivity. }
  rewrite E. destruct g as [|y g]; [reflexivity|]. rewrite IH; [reflexivity|assumption|discriminate].
Qed.

Lemma items_from_gap : forall pre w g post, Forall separator g -> g <> [] ->
  items_from w (pre ++ g ++ post) = items_from w pre ++ items_from [] post.
Proof.
  intros pre w g post HF Hn. destruct g as [|x g]; [congruence|]. inversion HF; subst.
  cbn [app]. rewrite items_from_app_sep by assumption. f_equal.
  destruct g as [|y g]; [reflexivity|]. rewrite items_from_seps; [reflexivity|assumption|discriminate].
Qed.

(** ** clean_tokens on a split list *)

Definition calcs (c : bool * Z) (l : list token) : bool * Z :=
  fold_left (fun c t => calc_step t (fst c) (snd c)) l c.

Lemma calcs_app : forall a b c, calcs c (a ++ b) = calcs (calcs c a) b.
Proof. intros. unfold calcs. apply fold_left_app. Qed.

Lemma calc_step_blank : forall t c p, blankish t = true -> calc_step t c p = (c, p).
Proof.
  intros t c p H. destruct t as [b|b|k|s|e|s|o|o]; try discriminate.
  - unfold calc_step. cbn. destruct c; reflexivity.
  - destruct k; try discriminate; unfold calc_step; cbn; destruct c; reflexivity.
Qed.

Lemma cz_app : forall l prev c p t r, blankish t = false ->
  cz prev c p ((l ++ [t]) ++ r) =
  cz prev c p (l ++ [t]) ++ cz (Some t) (fst (calcs (c, p) (l ++ [t]))) (snd (calcs (c, p) (l ++ [t]))) r.
Proof.
  induction l as [|u l IH]; intros prev c p t r Ht.
  - cbn [app cz calcs fold_left fst snd]. rewrite Ht. destruct (calc_step t c p) as [c' p']. reflexivity.
  - cbn [app cz]. unfold calcs at 1 2. cbn [fold_left fst snd].
    fold (calcs (calc_step u c p) (l ++ [t])).
    destruct (calc_step u c p) as [c' p'].
    assert (Eh : hd_error ((l ++ [t]) ++ r) = hd_error (l ++ [t])) by (destruct l; reflexivity).
    rewrite Eh. destruct (blankish u).
    + destruct (match prev with Some q => retain_blank q (hd_error (l ++ [t])) c' | None => true end).
      * cbn [app]. f_equal. apply IH. exact Ht.
      * apply IH. exact Ht.
    + cbn [app]. f_equal. apply IH. exact Ht.
Qed.

Lemma cz_snoc : forall l prev c p t, blankish t = false ->
  exists l', cz prev c p (l ++ [t]) = l' ++ [t].
Proof.
  induction l as [|u l IH]; intros prev c p t Ht.
  - exists []. cbn [app cz]. rewrite Ht. destruct (calc_step t c p). reflexivity.
  - cbn [app cz]. destruct (calc_step u c p) as [c' p'].
    destruct (blankish u).
    + destruct (match prev with Some q => retain_blank q (hd_error (l ++ [t])) c' | None => true end); [|apply IH; exact Ht].
      match goal with |- context [cz ?q ?x ?y (l ++ [t])] => destruct (IH q x y t Ht) as [l' ->] end.
      eexists (_ :: l'). reflexivity.
    + destruct (IH (Some u) c' p' t Ht) as [l' ->]. exists (u :: l'). reflexivity.
Qed.

(** A gap before [n] that the rule of clean_tokens keeps. *)
Lemma cz_gap : forall G p c pa n r, Forall (fun t => blankish t = true) G -> G <> [] ->
  retain_blank p (Some n) c = true ->
  exists sp rest, cz (Some p) c pa (G ++ n :: r) = sp :: rest /\ tp sp = [PBlank].
Proof.
  induction G as [|g G IH]; intros p c pa n r HF Hn Hr; [congruence|]. inversion HF; subst.
  cbn [app cz]. rewrite calc_step_blank by assumption. rewrite H1.
  destruct (retain_blank p (hd_error (G ++ n :: r)) c) eqn:E.
  - eexists. eexists. split; [reflexivity|].
    destruct g as [b|b|k|s|e|s|o|o]; try discriminate; [reflexivity|].
    unfold blankish in H1. cbn [is_useless is_comment] in H1. rewrite orb_false_r in H1.
    cbn [is_comment tp]. rewrite H1. reflexivity.
  - destruct G as [|g' G]; [cbn in E; congruence|]. apply IH; [assumption|discriminate|assumption].
Qed.

(** A gap that the rule drops: no comment in it (so that the next token of its single blank is [n]). *)
Lemma cz_gap_none : forall sp p c pa n r, blankish sp = true -> blankish n = false ->
  retain_blank p (Some n) c = false ->
  cz (Some p) c pa (sp :: n :: r) = cz (Some p) c pa (n :: r).
Proof.
  intros sp p c pa n r Hs Hn Hr. cbn [cz]. rewrite calc_step_blank by exact Hs. rewrite Hs.
  cbn [hd_error]. rewrite Hr. reflexivity.
Qed.

Section Alpha.
Variable alpha : N -> bool.

(** ** Running the tokenizer over part of the pieces *)

Fixpoint pmulti (st : pst) (ps : list piece) : outcome pst :=
  match ps with
  | [] => Ok st
  | p :: r => let! st' := pstep alpha st p in pmulti st' r
  end.

Lemma prun_app : forall a b st e,
  prun alpha st (a ++ b) e = let! st' := pmulti st a in prun alpha st' b e.
Proof.
  induction a as [|p a IH]; intros b st e; cbn [app prun pmulti obind]; [reflexivity|].
  destruct (pstep alpha st p); cbn [obind]; auto.
Qed.

Lemma pmulti_app : forall a b st, pmulti st (a ++ b) = let! st' := pmulti st a in pmulti st' b.
Proof.
  induction a as [|p a IH]; intros b st; cbn [app pmulti obind]; [reflexivity|].
  destruct (pstep alpha st p); cbn [obind]; auto.
Qed.

Lemma prun_nil : forall st, prun alpha st [] None = Ok (rev (fillp alpha st)).
Proof. reflexivity. Qed.

(** What pieces other than characters do to the stack, in general. *)
Definition is_pseudo (t : token) : bool := match t with TSelectorElement (PseudoClass _) => true | _ => false end.
Definition wordtok (t : token) : Prop := (exists s, t = TOther s) \/ (exists e, t = TSelectorElement e).

Lemma fillp_cases : forall st, (mseg st = [] /\ fillp alpha st = mv st) \/
  (mseg st <> [] /\ exists n, wordtok n /\
   (fillp alpha st = n :: mv st \/
    (exists L s, mv st = TChar Colon :: L /\ n = TSelectorElement (PseudoClass s) /\ fillp alpha st = n :: L))).
Proof.
  intro st. unfold fillp. destruct (mseg st) as [|c w] eqn:E; [left; auto|]. right. split; [discriminate|].
  destruct (selector_context _ _ _); [|eexists; split; [left; eauto|auto]].
  destruct (some_and (is_the_char Colon) (hd_error (mv st))) eqn:Ec.
  - destruct (mv st) as [|t L]; [discriminate|]. cbn in Ec. destruct t; try discriminate. cbn in Ec.
    apply rchar_eqb_eq in Ec. subst c0.
    destruct (if mcol st then selement_of alpha (58 :: c :: w) else None) as [e|] eqn:Ee.
    + destruct (mcol st); [|discriminate]. cbn in Ee. injection Ee as <-.
      eexists. split; [right; eauto|]. right. exists L. eexists. repeat split.
    + eexists; split; [left; eauto|auto].
  - destruct (selement_of alpha (c :: w)) as [e|]; eexists; (split; [|left; reflexivity]); [right|left]; eauto.
Qed.

Lemma pstep_cases : forall st p st', punct_ok p -> pstep alpha st p = Ok st' ->
  match p with
  | PChar c =>
      (mesc st = true /\ mv st' = TOther [c] :: mv st /\ mseg st' = [] /\ mcol st' = false) \/
      (mesc st = false /\ mv st' = mv st /\ mseg st' = mseg st ++ [c] /\ mcol st' = mcol st)
  | PBlank => mv st' = (if push_blank (fillp alpha st) then TChar Space :: fillp alpha st else fillp alpha st)
              /\ mcol st' = false
  | PPunct c => exists k, rchar_of c = Some k /\ c = rchar_show k /\ rchar_useless k = false /\
      ((mv st' = TChar k :: fillp alpha st /\ mcol st' = (c =? 0x3A)) \/
       (exists o, k = EqualSign /\ equal_operator (fillp alpha st) = Some o /\
                  mv st' = TSelectorOperator o :: tl (fillp alpha st) /\ mcol st' = false))
  | _ => mv st' = piece_token p :: fillp alpha st /\ mcol st' = false
  end /\ (match p with PChar _ => True | _ => mseg st' = [] end) /\
  (match p with PBs => mesc st' = true | _ => mesc st' = false end).
Proof.
  intros st p st' Hg H. destruct p as [c| | |t|b|b|c]; cbn [pstep] in H.
  - destruct (mesc st) eqn:E; injection H as <-; cbn; auto 6.
  - injection H as <-. cbn. auto.
  - injection H as <-. cbn. auto.
  - injection H as <-. cbn. auto.
  - injection H as <-. cbn. auto.
  - injection H as <-. cbn. auto.
  - cbn [punct_ok] in Hg. destruct (punct_char_rchar c Hg) as (k & Hk & Hc & Hu & H1 & H2 & H3).
    rewrite Hk in H.
    assert (Hgo : forall block media attr, st' = mk (TChar k :: fillp alpha st) (c =? 58) block media attr false ->
      (exists k0, rchar_of c = Some k0 /\ c = rchar_show k0 /\ rchar_useless k0 = false /\
        (mv st' = TChar k0 :: fillp alpha st /\ mcol st' = (c =? 58) \/
         (exists o, k0 = EqualSign /\ equal_operator (fillp alpha st) = Some o /\
                    mv st' = TSelectorOperator o :: tl (fillp alpha st) /\ mcol st' = false))) /\
      mseg st' = [] /\ mesc st' = false).
    { intros block media attr ->. split; [|split; reflexivity]. exists k. split; [exact Hk|]. split; [exact Hc|]. split; [exact Hu|]. left. split; reflexivity. }
    destruct k; try congruence; try discriminate Hu; try (injection H as <-; eapply Hgo; reflexivity).
    + destruct (Z.ltb _ _); [discriminate|]. injection H as <-. eapply Hgo; reflexivity.
    + destruct (mattr st); [discriminate|]. injection H as <-. eapply Hgo; reflexivity.
    + destruct (mattr st); [|discriminate]. injection H as <-. eapply Hgo; reflexivity.
    + destruct (equal_operator (fillp alpha st)) as [o|] eqn:Eo; injection H as <-; [|eapply Hgo; reflexivity].
      split; [|split; reflexivity]. exists EqualSign. split; [exact Hk|]. split; [exact Hc|]. split; [exact Hu|].
      right. exists o. repeat split.
Qed.

(** ** A token below the top of the stack stays; the top itself may only be replaced *)

Definition closedK (K : token -> Prop) : Prop :=
  (K (TChar Colon) -> forall s, K (TSelectorElement (PseudoClass s))) /\
  (forall t o, K t -> equal_operator [t] = Some o -> K (TSelectorOperator o)).

Definition base (K : token -> Prop) (L : list token) (v : list token) : Prop :=
  exists M n, v = M ++ n :: L /\ K n.

Lemma base_cons : forall K L v t, base K L v -> base K L (t :: v).
Proof. intros K L v t (M & n & -> & H). exists (t :: M), n. auto. Qed.

Lemma base_fillp : forall K L st, closedK K -> base K L (mv st) -> base K L (fillp alpha st).
Proof.
  intros K L st [HK _] Hb. destruct (fillp_cases st) as [[_ ->]|(_ & n & _ & [->|(L0 & s & E & -> & ->)])];
    [exact Hb|apply base_cons; exact Hb|].
  rewrite E in Hb. destruct Hb as ([|m M] & n & Em & Hn).
  - cbn in Em. injection Em as <- ->. exists [], (TSelectorElement (PseudoClass s)). split; [reflexivity|]. apply HK. exact Hn.
  - cbn in Em. injection Em as <- ->. exists (TSelectorElement (PseudoClass s) :: M), n. auto.
Qed.

Lemma equal_operator_hd : forall t v, equal_operator (t :: v) = equal_operator [t].
Proof. reflexivity. Qed.

Lemma base_pstep : forall K L st p st', closedK K -> punct_ok p -> base K L (mv st) ->
  pstep alpha st p = Ok st' -> base K L (mv st').
Proof.
  intros K L st p st' HK Hg Hb H. pose proof (base_fillp K L st HK Hb) as Hf.
  apply pstep_cases in H; [|exact Hg]. destruct H as [H _].
  destruct p as [c| | |t|b|b|c].
  - destruct H as [(_ & -> & _)|(_ & -> & _)]; [apply base_cons|]; exact Hb.
  - destruct H as [-> _]. apply base_cons. exact Hf.
  - destruct H as [-> _]. destruct (push_blank _); [apply base_cons|]; exact Hf.
  - destruct H as [-> _]. apply base_cons. exact Hf.
  - destruct H as [-> _]. apply base_cons. exact Hf.
  - destruct H as [-> _]. apply base_cons. exact Hf.
  - destruct H as (k & _ & _ & _ & [[-> _]|(o & _ & Ho & -> & _)]); [apply base_cons; exact Hf|].
    destruct Hf as ([|m M] & n & Em & Hn); rewrite Em in *.
    + cbn [app] in Ho. cbn [app tl]. exists [], (TSelectorOperator o). split; [reflexivity|]. eapply (proj2 HK); eauto.
    + cbn [app tl]. exists (TSelectorOperator o :: M), n. auto.
Qed.

Lemma base_prun : forall ps K L st v, closedK K -> Forall punct_ok ps -> base K L (mv st) ->
  prun alpha st ps None = Ok v -> exists n rest, v = rev L ++ n :: rest /\ K n.
Proof.
  induction ps as [|p ps IH]; intros K L st v HK HF Hb H.
  - rewrite prun_nil in H. injection H as <-. destruct (base_fillp K L st HK Hb) as (M & n & -> & Hn).
    exists n, (rev M). split; [|exact Hn]. rewrite rev_app_distr. cbn [rev]. rewrite <- app_assoc. reflexivity.
  - inversion HF; subst. cbn [prun] in H. destruct (pstep alpha st p) as [st'| | |] eqn:E; cbn [obind] in H; try discriminate.
    eapply IH; [exact HK|assumption| |exact H]. eapply base_pstep; eauto.
Qed.

(** ** The first token after a gap *)

(** A state right after a gap. *)
Definition after_gap (st : pst) (L : list token) : Prop :=
  mv st = L /\ mseg st = [] /\ mcol st = false /\ mesc st = false /\
  exists g L', L = g :: L' /\ blankish g = true.

Definition first_class (b : piece) (n : token) : Prop :=
  match b with
  | PChar _ => wordtok n /\ is_pseudo n = false
  | PPunct c => exists k, rchar_of c = Some k /\
      (n = TChar k \/ (k = Colon /\ is_pseudo n = true) \/
       (exists o, equal_operator [TChar k] = Some o /\ n = TSelectorOperator o))
  | PBlank | PCom _ => False
  | _ => n = piece_token b
  end.

Lemma closedK_first : forall b, closedK (first_class b).
Proof.
  intros b. destruct b; split; intros; cbn [first_class] in *.
  all: try contradiction.
  all: try (match goal with H : wordtok _ /\ _ |- _ => destruct H as [[[? ?]|[? ?]] _]; subst; discriminate end).
  all: try (cbn [piece_token] in *; subst; discriminate).
  - destruct H as (k & Hk & [H|[[-> H]|(o & Ho & H)]]); try discriminate.
    exists k. split; [exact Hk|]. right. left. injection H as <-. auto.
  - destruct H as (k & Hk & [H|[[-> H]|(o0 & Ho & H)]]).
    + subst t. exists k. split; [exact Hk|]. right. right. eauto.
    + destruct t; discriminate.
    + subst t. discriminate.
Qed.

(** Reading a run of characters. *)
Lemma pmulti_chars : forall w st, mesc st = false ->
  pmulti st (map PChar w) = Ok {| mv := mv st; mseg := mseg st ++ w; mcol := mcol st; mblock := mblock st;
                                  mmedia := mmedia st; mattr := mattr st; mesc := false |}.
Proof.
  induction w as [|c w IH]; intros st He.
  - cbn. rewrite app_nil_r. destruct st. cbn in He. subst. reflexivity.
  - cbn [map pmulti pstep]. rewrite He. cbn [obind]. rewrite IH by reflexivity. cbn. rewrite <- app_assoc. reflexivity.
Qed.

Lemma span_chars : forall ps, exists w r, ps = map PChar w ++ r /\ match r with PChar _ :: _ => False | _ => True end.
Proof.
  induction ps as [|p ps (w & r & E & H)].
  - exists [], []. split; [reflexivity|exact I].
  - destruct p; try (eexists [], _; split; [reflexivity|exact I]).
    exists (c :: w), r. subst. split; [reflexivity|exact H].
Qed.

(** Finishing a run: the word token goes on top of the stack. *)
Lemma finish_run : forall st r n v (K : token -> Prop), closedK K -> Forall punct_ok r ->
  match r with PChar _ :: _ => False | _ => True end ->
  forall L, fillp alpha st = n :: L -> K n ->
  (forall o, equal_operator [n] = Some o -> False) ->
  prun alpha st r None = Ok v -> exists rest n', v = rev L ++ n' :: rest /\ K n'.
Proof.
  intros st r n v K HK HF Hr L Hf Hn Hne H.
  assert (Hb : base K L (fillp alpha st)) by (rewrite Hf; exists [], n; auto).
  destruct r as [|p r].
  - rewrite prun_nil in H. injection H as <-. exists [], n. rewrite Hf. split; [reflexivity|exact Hn].
  - inversion HF; subst. cbn [prun] in H. destruct (pstep alpha st p) as [st'| | |] eqn:E; cbn [obind] in H; try discriminate.
    assert (Hb' : base K L (mv st')).
    { apply pstep_cases in E; [|assumption]. destruct E as [E _].
      destruct p as [c| | |t|b|b|c]; try contradiction; try (destruct E as [-> _]; apply base_cons; exact Hb).
      - destruct E as [-> _]. destruct (push_blank _); [apply base_cons|]; exact Hb.
      - destruct E as (k & _ & _ & _ & [[-> _]|(o & _ & Ho & -> & _)]); [apply base_cons; exact Hb|].
        exfalso. rewrite Hf in Ho. exact (Hne o Ho). }
    destruct (base_prun r K L st' v HK) as (n' & rest & E1 & E2); [assumption|exact Hb'|exact H|]. eauto.
Qed.

Lemma selement_not_pseudo : forall w e, selement_of alpha w = Some e -> Forall (fun c => wordc c = true) w ->
  is_pseudo (TSelectorElement e) = false.
Proof.
  intros w e H HF. pose proof (selement_tp alpha w e H HF) as Ht. destruct e; try reflexivity. exfalso.
  cbn [tp] in Ht. destruct w; cbn in Ht; congruence.
Qed.

(** The first token after a gap, for a state with its context. *)
Lemma first_word : forall st L w r v, after_gap st L -> w <> [] -> Forall (fun c => wordc c = true) w ->
  match r with PChar _ :: _ => False | _ => True end -> Forall punct_ok r ->
  prun alpha st (map PChar w ++ r) None = Ok v ->
  exists rest n, v = rev L ++ n :: rest /\
    n = (if selector_context (mblock st) (mmedia st) (mattr st) then
           match selement_of alpha w with Some e => TSelectorElement e | None => TOther w end
         else TOther w).
Proof.
  intros st L w r v (Hmv & Hms & Hmc & Hme & g & L' & HL & Hg) Hw HwF Hr HF H.
  assert (Hcol : some_and (is_the_char Colon) (hd_error L) = false).
  { rewrite HL. cbn. destruct g as [| |k| | | | |]; try reflexivity. destruct k; try discriminate; reflexivity. }
  rewrite prun_app, pmulti_chars in H by exact Hme. cbn [obind] in H. rewrite Hmv, Hms, Hmc in H. cbn [app] in H.
  set (st1 := {| mv := L; mseg := w; mcol := false; mblock := mblock st; mmedia := mmedia st; mattr := mattr st; mesc := false |}) in H.
  set (n := if selector_context (mblock st) (mmedia st) (mattr st) then
           match selement_of alpha w with Some e => TSelectorElement e | None => TOther w end
         else TOther w).
  assert (Hn : fillp alpha st1 = n :: L).
  { unfold fillp, st1, n. cbn [mv mseg mcol mblock mmedia mattr]. rewrite Hcol.
    destruct w; [congruence|]. destruct (selector_context _ _ _); [|reflexivity].
    destruct (selement_of alpha _); reflexivity. }
  assert (HK : closedK (fun t => t = n)).
  { unfold n. split; intros.
    - exfalso. destruct (selector_context _ _ _); [|discriminate]. destruct (selement_of _ _); discriminate.
    - exfalso. subst t. destruct (selector_context _ _ _); [|discriminate]. destruct (selement_of _ _); discriminate. }
  destruct (finish_run st1 r n v (fun t => t = n) HK HF Hr L Hn eq_refl) as (rest & n' & E & ->); [|exact H|].
  - intros o Ho. unfold n in Ho. destruct (selector_context _ _ _); [|discriminate]. destruct (selement_of _ _); discriminate.
  - exists rest, n. auto.
Qed.

Lemma first_token : forall st L b post v h h', after_gap st L -> ~ separator b -> hrun h (b :: post) = Some h' -> h <> HBs ->
  Forall punct_ok (b :: post) -> prun alpha st (b :: post) None = Ok v ->
  exists rest n, v = rev L ++ n :: rest /\ first_class b n.
Proof.
  intros st L b post v h h' Ha Hs Hh Hnb HF H.
  assert (Hgen : (forall t, b <> PChar t) -> exists rest n, v = rev L ++ n :: rest /\ first_class b n).
  { intro Hnc. destruct Ha as (Hmv & Hms & Hmc & Hme & g & L' & HL & Hg). inversion HF; subst.
    cbn [prun] in H. destruct (pstep alpha st b) as [st'| | |] eqn:E; cbn [obind] in H; try discriminate.
    assert (Hf : fillp alpha st = mv st) by (unfold fillp; rewrite Hms; reflexivity).
    assert (Hb : base (first_class b) (mv st) (mv st')).
    { apply pstep_cases in E; [|assumption]. destruct E as [E _]. rewrite Hf in E.
      destruct b as [c| | |t|bd|bd|c]; try (exfalso; eapply Hnc; reflexivity);
        try (destruct E as [-> _]; exists []; eexists; split; reflexivity).
      - exfalso. apply Hs. left. reflexivity.
      - exfalso. apply Hs. right. eauto.
      - destruct E as (k & Hk & _ & _ & [[-> _]|(o & _ & Ho & _)]).
        + exists [], (TChar k). split; [reflexivity|]. cbn [first_class]. eauto.
        + exfalso. rewrite HL in Ho. destruct g as [| |k'| | | | |]; try discriminate. destruct k'; discriminate. }
    destruct (base_prun post (first_class b) (mv st) st' v (closedK_first b)) as (n & rest & E1 & E2); [assumption|exact Hb|exact H|].
    eauto. }
  destruct b as [c| | |t|bd|bd|c]; try (apply Hgen; discriminate).
  clear Hgen. destruct (span_chars post) as (w & r & -> & Hr).
  assert (Hw : Forall (fun c => wordc c = true) (c :: w)).
  { change (PChar c :: map PChar w ++ r) with (map PChar (c :: w) ++ r) in Hh. rewrite hrun_app in Hh.
    destruct (hrun h (map PChar (c :: w))) as [h1|] eqn:E; [|discriminate].
    clear -E Hnb. revert h E Hnb. generalize (c :: w) as l. induction l as [|d l IH]; intros h E Hnb; constructor.
    - cbn [map hrun hstep] in E. destruct h; try congruence; destruct (wordc d); congruence.
    - cbn [map hrun] in E. destruct (hstep h (PChar d)) as [h2|] eqn:E2; [|discriminate]. eapply IH; [exact E|].
      cbn in E2. destruct h; try congruence; destruct (wordc d); try discriminate; injection E2 as <-; try discriminate;
        destruct (d =? 64); discriminate. }
  change (PChar c :: map PChar w ++ r) with (map PChar (c :: w) ++ r) in H.
  destruct (first_word st L (c :: w) r v Ha) as (rest & n & E & En); try assumption; try discriminate.
  { inversion HF; subst. apply Forall_app in H3. tauto. }
  exists rest, n. split; [exact E|]. subst n. cbn [first_class].
  destruct (selector_context _ _ _); [|split; [left; eauto|reflexivity]].
  destruct (selement_of alpha (c :: w)) as [e|] eqn:Ee; [|split; [left; eauto|reflexivity]].
  split; [right; eauto|]. eapply selement_not_pseudo; eauto.
Qed.

(** A colon and a word directly after a gap, where selectors stand: a pseudo class. *)
Lemma first_pseudo : forall st L c post v, after_gap st L ->
  selector_context (mblock st) (mmedia st) (mattr st) = true -> Forall punct_ok post ->
  prun alpha st (PPunct 0x3A :: PChar c :: post) None = Ok v ->
  exists rest n, v = rev L ++ n :: rest /\ is_pseudo n = true.
Proof.
  intros st L c post v (Hmv & Hms & Hmc & Hme & g & L' & HL & Hg) Hsel HF H.
  assert (Hf : fillp alpha st = mv st) by (unfold fillp; rewrite Hms; reflexivity).
  cbn [prun pstep] in H. change (rchar_of 58) with (Some Colon) in H. cbn iota in H. cbn [obind] in H.
  rewrite Hf in H. cbn [mk mesc obind] in H.
  destruct (span_chars post) as (w & r & -> & Hr).
  assert (Hm : is_a_media g = false) by (destruct g as [| |k| | | | |]; try reflexivity; discriminate).
  rewrite prun_app in H.
  rewrite pmulti_chars in H by reflexivity. cbn [obind mv mseg mcol mblock mmedia mattr mesc mk app] in H.
  set (st1 := {| mv := TChar Colon :: mv st; mseg := c :: w; mcol := 58 =? 58; mblock := mblock st;
                 mmedia := mmedia st || some_and is_a_media (hd_error (mv st)); mattr := mattr st; mesc := false |}) in H.
  assert (Hn : fillp alpha st1 = TSelectorElement (PseudoClass (c :: w)) :: L).
  { unfold fillp, st1. cbn [mv mseg mcol mblock mmedia mattr]. rewrite Hmv, HL. cbn [hd_error some_and].
    rewrite Hm, orb_false_r, Hsel. reflexivity. }
  destruct (finish_run st1 r (TSelectorElement (PseudoClass (c :: w))) v (fun t => is_pseudo t = true)) with (L := L)
    as (rest & n' & E & En); try assumption; try reflexivity.
  - split; [reflexivity|]. intros t o Ht Ho. destruct t as [| | | |e| | |]; discriminate.
  - apply Forall_app in HF. tauto.
  - discriminate.
  - eauto.
Qed.

(** ** The last token before a gap *)

Definition last_class (a : piece) (t : token) : Prop :=
  match a with
  | PChar _ => wordtok t
  | PPunct c => c <> 0x3D -> exists k, rchar_of c = Some k /\ t = TChar k
  | PBlank | PCom _ => True
  | _ => t = piece_token a
  end.

Lemma last_token : forall st a st1, punct_ok a -> ~ separator a -> pstep alpha st a = Ok st1 ->
  exists t L, fillp alpha st1 = t :: L /\ last_class a t.
Proof.
  intros st a st1 Hg Hs H. apply pstep_cases in H; [|exact Hg]. destruct H as (H & Hseg & _).
  assert (Hf : mseg st1 = [] -> fillp alpha st1 = mv st1) by (unfold fillp; intros ->; reflexivity).
  destruct a as [c| | |t|b|b|c].
  - destruct H as [(_ & Hm & Hs1 & _)|(_ & Hm & Hs1 & _)].
    + rewrite Hf, Hm by exact Hs1. eexists. eexists. split; [reflexivity|]. left. eauto.
    + destruct (fillp_cases st1) as [[E _]|(_ & n & Hn & [->|(L & s & _ & _ & ->)])].
      * rewrite Hs1 in E. apply app_eq_nil in E. destruct E; discriminate.
      * eauto.
      * eauto.
  - destruct H as [Hm _]. rewrite Hf, Hm by exact Hseg. eexists. eexists. split; reflexivity.
  - exfalso. apply Hs. left. reflexivity.
  - destruct H as [Hm _]. rewrite Hf, Hm by exact Hseg. eexists. eexists. split; reflexivity.
  - exfalso. apply Hs. right. eauto.
  - destruct H as [Hm _]. rewrite Hf, Hm by exact Hseg. eexists. eexists. split; reflexivity.
  - destruct H as (k & Hk & Hc & _ & [[Hm _]|(o & -> & _ & Hm & _)]); rewrite Hf, Hm by exact Hseg.
    + eexists. eexists. split; [reflexivity|]. intros _. eauto.
    + eexists. eexists. split; [reflexivity|]. intro E. cbn in Hc. congruence.
Qed.

(** ** The tokens of a gap *)

Lemma gap_step : forall st p st', separator p -> pstep alpha st p = Ok st' ->
  exists G, mv st' = G ++ fillp alpha st /\ Forall (fun t => blankish t = true) G /\
    (push_blank (fillp alpha st) = true -> G <> []) /\ ((exists b, p = PCom b) -> G <> []) /\
    mseg st' = [] /\ mcol st' = false /\ mesc st' = false /\ mblock st' = mblock st /\ mattr st' = mattr st /\
    mmedia st' = mmedia st || some_and is_a_media (hd_error (fillp alpha st)).
Proof.
  intros st p st' [->|[b ->]] H; cbn [pstep] in H; injection H as <-; cbn [mk mv mseg mcol mesc mblock mattr mmedia].
  - destruct (push_blank (fillp alpha st)).
    + exists [TChar Space]. repeat split; auto; try discriminate; intros.
    + exists []. repeat split; auto; try discriminate. intros [b E]. discriminate.
  - exists [TComment b]. repeat split; auto; try discriminate.
Qed.

Lemma gap_steps : forall gap st st', Forall separator gap -> gap <> [] -> pmulti st gap = Ok st' ->
  exists G, mv st' = G ++ fillp alpha st /\ Forall (fun t => blankish t = true) G /\
    (push_blank (fillp alpha st) = true \/ commented gap -> G <> []) /\
    mseg st' = [] /\ mcol st' = false /\ mesc st' = false /\ mblock st' = mblock st /\ mattr st' = mattr st /\
    mmedia st' = mmedia st || some_and is_a_media (hd_error (fillp alpha st)).
Proof.
  induction gap as [|p gap IH]; intros st st' HF Hn H; [congruence|]. inversion HF; subst.
  cbn [pmulti] in H. destruct (pstep alpha st p) as [st1| | |] eqn:E; cbn [obind] in H; try discriminate.
  destruct (gap_step _ _ _ H2 E) as (G & A1 & A2 & A3 & A3c & A4 & A5 & A6 & A7 & A8 & A9).
  destruct gap as [|p' gap].
  - cbn in H. injection H as <-. exists G. split; [exact A1|]. split; [exact A2|]. split; [|auto 10].
    intros [Hp|Hc]; [auto|]. inversion Hc; subst; [auto|]. match goal with X : Exists _ [] |- _ => inversion X end.
  - destruct (IH st1 st' H3 ltac:(discriminate) H) as (G' & B1 & B2 & B3 & B4 & B5 & B6 & B7 & B8 & B9).
    assert (Ef : fillp alpha st1 = mv st1) by (unfold fillp; rewrite A4; reflexivity).
    exists (G' ++ G). rewrite B1, Ef, A1, <- app_assoc. split; [reflexivity|].
    split; [apply Forall_app; auto|]. split.
    { intros Hp E0. apply app_eq_nil in E0. destruct E0 as [E1 E2]. destruct Hp as [Hp|Hc]; [apply A3; assumption|].
      apply Exists_cons in Hc. destruct Hc as [Hx|Hx]; [exact (A3c Hx E2)|exact (B3 (or_intror Hx) E1)]. }
    repeat split; try assumption; try congruence.
    rewrite B9, Ef, A1, A9. destruct G as [|x G]; cbn [app hd_error].
    + destruct (some_and is_a_media (hd_error (fillp alpha st))); rewrite ?orb_true_r, ?orb_false_r; reflexivity.
    + inversion A2; subst. cbn [some_and]. destruct x; try discriminate; apply orb_false_r.
Qed.

(** ** Main lemma *)

Definition before (pre : list piece) (st1 : pst) : Prop := pmulti pinit pre = Ok st1.

Lemma AI_init : AI pinit x0.
Proof.
  exists x0. split; [reflexivity|]. split; [reflexivity|]. split; [split; intro E; vm_compute in E; discriminate E|].
  split; [right; exact I|]. intro E. cbn in E. congruence.
Qed.

(** What is known of a gap of the source. *)
Definition gap_facts (pre gap post : list piece) (st1 st2 : pst) (v : list token) (h : hst) : Prop :=
  before pre st1 /\ pmulti st1 gap = Ok st2 /\ prun alpha st2 post None = Ok v /\
  Forall punct_ok (pre ++ gap ++ post) /\ hrun HN (pre ++ gap ++ post) = Some h.

Lemma gap_run : forall s o pre gap post, css_minify alpha s = Ok o -> regular s -> gap_between s pre gap post ->
  exists st1 st2 v h, gap_facts pre gap post st1 st2 v h /\ prun alpha pinit (fst (lex s)) None = Ok v /\
    o = concat (map token_show (cz None false 0 v)).
Proof.
  intros s o pre gap post H Hreg (Hl & Hgn & HG).
  pose proof (css_minify_cases alpha s) as Hc. destruct (css_problem s); [congruence|].
  destruct Hc as (v & Hv & Ho). rewrite Ho in H. injection H as <-.
  destruct (lex_accept s Hreg) as [h Hh]. pose proof (lex_punct_ok s) as HP. pose proof Hv as Hv0.
  rewrite Hl in Hv, Hh, HP. rewrite prun_app in Hv.
  destruct (pmulti pinit pre) as [st1| | |] eqn:E1; cbn [obind] in Hv; try discriminate.
  rewrite prun_app in Hv. destruct (pmulti st1 gap) as [st2| | |] eqn:E2; cbn [obind] in Hv; try discriminate.
  exists st1, st2, v, h. split; [|auto]. repeat split; assumption.
Qed.

Lemma gap_after : forall pre gap post st1 st2 v h, gap_facts pre gap post st1 st2 v h ->
  Forall separator gap -> gap <> [] -> push_blank (fillp alpha st1) = true \/ commented gap -> after_gap st2 (mv st2).
Proof.
  intros pre gap post st1 st2 v h (_ & H & _) HF Hn Hp.
  destruct (gap_steps gap st1 st2 HF Hn H) as (G & A1 & A2 & A3 & A4 & A5 & A6 & _).
  split; [reflexivity|]. split; [exact A4|]. split; [exact A5|]. split; [exact A6|].
  specialize (A3 Hp). destruct G as [|g G]; [congruence|]. inversion A2; subst. rewrite A1. cbn [app]. eauto.
Qed.

Lemma gap_kept : forall s o pre gap post st1 st2 v h t L n rest,
  css_minify alpha s = Ok o -> regular s -> gap_between s pre gap post ->
  gap_facts pre gap post st1 st2 v h -> prun alpha pinit (fst (lex s)) None = Ok v ->
  o = concat (map token_show (cz None false 0 v)) ->
  fillp alpha st1 = t :: L -> push_blank (t :: L) = true \/ commented gap -> blankish t = false ->
  v = rev (mv st2) ++ n :: rest ->
  (is_a_media t = true \/ retain_blank t (Some n) (fst (calcs (false, 0%Z) (rev (t :: L)))) = true) ->
  blank_stays o pre post.
Proof.
  intros s o pre gap post st1 st2 v h t L n rest H Hreg (Hl & Hgn & HG) (F1 & F2 & F3 & F4 & F5) Hv Ho Hf Hpb Hbt Ev Hk.
  destruct (gap_steps gap st1 st2 HG Hgn F2) as (G & A1 & A2 & A3 & _). rewrite Hf in A1, A3. specialize (A3 Hpb).
  assert (Ev2 : v = rev (t :: L) ++ rev G ++ n :: rest).
  { rewrite Ev, A1, rev_app_distr, <- app_assoc. reflexivity. }
  assert (Hpre : prun alpha pinit pre None = Ok (rev (t :: L))).
  { rewrite <- (app_nil_r pre), prun_app, F1. cbn [obind]. rewrite prun_nil, Hf. reflexivity. }
  assert (Hxp : exists xp, xrun x0 pre = Some xp).
  { rewrite hrun_app in F5. destruct (hrun HN pre) as [hp|] eqn:Ep; [|discriminate].
    rewrite xrun_hrun. cbn [fst x0]. rewrite Ep. cbn. eauto. }
  destruct Hxp as [xp Hxp]. pose proof (xrun_items _ _ Hxp) as Hip.
  destruct (prun_AI alpha _ _ _ _ _ AI_init Hxp Hpre) as (yp & Hyp & Eyp).
  destruct (cz_run (rev (t :: L)) None false 0 x0 x0 yp eq_refl (or_introl eq_refl) Hyp) as (yp' & Hyp' & Eyp').
  pose proof (xrun_items _ _ Hyp') as Hpi.
  assert (Hitems : items_from [] (tps (cz None false 0 (rev (t :: L)))) = items_from [] pre) by congruence.
  (* the output *)
  assert (Hlo : fst (lex o) = tps (cz None false 0 v)).
  { destruct (prun_AI alpha (fst (lex s)) pinit x0) with (v := v)
      (x' := (h, fold_left istep (fst (lex s)) (snd x0))) as (yv & Hyv & _).
    - exact AI_init.
    - rewrite xrun_hrun. cbn [fst x0]. rewrite Hl, F5. reflexivity.
    - exact Hv.
    - destruct (cz_run v None false 0 x0 x0 yv eq_refl (or_introl eq_refl) Hyv) as (yv' & Hyv' & _).
      pose proof (cz_no_comment v None false 0) as Hnc.
      destruct (tokens_text _ _ _ Hnc Hyv') as (ts & HF & Ec).
      apply xrun_fst in Hyv'.
      pose proof (lex_back _ _ _ HN (fst yv') (le_n _) Hyv' ltac:(discriminate) HF) as Hlb.
      rewrite Ho, <- Ec. unfold lex. rewrite Hlb. reflexivity. }
  assert (Hall : items_from [] (tps (cz None false 0 v)) = items_from [] pre ++ items_from [] post).
  { rewrite <- Hlo. change (items_from [] (fst (lex o))) with (items o).
    rewrite (proj1 (css_main alpha s o H Hreg)). unfold items. rewrite Hl. apply items_from_gap; assumption. }
  assert (Ecz : cz None false 0 v = cz None false 0 (rev (t :: L)) ++
    cz (Some t) (fst (calcs (false, 0%Z) (rev (t :: L)))) (snd (calcs (false, 0%Z) (rev (t :: L)))) (rev G ++ n :: rest)).
  { rewrite Ev2. cbn [rev]. apply cz_app. exact Hbt. }
  assert (Hfin : forall p1 p2, tps (cz None false 0 v) = p1 ++ PBlank :: p2 ->
    items_from [] p1 = items_from [] pre -> blank_stays o pre post).
  { intros p1 p2 E1 E2. exists p1, p2. split; [congruence|]. split; [exact E2|].
    rewrite E1, items_from_app_sep in Hall by (left; reflexivity). rewrite E2 in Hall. apply app_inv_head in Hall. exact Hall. }
  destruct Hk as [Hm|Hk].
  - destruct t as [| | | |e| | |]; try discriminate. destruct e as [| | | |m]; try discriminate.
    cbn [rev] in Ecz, Hitems. destruct (cz_snoc (rev L) None false 0 (TSelectorElement (Media m)) eq_refl) as [X EX].
    rewrite EX in Ecz, Hitems. rewrite tps_app in Hitems. unfold tps at 2 in Hitems. cbn [map concat tp] in Hitems.
    rewrite app_nil_r, app_comm_cons, app_assoc, items_from_app_sep in Hitems by (left; reflexivity).
    cbn [items_from flush] in Hitems. rewrite app_nil_r in Hitems.
    eapply Hfin; [|exact Hitems]. rewrite Ecz, !tps_app. unfold tps at 2. cbn [map concat tp].
    rewrite app_nil_r, <- !app_assoc. cbn [app]. rewrite <- !app_assoc. reflexivity.
  - destruct (cz_gap (rev G) t (fst (calcs (false, 0%Z) (rev (t :: L)))) (snd (calcs (false, 0%Z) (rev (t :: L)))) n rest)
      as (sp & r & Er & Esp).
    + apply Forall_rev. exact A2.
    + intro E. apply A3. apply (f_equal (@rev token)) in E. rewrite rev_involutive in E. exact E.
    + exact Hk.
    + eapply Hfin; [|exact Hitems]. rewrite Ecz, Er, tps_app, tps_cons, Esp. reflexivity.
Qed.

(** ** Blanks between closing and opening pieces *)

Lemma before_snoc : forall pre a st1, before (pre ++ [a]) st1 ->
  exists st0, before pre st0 /\ pstep alpha st0 a = Ok st1.
Proof.
  intros pre a st1 H. unfold before in *. rewrite pmulti_app in H.
  destruct (pmulti pinit pre) as [st0| | |]; cbn [obind] in H; try discriminate.
  exists st0. split; [reflexivity|]. cbn [pmulti] in H. destruct (pstep alpha st0 a); cbn in H; congruence.
Qed.

Definition closing (t : token) : Prop :=
  wordtok t \/ (exists s, t = TString s) \/ t = TChar CloseParenthese \/ t = TChar CloseBracket.

Lemma closing_push : forall t L, closing t -> push_blank (t :: L) = true /\ blankish t = false.
Proof.
  intros t L [[[s ->]|[e ->]]|[[s ->]|[->| ->]]]; cbn; auto.
Qed.

Lemma last_closing : forall st a st1, closes a -> pstep alpha st a = Ok st1 ->
  exists t L, fillp alpha st1 = t :: L /\ closing t /\ (a = PPunct 0x5D -> t = TChar CloseBracket).
Proof.
  intros st a st1 Ha H.
  assert (Hg : punct_ok a) by (destruct Ha as [[c ->]|[[c ->]|[->| ->]]]; exact I || reflexivity).
  assert (Hs : ~ separator a) by (destruct Ha as [[c ->]|[[c ->]|[->| ->]]]; intros [E|[b E]]; discriminate).
  destruct (last_token st a st1 Hg Hs H) as (t & L & E & Hc). exists t, L. split; [exact E|].
  destruct Ha as [[c ->]|[[c ->]|[->| ->]]]; cbn [last_class piece_token] in Hc.
  - split; [left; exact Hc|discriminate].
  - split; [right; left; eauto|discriminate].
  - destruct Hc as (k & Hk & ->); [discriminate|]. vm_compute in Hk. injection Hk as <-. split; [right; right; left; reflexivity|discriminate].
  - destruct Hc as (k & Hk & ->); [discriminate|]. vm_compute in Hk. injection Hk as <-. split; [right; right; right; reflexivity|reflexivity].
Qed.

(** The state of [hrun] at the start of [post]. *)
Lemma hrun_mid : forall a b h, hrun HN (a ++ b) = Some h -> (exists x y, a = x ++ [y] /\ separator y) ->
  exists h1, hrun h1 b = Some h /\ h1 <> HBs.
Proof.
  intros a b h H (x & y & -> & Hs). rewrite hrun_app in H. destruct (hrun HN (x ++ [y])) as [h1|] eqn:E; [|discriminate].
  exists h1. split; [exact H|]. rewrite hrun_app in E. destruct (hrun HN x) as [h2|]; [|discriminate].
  cbn [hrun] in E. destruct (hstep h2 y) as [h3|] eqn:E3; [|discriminate]. injection E as <-.
  intros ->. destruct Hs as [->|[bd ->]]; cbn in E3; destruct h2; discriminate.
Qed.

Lemma gap_last : forall (pre gap : list piece), gap <> [] -> Forall separator gap ->
  exists x y, pre ++ gap = x ++ [y] /\ separator y.
Proof.
  intros pre gap Hn HF. destruct (exists_last Hn) as (g & y & ->). apply Forall_app in HF. destruct HF as [_ HF].
  inversion HF; subst. exists (pre ++ g), y. split; [apply app_assoc|assumption].
Qed.

Definition first_kept (t n : token) : Prop := is_a_media t = true \/ forall c, retain_blank t (Some n) c = true.

(** The general form: a closing piece before the gap, and a rule for the first token after it. *)
Lemma gap_closing : forall s o pre a gap b post,
  css_minify alpha s = Ok o -> regular s -> gap_between s (pre ++ [a]) gap (b :: post) -> closes a -> ~ separator b ->
  (forall t n, closing t -> (a = PPunct 0x5D -> t = TChar CloseBracket) -> first_class b n -> first_kept t n) ->
  blank_stays o (pre ++ [a]) (b :: post).
Proof.
  intros s o pre a gap b post H Hreg Hgap Ha Hb Hrule.
  destruct (gap_run s o _ _ _ H Hreg Hgap) as (st1 & st2 & v & h & HF & Hv & Ho).
  pose proof HF as (F1 & F2 & F3 & F4 & F5). destruct Hgap as (Hl & Hgn & HG).
  destruct (before_snoc _ _ _ F1) as (st0 & _ & Hst).
  destruct (last_closing _ _ _ Ha Hst) as (t & L & Ef & Ht & Hbr).
  destruct (closing_push t L Ht) as [Hpb Hnb].
  assert (Hag : after_gap st2 (mv st2)) by (eapply gap_after; eauto; left; rewrite Ef; exact Hpb).
  rewrite app_assoc in F5. destruct (hrun_mid _ _ _ F5 (gap_last (pre ++ [a]) gap Hgn HG)) as (h1 & Hh1 & Hnbs).
  apply Forall_app in F4. destruct F4 as [_ F4]. apply Forall_app in F4. destruct F4 as [_ F4].
  destruct (first_token st2 _ b post v h1 h Hag Hb Hh1 Hnbs F4 F3) as (rest & n & En & Hn).
  eapply gap_kept; try eassumption. { repeat split; eassumption. } { left. exact Hpb. }
  destruct (Hrule t n Ht Hbr Hn) as [Hm|Hm]; auto.
Qed.

Lemma word_kept : forall t n, wordtok n \/ (exists s, n = TString s) \/ n = TChar OpenBracket \/ (exists o, n = TSelectorOperator o) ->
  closing t -> first_kept t n.
Proof.
  intros t n Hn Ht. unfold first_kept.
  destruct Ht as [[[s ->]|[e ->]]|[[s ->]|[->| ->]]];
    try (destruct e as [| | | |m]; try (left; reflexivity)); right; intros [|];
    (destruct Hn as [[[s' ->]|[e' ->]]|[[s' ->]|[->|[o' ->]]]]; reflexivity).
Qed.

Theorem gap_close_open : forall s o pre a gap b post,
  css_minify alpha s = Ok o -> regular s -> gap_between s (pre ++ [a]) gap (b :: post) ->
  closes a -> opens b -> blank_stays o (pre ++ [a]) (b :: post).
Proof.
  intros s o pre a gap b post H Hreg Hgap Ha Hb. eapply gap_closing; try eassumption.
  - destruct Hb as [[c ->]|[[c ->]| ->]]; intros [E|[x E]]; discriminate.
  - intros t n Ht _ Hn. apply word_kept; [|exact Ht].
    destruct Hb as [[c ->]|[[c ->]| ->]]; cbn [first_class] in Hn.
    + left. tauto.
    + right. left. cbn in Hn. eauto.
    + destruct Hn as (k & Hk & Hn). vm_compute in Hk. injection Hk as <-.
      destruct Hn as [->|[[E _]|(o' & E & _)]]; [auto|discriminate|discriminate].
Qed.

Theorem gap_close_bracket : forall s o pre gap b post,
  css_minify alpha s = Ok o -> regular s -> gap_between s (pre ++ [PPunct 0x5D]) gap (b :: post) ->
  ~ separator b -> b <> PPunct 0x7B -> blank_stays o (pre ++ [PPunct 0x5D]) (b :: post).
Proof.
  intros s o pre gap b post H Hreg Hgap Hb Hnb.
  assert (Hpo : punct_ok b).
  { destruct Hgap as (Hl & _). pose proof (lex_punct_ok s) as HP. rewrite Hl in HP.
    apply Forall_app in HP. destruct HP as [_ HP]. apply Forall_app in HP. destruct HP as [_ HP]. inversion HP; assumption. }
  eapply gap_closing; try eassumption.
  - right. right. right. reflexivity.
  - intros t n Ht Hbr Hn. rewrite (Hbr eq_refl). right. intro c. unfold retain_blank. cbn [is_the_char rchar_eqb some_and].
    destruct b as [d| | |t0|bd|bd|d]; cbn [first_class piece_token] in Hn; try contradiction;
      try (subst n; reflexivity).
    + destruct Hn as [[[s' ->]|[e' ->]] _]; reflexivity.
    + cbn in Hpo. destruct (punct_char_rchar d Hpo) as (k' & Hk' & Hd & Hu & _).
      destruct Hn as (k & Hk & [->|[[-> Hn]|(o' & _ & ->)]]); [|destruct n; try discriminate; reflexivity|reflexivity].
      assert (k' = k) by congruence. subst k'. cbn. rewrite Hu. cbn. destruct k; try reflexivity. subst d. exfalso. apply Hnb. reflexivity.
Qed.

End Alpha.
