(** Blanks that depend on the place: selectors, declarations, the head of an at-rule, calc. *)
From Coq Require Import String Arith List NArith ZArith Bool Lia ZifyBool ZifyN.
From Verif Require Import Base CssModel CssSpec CssGapSpec CssProofs1 CssProofs2 CssProofs3 CssProofs4 CssProofs5 CssProofs6 CssProofs7.
Import ListNotations.
Open Scope N_scope.

Section Alpha.
Variable alpha : N -> bool.

(** ** The place *)

Definition PI (x : place) (st : pst) : Prop :=
  mblock st = Z.of_nat (depth x) /\ mattr st = bracket x /\
  (at_rule x = false -> mmedia st = false /\ some_and is_a_media (hd_error (mv st)) = false /\ ~ In 0x40 (mseg st)).

Lemma selement_media : forall w m, selement_of alpha w = Some (Media m) -> In 0x40 w.
Proof.
  intros [|c w] m H; cbn in H; [discriminate|].
  destruct (c =? 46); [destruct w; discriminate|]. destruct (c =? 35); [destruct w; discriminate|].
  destruct (N.eqb_spec c 64); [subst; left; reflexivity|]. destruct (c =? 58); [destruct w; discriminate|].
  destruct (is_alphabetic alpha c); discriminate.
Qed.

Lemma fillp_media : forall st, some_and is_a_media (hd_error (mv st)) = false -> ~ In 0x40 (mseg st) ->
  some_and is_a_media (hd_error (fillp alpha st)) = false.
Proof.
  intros st H1 H2. unfold fillp. destruct (mseg st) as [|c w] eqn:E; [exact H1|]. rewrite <- E in *.
  destruct (selector_context _ _ _); [|reflexivity].
  destruct (some_and (is_the_char Colon) (hd_error (mv st))).
  - destruct (mcol st); [|reflexivity]. destruct (selement_of alpha (58 :: mseg st)) as [e|] eqn:Ee; [|reflexivity].
    destruct e; try reflexivity. apply selement_media in Ee. destruct Ee as [Ee|Ee]; [discriminate|contradiction].
  - destruct (selement_of alpha (mseg st)) as [e|] eqn:Ee; [|reflexivity]. destruct e; try reflexivity.
    apply selement_media in Ee. contradiction.
Qed.

Lemma PI_step : forall x st p st', PI x st -> punct_ok p -> pstep alpha st p = Ok st' -> PI (move x p) st'.
Proof.
  intros x st p st' (H1 & H2 & H3) Hp H.
  assert (Hf : at_rule x = false -> some_and is_a_media (hd_error (fillp alpha st)) = false /\ mmedia st = false).
  { intro E. destruct (H3 E) as (A & B & C). split; [|exact A]. apply fillp_media; assumption. }
  assert (Hor : at_rule x = false -> mmedia st || some_and is_a_media (hd_error (fillp alpha st)) = false).
  { intro E. destruct (Hf E) as [-> ->]. reflexivity. }
  destruct p as [c| | |t|b|b|c].
  - cbn [pstep] in H. destruct (mesc st); injection H as <-; (split; [exact H1|]; split; [exact H2|]);
      cbn [move at_rule mk mv mseg mmedia]; intro E; apply orb_false_iff in E; destruct E as [E Ec]; destruct (H3 E) as (A & B & C).
    + repeat split; auto.
    + repeat split; auto. intro Hin. apply in_app_or in Hin. destruct Hin as [Hin|[Hin|[]]]; [contradiction|subst c; discriminate].
  - cbn [pstep] in H. injection H as <-. split; [exact H1|]. split; [exact H2|]. cbn [move mk mv mseg mmedia]. intro E. repeat split; auto.
  - cbn [pstep] in H. injection H as <-. split; [exact H1|]. split; [exact H2|]. cbn [move mk mv mseg mmedia]. intro E. repeat split; auto.
    destruct (push_blank _); [reflexivity|]. apply Hf. exact E.
  - cbn [pstep] in H. injection H as <-. split; [exact H1|]. split; [exact H2|]. cbn [move mk mv mseg mmedia]. intro E. repeat split; auto.
  - cbn [pstep] in H. injection H as <-. split; [exact H1|]. split; [exact H2|]. cbn [move mk mv mseg mmedia]. intro E. repeat split; auto.
  - cbn [pstep] in H. injection H as <-. split; [exact H1|]. split; [exact H2|]. cbn [move mk mv mseg mmedia]. intro E. repeat split; auto.
  - cbn [punct_ok] in Hp. destruct (punct_char_rchar c Hp) as (k & Hk & -> & Hu & N1 & N2 & N3).
    cbn [pstep] in H. rewrite Hk in H. clear Hp Hk.
    destruct k; try congruence; try discriminate Hu; cbn [rchar_show move N.eqb Pos.eqb] in *.
    all: try (injection H as <-; split; [exact H1|]; split; [exact H2|]; cbn [mk mv mseg mmedia]; intro E; repeat split; auto; fail).
    + injection H as <-. split; [cbn [mk mblock depth]; lia|]. split; [exact H2|]. cbn [mk mv mseg mmedia at_rule]; intro E; repeat split; auto.
    + destruct (Z.ltb_spec (mblock st - 1) 0); [discriminate|]. injection H as <-.
      split; [cbn [mk mblock depth]; lia|]. split; [exact H2|]. cbn [mk mv mseg mmedia at_rule]. intro E. split; [|split; [reflexivity|auto]].
      destruct (Z.eqb_spec (mblock st - 1) 0); [reflexivity|]. apply Hor. destruct (pred (depth x)) eqn:Ed; [lia|exact E].
    + destruct (mattr st); [discriminate|]. injection H as <-. split; [exact H1|]. split; [reflexivity|]. cbn [mk mv mseg mmedia at_rule]; intro E; repeat split; auto.
    + destruct (mattr st); [|discriminate]. injection H as <-. split; [exact H1|]. split; [reflexivity|]. cbn [mk mv mseg mmedia at_rule]; intro E; repeat split; auto.
    + injection H as <-. split; [exact H1|]. split; [exact H2|]. cbn [mk mv mseg mmedia at_rule]. intro E. split; [|split; [reflexivity|auto]].
      destruct (Z.eqb_spec (mblock st) 0); [reflexivity|]. apply Hor. destruct (depth x); [lia|exact E].
    + destruct (equal_operator _); injection H as <-; (split; [exact H1|]; split; [exact H2|]; cbn [mk mv mseg mmedia]; intro E; repeat split; auto).
Qed.

Lemma PI_run : forall ps x st st', PI x st -> Forall punct_ok ps -> pmulti alpha st ps = Ok st' -> PI (fold_left move ps x) st'.
Proof.
  induction ps as [|p ps IH]; intros x st st' H HF Hr; cbn [pmulti fold_left] in *; [congruence|].
  inversion HF; subst. destruct (pstep alpha st p) as [st1| | |] eqn:E; cbn [obind] in Hr; try discriminate.
  eapply IH; [|eassumption|exact Hr]. eapply PI_step; eauto.
Qed.

Lemma PI_before : forall ps st, Forall punct_ok ps -> before alpha ps st -> PI (place_after ps) st.
Proof.
  intros ps st HF H. eapply PI_run; [|exact HF|exact H].
  repeat split; auto.
Qed.

Lemma move_separators : forall g x, Forall separator g -> fold_left move g x = x.
Proof. induction 1 as [|p g [->|[b ->]] _ IH]; [reflexivity|exact IH|exact IH]. Qed.

Lemma selector_place : forall ps st, Forall punct_ok ps -> before alpha ps st -> in_selector ps ->
  selector_context (mblock st) (mmedia st) (mattr st) = true.
Proof.
  intros ps st HF H (A & B & C). destruct (PI_before ps st HF H) as (H1 & H2 & H3).
  unfold selector_context. rewrite H1, H2, A, C. destruct (H3 B) as [-> _]. reflexivity.
Qed.

Lemma declaration_place : forall ps st, Forall punct_ok ps -> before alpha ps st -> in_declaration ps ->
  selector_context (mblock st) (mmedia st) (mattr st) = false.
Proof.
  intros ps st HF H Hd. destruct (PI_before ps st HF H) as (H1 & H2 & H3).
  unfold selector_context. apply andb_false_iff. right. rewrite H1.
  destruct Hd as [Hd|[Hd Ha]].
  - apply orb_false_iff. split; apply andb_false_iff; [left|right]; lia.
  - destruct (H3 Ha) as [-> _]. cbn. rewrite orb_false_r. apply andb_false_iff. left. lia.
Qed.

(** ** Runs *)

Lemma before_app : forall a b st, before alpha (a ++ b) st <-> exists st0, before alpha a st0 /\ pmulti alpha st0 b = Ok st.
Proof.
  intros a b st. unfold before. rewrite pmulti_app. split.
  - intro H. destruct (pmulti alpha pinit a) as [st0| | |]; cbn [obind] in H; try discriminate. eauto.
  - intros (st0 & -> & H). exact H.
Qed.

Lemma esc_last : forall q st, Forall punct_ok q -> before alpha q st ->
  (mesc st = true -> exists q', q = q' ++ [PBs]) /\ ((exists q', q = q' ++ [PBs]) -> mesc st = true).
Proof.
  intros q st HF H. destruct q as [|p q _] using rev_ind.
  - cbn in H. injection H as <-. split; [discriminate|]. intros [q' E]. destruct q'; discriminate.
  - destruct (before_snoc alpha q p st H) as (st0 & _ & Hs). apply Forall_app in HF. destruct HF as [_ HF]. inversion HF; subst.
    apply pstep_cases in Hs; [|assumption]. destruct Hs as (_ & _ & Hs). split.
    + intro E. destruct p; try congruence. eauto.
    + intros [q' E]. apply app_inj_tail in E. destruct E as [_ ->]. exact Hs.
Qed.

Lemma run_state : forall q st, Forall punct_ok q -> before alpha q st -> run_starts q -> mseg st = [] /\ mesc st = false.
Proof.
  intros q st HF H [R1 R2]. split.
  - destruct q as [|p q _] using rev_ind.
    + cbn in H. injection H as <-. reflexivity.
    + destruct (before_snoc alpha q p st H) as (st0 & Hb & Hs). apply Forall_app in HF. destruct HF as [HF1 HF]. inversion HF; subst.
      apply pstep_cases in Hs; [|assumption]. destruct Hs as (Hs & Hm & _). destruct p; try exact Hm.
      pose proof (proj2 (esc_last q st0 HF1 Hb) (R2 q c eq_refl)) as E3.
      destruct Hs as [(_ & _ & Hs & _)|(Hs & _)]; congruence.
  - destruct (mesc st) eqn:E; [|reflexivity]. apply (esc_last q st HF H) in E. destruct E as [q' ->]. destruct (R1 q'). reflexivity.
Qed.

Lemma colon_top : forall q st, Forall punct_ok q -> before alpha q st -> mseg st = [] ->
  some_and (is_the_char Colon) (hd_error (mv st)) = true -> colon_before q.
Proof.
  induction q as [|p q IH] using rev_ind; intros st HF H Hm Hc.
  - cbn in H. injection H as <-. discriminate.
  - destruct (before_snoc alpha q p st H) as (st0 & Hb & Hs). apply Forall_app in HF. destruct HF as [HF1 HF]. inversion HF; subst.
    apply pstep_cases in Hs; [|assumption]. destruct Hs as (Hs & _).
    destruct p as [c| | |t|b|b|c]; try (destruct Hs as [Hs _]; rewrite Hs in Hc; discriminate Hc).
    + destruct Hs as [(_ & Hs & _)|(_ & _ & Hs & _)]; [rewrite Hs in Hc; discriminate|].
      rewrite Hs in Hm. apply app_eq_nil in Hm. destruct Hm; discriminate.
    + destruct Hs as [Hs _]. rewrite Hs in Hc. destruct (push_blank _); [discriminate|].
      destruct (fillp_cases alpha st0) as [[E1 E2]|(_ & n & Hn & [E2|(L & s0 & _ & -> & E2)])]; rewrite E2 in Hc; try discriminate.
      * destruct (IH st0 HF1 Hb E1 Hc) as (q' & g & -> & Hg). exists q', (g ++ [PBlank]).
        rewrite <- app_assoc. split; [reflexivity|]. apply Forall_app. auto.
      * destruct Hn as [[? ->]|[? ->]]; discriminate.
    + destruct Hs as (k & Hk & Ec & _ & [[Hs _]|(o & _ & _ & Hs & _)]); rewrite Hs in Hc; [|discriminate].
      cbn in Hc. apply rchar_eqb_eq in Hc. subst k. exists q, []. cbn in Ec. subst c. auto.
Qed.

Lemma before_run : forall q w st1, Forall punct_ok q -> before alpha (q ++ map PChar w) st1 -> run_starts q ->
  exists st0, before alpha q st0 /\ mseg st0 = [] /\ mesc st0 = false /\
    st1 = {| mv := mv st0; mseg := w; mcol := mcol st0; mblock := mblock st0; mmedia := mmedia st0; mattr := mattr st0; mesc := false |}.
Proof.
  intros q w st1 HF H Hr. apply before_app in H. destruct H as (st0 & Hb & H). exists st0. split; [exact Hb|].
  destruct (run_state q st0 HF Hb Hr) as [Hm He]. rewrite pmulti_chars in H by exact He. injection H as <-.
  rewrite Hm. auto.
Qed.

Lemma names_selement : forall w, names_element w -> exists e, selement_of alpha w = Some e.
Proof.
  intros [|c r] H; [contradiction|]. cbn [names_element] in H. cbn [selement_of].
  assert (Hne : r <> [] -> forall (k : str -> selement), exists e, match r with [] => None | _ => Some (k r) end = Some e).
  { intros Hr k. destruct r; [congruence|]. eauto. }
  destruct H as [H|[[->| ->] H]].
  - unfold ascii_letter in H.
    destruct (N.eqb_spec c 46); [subst; discriminate|]. destruct (N.eqb_spec c 35); [subst; discriminate|].
    destruct (N.eqb_spec c 64); [subst; discriminate|]. destruct (N.eqb_spec c 58); [subst; discriminate|].
    replace (is_alphabetic alpha c) with true; [eauto|]. unfold is_alphabetic, ascii_alphabetic. rewrite H.
    destruct (c <? 128) eqn:E; [reflexivity|]. lia.
  - apply (Hne H Class).
  - apply (Hne H Id).
Qed.

Lemma simple_selector_token : forall q w st1, Forall punct_ok q -> before alpha (q ++ map PChar w) st1 ->
  in_selector (q ++ map PChar w) -> simple_selector q w -> exists e L, fillp alpha st1 = TSelectorElement e :: L.
Proof.
  intros q w st1 HF H Hin (Hr & Hw & Hs).
  assert (Hsel : selector_context (mblock st1) (mmedia st1) (mattr st1) = true).
  { eapply selector_place; [|exact H|exact Hin]. apply Forall_app. split; [exact HF|]. clear. induction w; constructor; auto. exact I. }
  destruct (before_run q w st1 HF H Hr) as (st0 & Hb & Hm & He & ->).
  cbn [mblock mmedia mattr] in Hsel. unfold fillp. cbn [mv mseg mcol mblock mmedia mattr]. rewrite Hsel.
  destruct w as [|c w]; [congruence|].
  destruct Hs as [[q' ->]|[Hn Hc]].
  - destruct (before_snoc alpha q' (PPunct 58) st0 Hb) as (st' & _ & Hst). apply pstep_cases in Hst; [|reflexivity].
    destruct Hst as ((k & Hk & _ & _ & [[Ev Ec]|(o & -> & _)]) & _); [|discriminate Hk].
    vm_compute in Hk. injection Hk as <-. rewrite Ev, Ec. cbn. eauto.
  - destruct (some_and (is_the_char Colon) (hd_error (mv st0))) eqn:E.
    + exfalso. apply Hc. eapply colon_top; eauto.
    + destruct (names_selement _ Hn) as [e ->]. eauto.
Qed.

(** ** The general rule *)

Lemma gap_rule : forall s o pre gap b post,
  css_minify alpha s = Ok o -> regular s -> gap_between s pre gap (b :: post) -> ~ separator b ->
  (forall st1, before alpha pre st1 -> Forall punct_ok pre ->
     exists t L, fillp alpha st1 = t :: L /\ (push_blank (t :: L) = true \/ commented gap) /\ blankish t = false /\
     forall st2 v h1 h2, before alpha (pre ++ gap) st2 -> after_gap st2 (mv st2) -> hrun h1 (b :: post) = Some h2 -> h1 <> HBs ->
       Forall punct_ok ((pre ++ gap) ++ b :: post) -> prun alpha st2 (b :: post) None = Ok v ->
       exists rest n, v = rev (mv st2) ++ n :: rest /\
         (is_a_media t = true \/ retain_blank t (Some n) (fst (calcs (false, 0%Z) (rev (t :: L)))) = true)) ->
  blank_stays o pre (b :: post).
Proof.
  intros s o pre gap b post H Hreg Hgap Hb Hrule.
  destruct (gap_run alpha s o _ _ _ H Hreg Hgap) as (st1 & st2 & v & h & HF & Hv & Ho).
  pose proof HF as (F1 & F2 & F3 & F4 & F5). pose proof Hgap as (Hl & Hgn & HG).
  destruct (Hrule st1 F1) as (t & L & Ef & Hpb & Hnb & Hr); [apply Forall_app in F4; tauto|].
  assert (Hag : after_gap st2 (mv st2)) by (eapply gap_after; eauto; rewrite Ef; exact Hpb).
  rewrite app_assoc in F4, F5. destruct (hrun_mid _ _ _ F5 (gap_last pre gap Hgn HG)) as (h1 & Hh1 & Hnbs).
  destruct (Hr st2 v h1 h) as (rest & n & En & Hn); try assumption.
  { apply before_app. eauto. }
  eapply gap_kept; try eassumption.
Qed.

Lemma after_post : forall st2 b post v h1 h2 l, after_gap st2 (mv st2) -> ~ separator b -> hrun h1 (b :: post) = Some h2 -> h1 <> HBs ->
  Forall punct_ok (l ++ b :: post) -> prun alpha st2 (b :: post) None = Ok v ->
  exists rest n, v = rev (mv st2) ++ n :: rest /\ first_class b n.
Proof.
  intros st2 b post v h1 h2 l Hag Hb Hh Hn HF Hv. apply Forall_app in HF. destruct HF as [_ HF].
  eapply first_token; eauto.
Qed.

(** ** Selectors *)

Theorem gap_selector_star : forall s o q w gap post,
  css_minify alpha s = Ok o -> regular s -> gap_between s (q ++ map PChar w) gap (PPunct 0x2A :: post) ->
  in_selector (q ++ map PChar w) -> simple_selector q w ->
  blank_stays o (q ++ map PChar w) (PPunct 0x2A :: post).
Proof.
  intros s o q w gap post H Hreg Hgap Hin Hs.
  assert (Hb : ~ separator (PPunct 0x2A)) by (intros [E|[b E]]; discriminate).
  eapply gap_rule; try eassumption. intros st1 H1 HF1.
  destruct (simple_selector_token q w st1) as (e & L & Ef); try assumption. { apply Forall_app in HF1. tauto. }
  exists (TSelectorElement e), L. split; [exact Ef|]. split; [left; reflexivity|]. split; [reflexivity|].
  intros st2 v h1 h2 H2 Hag Hh Hnb HF Hv.
  destruct (after_post st2 _ _ v h1 h2 _ Hag Hb Hh Hnb HF Hv) as (rest & n & En & k & Hk & Hn). exists rest, n. split; [exact En|].
  vm_compute in Hk. injection Hk as <-.
  destruct Hn as [->|[[E _]|(o' & E & ->)]]; [right; reflexivity|discriminate|].
  destruct (word_kept (TSelectorElement e) (TSelectorOperator o')) as [Hm|Hm]; eauto.
  left. right. eauto.
Qed.

Lemma in_selector_gap : forall pre gap, Forall separator gap -> in_selector pre -> in_selector (pre ++ gap).
Proof.
  intros pre gap HG H. unfold in_selector, place_after in *. rewrite fold_left_app, (move_separators gap) by exact HG. exact H.
Qed.

Lemma hrun_wordc : forall w r h h', hrun h (map PChar w ++ r) = Some h' -> h <> HBs -> Forall (fun c => wordc c = true) w.
Proof.
  induction w as [|c w IH]; intros r h h' H Hh; constructor; cbn [map app hrun] in H.
  - destruct (hstep h (PChar c)) eqn:E; [|discriminate]. cbn in E. destruct h; try congruence; destruct (wordc c); congruence.
  - destruct (hstep h (PChar c)) as [h2|] eqn:E2; [|discriminate]. eapply IH; [exact H|].
    cbn in E2. destruct h; try congruence; destruct (wordc c); try discriminate; injection E2 as <-; try discriminate;
        destruct (c =? 64); discriminate.
Qed.

Theorem gap_star_selector : forall s o q w gap post,
  css_minify alpha s = Ok o -> regular s -> gap_between s (q ++ [PPunct 0x2A]) gap (map PChar w ++ post) ->
  in_selector q -> names_element w -> match post with PChar _ :: _ => False | _ => True end ->
  blank_stays o (q ++ [PPunct 0x2A]) (map PChar w ++ post).
Proof.
  intros s o q w gap post H Hreg Hgap Hin Hw Hpost. pose proof Hgap as (_ & _ & HG).
  assert (Hin' : in_selector (q ++ [PPunct 0x2A])).
  { unfold in_selector, place_after in *. rewrite fold_left_app. exact Hin. }
  destruct w as [|c w]; [contradiction|]. cbn [map app] in Hgap |- *.
  eapply gap_rule; try eassumption. { intros [E|[b E]]; discriminate. }
  intros st1 H1 HF1. apply before_snoc in H1. destruct H1 as (st0 & _ & Hst).
  destruct (last_token alpha st0 (PPunct 0x2A) st1) as (t & L & Ef & Hc); try assumption.
  { reflexivity. } { intros [E|[b E]]; discriminate. }
  destruct Hc as (k & Hk & ->); [discriminate|]. vm_compute in Hk. injection Hk as <-.
  exists (TChar Star), L. split; [exact Ef|]. split; [left; reflexivity|]. split; [reflexivity|].
  intros st2 v h1 h2 H2 Hag Hh Hnb HF Hv.
  destruct (first_word alpha st2 _ (c :: w) post v Hag) as (rest & n & En & E); try assumption; try discriminate.
  { eapply hrun_wordc; [exact Hh|exact Hnb]. }
  { apply Forall_app in HF. destruct HF as [_ HF]. apply Forall_inv_tail in HF. apply Forall_app in HF. tauto. }
  exists rest, n. split; [exact En|].
  rewrite (selector_place (((q ++ [PPunct 0x2A]) ++ gap)) st2) in E.
  - destruct (names_selement _ Hw) as [e He]. rewrite He in E. subst n. right. reflexivity.
  - apply Forall_app in HF. tauto.
  - exact H2.
  - apply in_selector_gap; assumption.
Qed.

(** The signs of the attribute operators and the equal sign are not joined. *)
Theorem gap_sign_equal : forall s o q c gap post,
  css_minify alpha s = Ok o -> regular s -> gap_between s (q ++ [PPunct c]) gap (PPunct 0x3D :: post) ->
  c = 0x2A \/ In c (S_ "^$~") /\ commented gap ->
  blank_stays o (q ++ [PPunct c]) (PPunct 0x3D :: post).
Proof.
  intros s o q c gap post H Hreg Hgap Hc.
  assert (Hb : ~ separator (PPunct 0x3D)) by (intros [E|[b E]]; discriminate).
  eapply gap_rule; try eassumption.
  intros st1 H1 HF1. apply before_snoc in H1. destruct H1 as (st0 & _ & Hst).
  assert (Hc' : punct_ok (PPunct c) /\ c <> 0x3D).
  { apply Forall_app in HF1. destruct HF1 as [_ X]. inversion X; subst. split; [assumption|].
    intros ->. cbn in Hc. intuition discriminate. }
  destruct Hc' as [Hpc Hne].
  destruct (last_token alpha st0 (PPunct c) st1) as (t & L & Ef & Ht); try assumption.
  { intros [E|[b E]]; discriminate. }
  destruct Ht as (k & Hk & ->); [exact Hne|].
  assert (Hkk : (k = Star \/ (k = Circumflex \/ k = Dollar \/ k = Tilde) /\ commented gap)).
  { destruct Hc as [->|[Hin Hg]]; [left; vm_compute in Hk; congruence|]. right. split; [|exact Hg].
    cbn in Hin. repeat (destruct Hin as [<-|Hin]); [..|contradiction]; cbn in Hk; injection Hk as <-; tauto. }
  exists (TChar k), L. split; [exact Ef|].
  split; [destruct Hkk as [->|[_ Hg]]; [left; reflexivity|right; exact Hg]|].
  split; [destruct Hkk as [->|[[->|[->| ->]] _]]; reflexivity|].
  intros st2 v h1 h2 H2 Hag Hh Hnb HF Hv.
  destruct (after_post st2 _ _ v h1 h2 _ Hag Hb Hh Hnb HF Hv) as (rest & n & En & k' & Hk' & Hn). exists rest, n. split; [exact En|].
  vm_compute in Hk'. injection Hk' as <-.
  destruct Hn as [->|[[E _]|(o' & E & ->)]]; [|discriminate|discriminate].
  right. destruct Hkk as [->|[[->|[->| ->]] _]]; reflexivity.
Qed.

Theorem gap_pseudo : forall s o q a gap c post,
  css_minify alpha s = Ok o -> regular s -> gap_between s (q ++ [a]) gap (PPunct 0x3A :: PChar c :: post) ->
  closes a -> in_selector (q ++ [a]) -> blank_stays o (q ++ [a]) (PPunct 0x3A :: PChar c :: post).
Proof.
  intros s o q a gap c post H Hreg Hgap Ha Hin. pose proof Hgap as (_ & _ & HG).
  eapply gap_rule; try eassumption. { intros [E|[b E]]; discriminate. }
  intros st1 H1 HF1. apply before_snoc in H1. destruct H1 as (st0 & _ & Hst).
  destruct (last_closing alpha _ _ _ Ha Hst) as (t & L & Ef & Ht & _). destruct (closing_push t L Ht) as [Hpb Hnbk].
  exists t, L. split; [exact Ef|]. split; [left; exact Hpb|]. split; [exact Hnbk|].
  intros st2 v h1 h2 H2 Hag Hh Hnb HF Hv.
  destruct (first_pseudo alpha st2 _ c post v Hag) as (rest & n & En & E); try assumption.
  { eapply selector_place; [|exact H2|apply in_selector_gap; assumption]. apply Forall_app in HF. tauto. }
  { apply Forall_app in HF. destruct HF as [_ HF]. apply Forall_inv_tail in HF. apply Forall_inv_tail in HF. exact HF. }
  exists rest, n. split; [exact En|].
  destruct (word_kept t n) as [Hm|Hm]; auto.
  left. right. destruct n; try discriminate. eauto.
Qed.

(** ** Declarations and heads of at-rules *)

Lemma other_paren : forall n, first_class (PPunct 0x28) n -> n = TChar OpenParenthese.
Proof.
  intros n (k & Hk & Hn). vm_compute in Hk. injection Hk as <-.
  destruct Hn as [->|[[E _]|(o' & E & ->)]]; [reflexivity|discriminate|discriminate].
Qed.

Lemma other_token : forall q c st1, Forall punct_ok q -> before alpha (q ++ [PChar c]) st1 ->
  selector_context (mblock st1) (mmedia st1) (mattr st1) = false -> exists w L, fillp alpha st1 = TOther w :: L.
Proof.
  intros q c st1 HF H Hs. apply before_snoc in H. destruct H as (st0 & _ & Hst). apply pstep_cases in Hst; [|exact I].
  destruct Hst as ([(_ & Ev & Em & _)|(_ & Ev & Em & _)] & _).
  - unfold fillp. rewrite Em, Ev. eauto.
  - unfold fillp. rewrite Hs. destruct (mseg st1) as [|d w]; [|eauto]. symmetry in Em. apply app_eq_nil in Em. destruct Em; discriminate.
Qed.

Lemma gap_other_paren : forall s o q c gap post,
  css_minify alpha s = Ok o -> regular s -> gap_between s (q ++ [PChar c]) gap (PPunct 0x28 :: post) ->
  (forall st1, before alpha (q ++ [PChar c]) st1 -> Forall punct_ok (q ++ [PChar c]) ->
     selector_context (mblock st1) (mmedia st1) (mattr st1) = false) ->
  blank_stays o (q ++ [PChar c]) (PPunct 0x28 :: post).
Proof.
  intros s o q c gap post H Hreg Hgap Hctx.
  assert (Hb : ~ separator (PPunct 0x28)) by (intros [E|[b E]]; discriminate).
  eapply gap_rule; try eassumption. intros st1 H1 HF1.
  destruct (other_token q c st1) as (w & L & Ef); auto. { apply Forall_app in HF1. tauto. }
  exists (TOther w), L. split; [exact Ef|]. split; [left; reflexivity|]. split; [reflexivity|].
  intros st2 v h1 h2 H2 Hag Hh Hnb HF Hv.
  destruct (after_post st2 _ _ v h1 h2 _ Hag Hb Hh Hnb HF Hv) as (rest & n & En & Hn). exists rest, n. split; [exact En|].
  rewrite (other_paren n Hn). right. reflexivity.
Qed.

Theorem gap_declaration_paren : forall s o q c gap post,
  css_minify alpha s = Ok o -> regular s -> gap_between s (q ++ [PChar c]) gap (PPunct 0x28 :: post) ->
  in_declaration (q ++ [PChar c]) -> blank_stays o (q ++ [PChar c]) (PPunct 0x28 :: post).
Proof.
  intros s o q c gap post H Hreg Hgap Hin. eapply gap_other_paren; try eassumption.
  intros st1 H1 HF1. eapply declaration_place; eauto.
Qed.

(** The token of an at-keyword. *)
Lemma at_keyword_token : forall ps st1, Forall punct_ok ps -> before alpha ps st1 -> at_keyword ps ->
  exists m L, fillp alpha st1 = TSelectorElement (Media m) :: L.
Proof.
  intros ps st1 HF H (q & name & -> & Hn & Hr & Hin & Hc).
  change (PChar 64 :: map PChar name) with (map PChar (64 :: name)) in *.
  assert (HFq : Forall punct_ok q) by (apply Forall_app in HF; tauto).
  destruct (before_run q (64 :: name) st1 HFq H Hr) as (st0 & Hb & Hm & He & ->).
  pose proof (selector_place q st0 HFq Hb Hin) as Hsel.
  unfold fillp. cbn [mv mseg mcol mblock mmedia mattr]. rewrite Hsel.
  destruct (some_and (is_the_char Colon) (hd_error (mv st0))) eqn:E.
  - exfalso. apply Hc. eapply colon_top; eauto.
  - cbn. destruct name; [congruence|]. eauto.
Qed.

Theorem gap_at_keyword : forall s o pre gap b post,
  css_minify alpha s = Ok o -> regular s -> gap_between s pre gap (b :: post) -> ~ separator b ->
  at_keyword pre -> blank_stays o pre (b :: post).
Proof.
  intros s o pre gap b post H Hreg Hgap Hb Hat.
  eapply gap_rule; try eassumption. intros st1 H1 HF1.
  destruct (at_keyword_token pre st1 HF1 H1 Hat) as (m & L & Ef).
  exists (TSelectorElement (Media m)), L. split; [exact Ef|]. split; [left; reflexivity|]. split; [reflexivity|].
  intros st2 v h1 h2 H2 Hag Hh Hnb HF Hv.
  destruct (after_post st2 _ _ v h1 h2 _ Hag Hb Hh Hnb HF Hv) as (rest & n & En & Hn). exists rest, n. auto.
Qed.

Lemma media_stays : forall r st st', Forall punct_ok r ->
  Forall (fun p => p <> PPunct 0x7B /\ p <> PPunct 0x7D /\ p <> PPunct 0x3B) r ->
  pmulti alpha st r = Ok st' -> mmedia st = true -> mblock st = 0%Z -> mmedia st' = true /\ mblock st' = 0%Z.
Proof.
  induction r as [|p r IH]; intros st st' HF HN H Hm Hb; cbn [pmulti] in H; [injection H as <-; auto|].
  inversion HF as [|? ? Hp HF']; subst. inversion HN as [|? ? (N1 & N2 & N3) HN']; subst.
  destruct (pstep alpha st p) as [st1| | |] eqn:E; cbn [obind] in H; try discriminate.
  eapply IH; [exact HF'|exact HN'|exact H| |]; clear IH H.
  all: destruct p as [c| | |t|b|b|c]; cbn [pstep] in E; try (injection E as <-; cbn; rewrite ?Hm; auto; fail).
  all: try (destruct (mesc st); injection E as <-; cbn; auto; fail).
  all: cbn [punct_ok] in Hp; destruct (punct_char_rchar c Hp) as (k & Hk & -> & Hu & K1 & K2 & K3); rewrite Hk in E;
       destruct k; try congruence; try discriminate Hu; try (destruct (N1 eq_refl)); try (destruct (N2 eq_refl)); try (destruct (N3 eq_refl));
       try (injection E as <-; cbn; rewrite ?Hm; auto; fail).
  all: try (destruct (mattr st); try discriminate; injection E as <-; cbn; rewrite ?Hm; auto; fail).
  all: destruct (equal_operator _); injection E as <-; cbn; rewrite ?Hm; auto.
Qed.

Lemma in_at_head_context : forall ps st, Forall punct_ok ps -> before alpha ps st -> in_at_head ps ->
  selector_context (mblock st) (mmedia st) (mattr st) = false.
Proof.
  intros ps st HF H (k & x & r & -> & Hk & Hx & HN).
  apply before_app in H. destruct H as (st1 & H1 & H). apply Forall_app in HF. destruct HF as [HFk HF].
  destruct (at_keyword_token k st1 HFk H1 Hk) as (m & L & Ef).
  assert (Hb : mblock st1 = 0%Z).
  { destruct Hk as (q & name & -> & Hn & Hr & (D & _) & Hc). apply Forall_app in HFk. destruct HFk as [HFq _].
    destruct (before_run q (64 :: name) st1 HFq H1 Hr) as (st0 & Hb & _ & _ & ->). cbn [mblock].
    destruct (PI_before q st0 HFq Hb) as (E & _). rewrite E, D. reflexivity. }
  cbn [pmulti] in H. inversion HF as [|? ? Hxp HFr]; subst. inversion HN as [|? ? Hxn HNr]; subst. destruct (pstep alpha st1 x) as [st2| | |] eqn:E; cbn [obind] in H; try discriminate.
  assert (H2 : mmedia st2 = true /\ mblock st2 = 0%Z).
  { clear H. destruct Hxn as (N1 & N2 & N3).
    destruct x as [c| | |t|b|b|c]; cbn [pstep] in E; try rewrite Ef in E; try (exfalso; apply Hx; right; eauto; fail).
    all: try (injection E as <-; cbn; rewrite ?orb_true_r; auto; fail).
    cbn [punct_ok] in Hxp. destruct (punct_char_rchar c Hxp) as (k0 & Hk0 & -> & Hu & K1 & K2 & K3).
    rewrite Hk0 in E.
    destruct k0; try congruence; try discriminate Hu; try (destruct (N1 eq_refl)); try (destruct (N2 eq_refl)); try (destruct (N3 eq_refl));
       try (injection E as <-; cbn; rewrite ?orb_true_r; auto; fail).
    all: try (destruct (mattr st1); try discriminate; injection E as <-; cbn; rewrite ?orb_true_r; auto; fail). }
  destruct H2 as [A B]. destruct (media_stays r st2 st) as [C D]; try assumption.
  unfold selector_context. rewrite C, D. cbn. apply andb_false_r.
Qed.

Theorem gap_at_head_paren : forall s o q c gap post,
  css_minify alpha s = Ok o -> regular s -> gap_between s (q ++ [PChar c]) gap (PPunct 0x28 :: post) ->
  in_at_head (q ++ [PChar c]) -> blank_stays o (q ++ [PChar c]) (PPunct 0x28 :: post).
Proof.
  intros s o q c gap post H Hreg Hgap Hin. eapply gap_other_paren; try eassumption.
  intros st1 H1 HF1. eapply in_at_head_context; eauto.
Qed.

End Alpha.
