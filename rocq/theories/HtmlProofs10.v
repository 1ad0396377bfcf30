(** The stages of the minifier on the parts of a document: white space and quotation marks. *)
From Coq Require Import String List NArith Bool Arith Lia ZifyBool ZifyN.
From Verif Require Import Base HtmlModel HtmlSpec HtmlSyntaxSpec HtmlProofs1 HtmlProofs2 HtmlProofs3 HtmlProofs4 HtmlProofs5 HtmlProofs6 HtmlProofs8 HtmlProofs9.
Import ListNotations.
Open Scope N_scope.

(** ** Cutting a text at a character that is not white space *)

Ltac flat := repeat (progress (cbn; rewrite <- ?app_assoc)); reflexivity.

Definition solid (s : str) : Prop := Forall (fun c => is_whitespace c = false) s.

Lemma skeleton_solid_app : forall a c b, is_whitespace c = false -> skeleton (a ++ c :: b) = skeleton a ++ c :: skeleton b.
Proof.
  induction a as [|x a IH]; intros c b Hc.
  - cbn [app]. now rewrite skeleton_cons, Hc.
  - cbn [app]. rewrite !skeleton_cons, IH by exact Hc. destruct (is_whitespace x); [|reflexivity].
    destruct (blank_cons_cases (skeleton a)) as [(u & Eu & E) | E]; rewrite E.
    + rewrite Eu. reflexivity.
    + destruct (blank_cons_cases (skeleton a ++ c :: skeleton b)) as [(u & Eu & E2) | E2]; [|exact E2].
      destruct (skeleton a) as [|y t]; cbn in Eu; injection Eu as -> Eu.
      * discriminate.
      * cbn in E. discriminate E || (exfalso; apply (f_equal (@length N)) in E; cbn in E; lia).
Qed.

Lemma skeleton_cut_at : forall d X c Y, is_whitespace c = false -> skeleton d = X ++ c :: Y ->
  exists a b, d = a ++ c :: b /\ skeleton a = X /\ skeleton b = Y.
Proof.
  induction d as [|e d IH]; intros X c Y Hc E.
  - destruct X; discriminate.
  - rewrite skeleton_cons in E. destruct (is_whitespace e) eqn:Ee.
    + destruct (blank_cons_cases (skeleton d)) as [(u & Eu & E2) | E2]; rewrite E2 in E.
      * destruct (IH X c Y Hc E) as (a & b & -> & Ea & Eb). exists (e :: a), b. repeat split; [|exact Eb].
        rewrite skeleton_cons, Ee, Ea. rewrite E in Eu. destruct X as [|x X]; cbn in Eu; injection Eu as -> _; [discriminate|]. reflexivity.
      * destruct X as [|x X]; [cbn in E; injection E as <- _; discriminate|]. cbn in E. injection E as <- E.
        destruct (IH X c Y Hc E) as (a & b & -> & Ea & Eb). exists (e :: a), b. repeat split; [|exact Eb].
        rewrite skeleton_cons, Ee, Ea. rewrite E in E2. destruct (blank_cons_cases X) as [(u & Eu & E3) | E3]; [|exact E3].
        rewrite Eu in E2. cbn in E2. injection E2 as E2. exfalso. apply (f_equal (@length N)) in E2. cbn in E2. lia.
    + destruct X as [|x X]; cbn in E; injection E as -> E.
      * exists [], d. auto.
      * destruct (IH X c Y Hc E) as (a & b & -> & Ea & Eb). exists (x :: a), b. repeat split; [|exact Eb].
        now rewrite skeleton_cons, Ee, Ea.
Qed.

Lemma skeleton_cut : forall d a c b, is_whitespace c = false -> skeleton d = skeleton (a ++ c :: b) ->
  exists a' b', d = a' ++ c :: b' /\ skeleton a' = skeleton a /\ skeleton b' = skeleton b.
Proof. intros d a c b Hc E. rewrite skeleton_solid_app in E by exact Hc. now apply skeleton_cut_at. Qed.

Lemma skeleton_nil : forall s, skeleton s = [] -> s = [].
Proof.
  intros [|c s] E; [reflexivity|]. rewrite skeleton_cons in E. destruct (is_whitespace c); [|discriminate].
  destruct (blank_cons_cases (skeleton s)) as [(u & Eu & E2) | E2]; rewrite E2 in E; [|discriminate].
  rewrite E in Eu. discriminate.
Qed.

Lemma skeleton_word : forall k d r, solid k -> skeleton d = skeleton (k ++ r) -> exists r', d = k ++ r' /\ skeleton r' = skeleton r.
Proof.
  intros k d r F. revert d. induction F as [|c k Hc F IH]; intros d E.
  - exists d. auto.
  - destruct (skeleton_cut d [] c (k ++ r) Hc E) as (a & b & -> & Ea & Eb). apply skeleton_nil in Ea. subst a.
    destruct (IH b Eb) as (r' & -> & Er). exists r'. auto.
Qed.

Lemma skeleton_in : forall c s, is_whitespace c = false -> In c (skeleton s) <-> In c s.
Proof.
  intros c s Hc. induction s as [|x s IH]; [reflexivity|]. rewrite skeleton_cons. destruct (is_whitespace x) eqn:Ex.
  - assert (In c (blank_cons (skeleton s)) <-> In c (skeleton s)) as ->.
    { destruct (blank_cons_cases (skeleton s)) as [(u & Eu & E2) | E2]; rewrite E2; [reflexivity|].
      cbn. split; [intros [<- | K]; [discriminate | exact K] | auto]. }
    rewrite IH. cbn. split; [auto | intros [-> | K]; [congruence | exact K]].
  - cbn. rewrite IH. reflexivity.
Qed.

Lemma same_in : forall c s t, is_whitespace c = false -> skeleton s = skeleton t -> In c s -> In c t.
Proof. intros c s t Hc E I. apply (skeleton_in c t Hc). rewrite <- E. now apply skeleton_in. Qed.

Lemma skeleton_blanks : forall w w', blanks w -> skeleton w' = skeleton w -> blanks w' /\ (w = [] <-> w' = []).
Proof.
  intros w w' W E. split.
  - apply Forall_forall. intros c I. unfold blank. destruct (is_whitespace c) eqn:Ec; [reflexivity|]. exfalso.
    apply (same_in c w' w Ec E) in I. unfold blanks in W. rewrite Forall_forall in W. apply W in I. unfold blank in I. congruence.
  - split; intros ->; [now apply skeleton_nil | symmetry in E; now apply skeleton_nil].
Qed.

Lemma blanks_html : forall w s, blanks w -> html_blanks s -> (forall c, In c w -> In c s) -> html_run w.
Proof.
  intros w s W H I. apply Forall_forall. intros c K. apply H; [now apply I|]. unfold blanks in W. rewrite Forall_forall in W. now apply W.
Qed.

Lemma occurs_skeleton : forall p v v', p <> [] -> solid p -> skeleton v = skeleton v' -> occurs p v' -> occurs p v.
Proof.
  intros [|c p] v v' Np Sp E (x & y & ->); [contradiction|]. inversion Sp as [|? ? Hc Sp']; subst.
  destruct (skeleton_cut v x c (p ++ y) Hc E) as (a & b & -> & Ea & Eb).
  destruct (skeleton_word p b y Sp' Eb) as (r' & -> & _). exists a, r'. reflexivity.
Qed.

(** ** Parts with other white space *)

Definition sim_value (v v' : option (str * str * option N * str)) : Prop :=
  match v, v' with
  | None, None => True
  | Some (w1, w2, q, v), Some (w1', w2', q', v') =>
      q' = q /\ skeleton v' = skeleton v /\ (w1' = [] -> w1 = []) /\ (w2' = [] -> w2 = [])
  | _, _ => False
  end.

Definition sim_attribute (a a' : attribute) : Prop := a_name a' = a_name a /\ sim_value (a_value a) (a_value a').

Inductive sim : part -> part -> Prop :=
| si_doctype : forall s s', skeleton s' = skeleton s -> sim (PDoctype s) (PDoctype s')
| si_end : forall n w w', (w' = [] -> w = []) -> sim (PEnd n w) (PEnd n w')
| si_start : forall n l l' w w' sl, Forall2 sim_attribute l l' -> (w' = [] -> w = []) ->
    sim (PStart n l w sl) (PStart n l' w' sl).

Lemma quoted_solid : forall q, q = dquote \/ q = squote -> is_whitespace q = false.
Proof. intros q [-> | ->]; reflexivity. Qed.

Lemma quoted_respaced : forall q v v', q = dquote \/ q = squote -> Forall (fun c => quoted_char q c = true) v -> skeleton v' = skeleton v ->
  Forall (fun c => quoted_char q c = true) v'.
Proof.
  intros q v v' Hq F E. apply Forall_forall. intros c I. unfold quoted_char. cbn.
  destruct (N.eqb_spec c q) as [-> | N1]; [|destruct (N.eqb_spec c lt) as [-> | N2]; [|destruct (N.eqb_spec c gt) as [-> | N3]; [|reflexivity]]];
    exfalso; rewrite Forall_forall in F.
  - apply (same_in q v' v (quoted_solid q Hq) E), F in I. unfold quoted_char in I. cbn in I. rewrite N.eqb_refl in I. discriminate.
  - apply (same_in lt v' v eq_refl E), F in I. unfold quoted_char in I. cbn in I. rewrite orb_true_r in I. discriminate.
  - apply (same_in gt v' v eq_refl E), F in I. unfold quoted_char in I. cbn in I. rewrite !orb_true_r in I. discriminate.
Qed.

Lemma html_blanks_tail : forall c s, html_blanks (c :: s) -> html_blanks s.
Proof. intros c s H x I. apply H. now right. Qed.

(** White space before a solid character. *)
Lemma run_cut : forall w c r d, html_run w -> is_whitespace c = false -> html_blanks d -> skeleton d = skeleton (w ++ c :: r) ->
  exists w' r', d = w' ++ c :: r' /\ html_run w' /\ (w = [] <-> w' = []) /\ skeleton r' = skeleton r /\ html_blanks r'.
Proof.
  intros w c r d W Hc HB E. destruct (skeleton_cut d w c r Hc E) as (a & b & -> & Ea & Eb).
  destruct (skeleton_blanks w a (html_run_blanks w W) Ea) as (A1 & A2).
  apply html_blanks_app in HB. destruct HB as [HB1 HB2]. exists a, b. repeat split; try tauto.
  - apply (blanks_html a a); auto.
  - exact (html_blanks_tail _ _ HB2).
Qed.

Lemma word_cut : forall k r d, solid k -> html_blanks d -> skeleton d = skeleton (k ++ r) ->
  exists r', d = k ++ r' /\ skeleton r' = skeleton r /\ html_blanks r'.
Proof.
  intros k r d S HB E. destruct (skeleton_word k d r S E) as (r' & -> & Er). exists r'.
  apply html_blanks_app in HB. tauto.
Qed.

Lemma respaced_attribute : forall a r d, attribute_ok a -> html_blanks (attribute_text a) -> html_blanks d ->
  skeleton d = skeleton (attribute_text a ++ r) ->
  exists a' r', d = attribute_text a' ++ r' /\ attribute_ok a' /\ sim_attribute a a' /\ skeleton r' = skeleton r /\ html_blanks r'.
Proof.
  intros [g n v] r d (Hg & G & Hn & Fn & V) HA HB E. unfold attribute_text in *. cbn [a_gap a_name a_value] in *.
  apply html_blanks_app in HA. destruct HA as [_ HA]. apply html_blanks_app in HA. destruct HA as [HA1 HA2].
  pose proof (names_solid name_char _ HA1 (fun c H => proj1 (name_not c H)) Fn) as Sn.
  rewrite <- !app_assoc in E. destruct n as [|c n]; [contradiction|]. inversion Sn as [|? ? Hc Sn']; subst.
  destruct (run_cut g c (n ++ value_text v ++ r) d G Hc HB E) as (g' & d1 & -> & G' & Gi & E1 & HB1).
  destruct (word_cut n _ d1 Sn' HB1 E1) as (d2 & -> & E2 & HB2).
  assert (Hg' : g' <> []) by (intros ->; apply Hg; now apply Gi).
  destruct v as [[[[w1 w2] q] v]|].
  2:{ exists (Attribute g' (c :: n) None), d2. cbn [value_text app] in *. unfold attribute_text, attribute_ok, sim_attribute.
      cbn [a_gap a_name a_value value_text value_ok sim_value]. rewrite app_nil_r, <- app_assoc. repeat split; try assumption. }
  cbn [value_text value_ok] in *. rewrite <- !app_assoc in E2.
  assert (W1 : html_run w1) by (destruct q; tauto). assert (W2 : html_run w2) by (destruct q; tauto).
  destruct (run_cut w1 0x3D (w2 ++ quotes_text q v ++ r) d2 W1 eq_refl HB2 E2) as (w1' & d3 & -> & W1' & I1 & E3 & HB3).
  do 3 (apply html_blanks_app in HA2; destruct HA2 as [_ HA2]).
  destruct q as [q|]; cbn [quotes_text] in *.
  - destruct V as (_ & _ & Hq & Fv). cbn [app] in E3. rewrite <- app_assoc in E3. cbn [app] in E3.
    destruct (run_cut w2 q (v ++ q :: r) d3 W2 (quoted_solid q Hq) HB3 E3) as (w2' & d4 & -> & W2' & I2 & E4 & HB4).
    destruct (skeleton_cut d4 v q r (quoted_solid q Hq) E4) as (v' & r' & -> & Ev & Er).
    apply html_blanks_app in HB4. destruct HB4 as [_ HB4].
    exists (Attribute g' (c :: n) (Some (w1', w2', Some q, v'))), r'. unfold attribute_ok, sim_attribute.
    cbn [a_gap a_name a_value value_text value_ok sim_value quotes_text]. repeat split; try assumption.
    + flat.
    + exact (quoted_respaced q v v' Hq Fv Ev).
    + apply I1.
    + apply I2.
    + exact (html_blanks_tail _ _ HB4).
  - destruct V as (_ & _ & Nv & Fv). pose proof (names_solid bare_char _ HA2 (fun c H => proj1 (bare_not c H)) Fv) as Sv.
    destruct v as [|x v]; [contradiction|]. inversion Sv as [|? ? Hx Sv']; subst. cbn [app] in E3.
    destruct (run_cut w2 x (v ++ r) d3 W2 Hx HB3 E3) as (w2' & d4 & -> & W2' & I2 & E4 & HB4).
    destruct (word_cut v r d4 Sv' HB4 E4) as (r' & -> & Er & HB5).
    exists (Attribute g' (c :: n) (Some (w1', w2', None, x :: v))), r'. unfold attribute_ok, sim_attribute.
    cbn [a_gap a_name a_value value_text value_ok sim_value quotes_text]. repeat split; try assumption.
    + flat.
    + apply I1.
    + apply I2.
Qed.

Lemma respaced_attributes : forall l r d, Forall attribute_ok l -> html_blanks (attributes_text l) -> html_blanks d ->
  skeleton d = skeleton (attributes_text l ++ r) ->
  exists l' r', d = attributes_text l' ++ r' /\ Forall attribute_ok l' /\ Forall2 sim_attribute l l' /\ skeleton r' = skeleton r /\ html_blanks r'.
Proof.
  induction l as [|a l IH]; intros r d F HA HB E.
  - exists [], d. repeat split; try assumption; constructor.
  - inversion F as [|? ? Ha Fl]; subst. unfold attributes_text in *. cbn [map concat] in *. fold (attributes_text l) in *.
    apply html_blanks_app in HA. destruct HA as [HA1 HA2]. rewrite <- app_assoc in E.
    destruct (respaced_attribute a _ d Ha HA1 HB E) as (a' & d1 & -> & Ha' & Sa & E1 & HB1).
    destruct (IH r d1 Fl HA2 HB1 E1) as (l' & r' & -> & Fl' & Sl & Er & HBr).
    exists (a' :: l'), r'. cbn [map concat]. rewrite <- app_assoc. repeat split; try assumption; constructor; assumption.
Qed.

Lemma sim_bare : forall a a', sim_attribute a a' -> bare_value a' -> bare_value a.
Proof.
  intros a a' (_ & H) (w1 & w2 & v & E). rewrite E in H. unfold sim_value in H.
  destruct (a_value a) as [[[[x1 x2] q] v0]|] eqn:Ea; [|contradiction]. destruct H as [<- _]. exists x1, x2, v0. exact Ea.
Qed.

Lemma Forall2_last : forall (A B : Type) (R : A -> B -> Prop) l l' x b, Forall2 R l l' -> l' = x ++ [b] ->
  exists y a, l = y ++ [a] /\ R a b.
Proof.
  intros A B R l l' x b F E. subst l'. apply Forall2_app_inv_r in F. destruct F as (y & z & F1 & F2 & ->).
  inversion F2 as [|a ? z' ? Rab F3]; subst. inversion F3; subst. eauto.
Qed.

Lemma respaced_tag : forall p r d, part_ok p -> ~ is_comment p -> (forall c, p <> PChar c) ->
  html_blanks (part_text p) -> html_blanks d -> skeleton d = skeleton (part_text p ++ r) ->
  exists p' r', d = part_text p' ++ r' /\ part_ok p' /\ sim p p' /\ skeleton r' = skeleton r /\ html_blanks r'.
Proof.
  intros [c|c|s|n w|n l w sl] r d Hp Nc Np HA HB E; cbn [part_text] in *.
  - exfalso. exact (Np c eq_refl).
  - exfalso. apply Nc. eexists. reflexivity.
  - destruct Hp as (a & x & -> & La & Ea & D1 & D2). rewrite <- !app_assoc in E.
    destruct (word_cut (S_ "<!") _ d ltac:(repeat constructor) HB E) as (d1 & -> & E1 & HB1).
    assert (Sa : solid a).
    { apply Forall_forall. intros y I. apply (in_map low) in I. rewrite Ea in I. unfold low in I.
      destruct ((0x41 <=? y) && (y <=? 0x5A)) eqn:Ey; cbn in I; unfold is_whitespace; lia. }
    destruct (word_cut a _ d1 Sa HB1 E1) as (d2 & -> & E2 & HB2).
    destruct (skeleton_cut d2 x gt r eq_refl E2) as (x' & r' & -> & Ex & Er).
    apply html_blanks_app in HB2. destruct HB2 as [_ HB2].
    exists (PDoctype (a ++ x')), r'. cbn [part_text]. repeat split.
    + rewrite <- !app_assoc. reflexivity.
    + exists a, x'. repeat split; try assumption.
      * intro I. apply D1. exact (same_in lt x' x eq_refl Ex I).
      * intro I. apply D2. exact (same_in gt x' x eq_refl Ex I).
    + constructor. apply skeleton_app; [reflexivity | exact Ex].
    + exact Er.
    + exact (html_blanks_tail _ _ HB2).
  - destruct Hp as (Hn & W). pose proof Hn as (_ & Fn). apply html_blanks_app in HA. destruct HA as [_ HA].
    apply html_blanks_app in HA. destruct HA as [HA1 _].
    pose proof (names_solid name_char _ HA1 (fun c H => proj1 (name_not c H)) Fn) as Sn.
    rewrite <- !app_assoc in E.
    destruct (word_cut (S_ "</") _ d ltac:(repeat constructor) HB E) as (d1 & -> & E1 & HB1).
    destruct (word_cut n _ d1 Sn HB1 E1) as (d2 & -> & E2 & HB2).
    destruct (run_cut w gt r d2 W eq_refl HB2 E2) as (w' & r' & -> & W' & Wi & Er & HBr).
    exists (PEnd n w'), r'. cbn [part_text]. repeat split; try assumption; try (apply Hn); [|constructor; apply Wi].
    rewrite <- !app_assoc. reflexivity.
  - destruct Hp as (Hn & Fl & W & He). pose proof Hn as (_ & Fn). apply html_blanks_app in HA. destruct HA as [_ HA].
    apply html_blanks_app in HA. destruct HA as [HA1 HA]. apply html_blanks_app in HA. destruct HA as [HA2 _].
    pose proof (names_solid name_char _ HA1 (fun c H => proj1 (name_not c H)) Fn) as Sn.
    rewrite <- !app_assoc in E.
    destruct (word_cut (S_ "<") _ d ltac:(repeat constructor) HB E) as (d1 & -> & E1 & HB1).
    destruct (word_cut n _ d1 Sn HB1 E1) as (d2 & -> & E2 & HB2).
    destruct (respaced_attributes l _ d2 Fl HA2 HB2 E2) as (l' & d3 & -> & Fl' & Sl & E3 & HB3).
    assert (exists w' r', d3 = w' ++ slash_text sl ++ r' /\ html_run w' /\ (w = [] <-> w' = []) /\ skeleton r' = skeleton r /\ html_blanks r')
      as (w' & r' & -> & W' & Wi & Er & HBr).
    { destruct sl; cbn [slash_text] in *.
      - destruct (run_cut w 0x2F (gt :: r) d3 W eq_refl HB3 E3) as (w' & r1 & -> & W' & Wi & E4 & HB4).
        destruct (word_cut [gt] r r1 ltac:(repeat constructor) HB4 E4) as (r' & -> & Er & HBr).
        exists w', r'. repeat split; try assumption; tauto.
      - destruct (run_cut w gt r d3 W eq_refl HB3 E3) as (w' & r' & -> & W' & Wi & Er & HBr).
        exists w', r'. repeat split; try assumption; tauto. }
    exists (PStart n l' w' sl), r'. cbn [part_text]. repeat split; try assumption; try (apply Hn).
    + rewrite <- !app_assoc. reflexivity.
    + intros K1 K2 l0 a0 K3 Kb. destruct (Forall2_last _ _ _ _ _ _ _ Sl K3) as (l1 & a1 & K4 & Sa).
      apply (He K1 (proj2 Wi K2) l1 a1 K4). exact (sim_bare _ _ Sa Kb).
    + constructor; [exact Sl | apply Wi].
Qed.

Inductive layout : list part -> list part -> Prop :=
| ly_end : forall a b, skeleton b = skeleton a -> layout (map PChar a) (map PChar b)
| ly_tag : forall a b p p' ps ps', skeleton b = skeleton a -> sim p p' -> layout ps ps' ->
    layout (map PChar a ++ p :: ps) (map PChar b ++ p' :: ps').

Lemma leading_text : forall ps, exists a ps', ps = map PChar a ++ ps' /\
  (ps' = [] \/ exists p r, ps' = p :: r /\ forall c, p <> PChar c).
Proof.
  induction ps as [|p ps (a & ps' & -> & H)]; [exists [], []; auto|].
  destruct (part_cases p) as [[c ->] | K].
  - exists (c :: a), ps'. auto.
  - exists [], (p :: map PChar a ++ ps'). split; [reflexivity|]. right. exists p, (map PChar a ++ ps'). split; [reflexivity|].
    destruct K as [[c ->] | [K _]]; [discriminate | exact K].
Qed.

Lemma text_of_app : forall a b, text_of (a ++ b) = text_of a ++ text_of b.
Proof. intros. unfold text_of. now rewrite map_app, concat_app. Qed.

Lemma text_of_chars : forall a, text_of (map PChar a) = a.
Proof. induction a as [|c a IH]; [reflexivity|]. unfold text_of in *. cbn. now rewrite IH. Qed.

Lemma chars_ok : forall a, ~ In lt a -> Forall part_ok (map PChar a) /\ Forall (fun p => ~ is_comment p) (map PChar a).
Proof.
  intros a H. split; apply Forall_forall; intros p I; apply in_map_iff in I; destruct I as (c & <- & I).
  - intros ->. contradiction.
  - intros (x & K). discriminate.
Qed.

Lemma chars_no_lt : forall a, Forall part_ok (map PChar a) -> ~ In lt a.
Proof. intros a F I. rewrite Forall_forall in F. apply (F (PChar lt)); [now apply in_map | reflexivity]. Qed.

Lemma sim_not_comment : forall p p', sim p p' -> ~ is_comment p'.
Proof. intros p p' [] (x & K); discriminate. Qed.

Lemma respaced_parts : forall n ps d, (length ps <= n)%nat -> Forall part_ok ps -> Forall (fun p => ~ is_comment p) ps ->
  html_blanks (text_of ps) -> html_blanks d -> skeleton d = skeleton (text_of ps) ->
  exists ps', d = text_of ps' /\ Forall part_ok ps' /\ Forall (fun p => ~ is_comment p) ps' /\ layout ps ps'.
Proof.
  induction n as [|n IH]; intros ps d Hn F C HA HB E.
  - destruct ps; [|cbn in Hn; lia]. apply skeleton_nil in E. subst d. exists []. repeat split; try constructor.
    exact (ly_end [] [] eq_refl).
  - destruct (leading_text ps) as (a & ps1 & -> & K). apply Forall_app in F. apply Forall_app in C.
    destruct F as [F1 F2]. destruct C as [C1 C2]. rewrite text_of_app, text_of_chars in *.
    pose proof (chars_no_lt _ F1) as Na.
    destruct K as [-> | (p & r & -> & Np)].
    + cbn [text_of map concat] in E. rewrite app_nil_r in *.
      assert (Nd : ~ In lt d) by (intro I; apply Na; exact (same_in lt d a eq_refl E I)).
      exists (map PChar d). rewrite text_of_chars. repeat split; try (now apply chars_ok). now constructor.
    + inversion F2 as [|? ? Hp Fr]; inversion C2 as [|? ? Cp Cr]; subst.
      apply html_blanks_app in HA. destruct HA as [_ HA]. unfold text_of in HA, E. cbn [map concat] in HA, E. fold (text_of r) in HA, E.
      apply html_blanks_app in HA. destruct HA as [HA1 HA2].
      destruct (part_first p Hp Np) as (t & Et).
      assert (E0 : skeleton d = skeleton (a ++ lt :: (t ++ text_of r))) by (rewrite E, Et; reflexivity).
      destruct (skeleton_cut d a lt _ eq_refl E0) as (b & d1 & -> & Eb & Ed).
      assert (Nb : ~ In lt b) by (intro I; apply Na; exact (same_in lt b a eq_refl Eb I)).
      apply html_blanks_app in HB. destruct HB as [HB1 HB2].
      destruct (respaced_tag p (text_of r) (lt :: d1) Hp Cp Np HA1 HB2) as (p' & r' & Ed1 & Hp' & Sp & Er & HBr).
      { rewrite Et. cbn [app]. rewrite !skeleton_cons, Ed. reflexivity. }
      destruct (IH r r' ltac:(rewrite app_length in Hn; cbn in Hn; lia) Fr Cr HA2 HBr Er) as (rs & -> & Frs & Crs & Ly).
      exists (map PChar b ++ p' :: rs). repeat split.
      * rewrite text_of_app, text_of_chars, Ed1. reflexivity.
      * apply Forall_app. split; [now apply chars_ok | now constructor].
      * apply Forall_app. split; [now apply chars_ok | constructor; [exact (sim_not_comment _ _ Sp) | exact Crs]].
      * now constructor.
Qed.

(** ** White space before the end of a tag *)

Definition solid_end (s : str) : Prop := exists y c, s = y ++ [c] /\ ~ blank c.

Lemma solid_solid_end : forall s, s <> [] -> solid s -> solid_end s.
Proof.
  intros s Hs S. destruct (last_split s) as [-> | (y & c & ->)]; [contradiction|]. exists y, c. split; [reflexivity|].
  apply Forall_app in S. destruct S as [_ S]. inversion S as [|? ? K _]; subst. unfold blank. congruence.
Qed.

Lemma solid_end_app : forall a b, solid_end b -> solid_end (a ++ b).
Proof. intros a b (y & c & -> & H). exists (a ++ y), c. split; [now rewrite app_assoc | exact H]. Qed.

Lemma attribute_end : forall a, attribute_ok a -> html_blanks (attribute_text a) -> solid_end (attribute_text a).
Proof.
  intros [g n v] (Hg & G & Hn & Fn & V) HB. unfold attribute_text in *. cbn [a_gap a_name a_value] in *.
  apply html_blanks_app in HB. destruct HB as [_ HB]. apply html_blanks_app in HB. destruct HB as [HB1 HB2].
  apply solid_end_app. destruct v as [[[[w1 w2] q] v]|]; cbn [value_text value_ok] in *.
  - do 4 apply solid_end_app. destruct q as [q|]; cbn [quotes_text] in *.
    + change (q :: v ++ [q]) with ((q :: v) ++ [q]). exists (q :: v), q. split; [reflexivity|]. unfold blank.
      rewrite (quoted_solid q) by tauto. discriminate.
    + do 3 (apply html_blanks_app in HB2; destruct HB2 as [_ HB2]). destruct V as (_ & _ & Nv & Fv).
      apply solid_solid_end; [exact Nv|]. exact (names_solid bare_char _ HB2 (fun c H => proj1 (bare_not c H)) Fv).
  - rewrite app_nil_r. apply solid_solid_end; [exact Hn|]. exact (names_solid name_char _ HB1 (fun c H => proj1 (name_not c H)) Fn).
Qed.

Lemma attributes_end : forall l, Forall attribute_ok l -> html_blanks (attributes_text l) -> l <> [] -> solid_end (attributes_text l).
Proof.
  intros l F. induction F as [|a l Ha F IH]; intros HB Nl; [contradiction|].
  unfold attributes_text in *. cbn [map concat] in *. fold (attributes_text l) in *.
  apply html_blanks_app in HB. destruct HB as [HB1 HB2]. destruct l as [|b l].
  - cbn [attributes_text map concat]. rewrite app_nil_r. now apply attribute_end.
  - apply solid_end_app. apply IH; [exact HB2 | discriminate].
Qed.

(** The last attribute has quotation marks. *)
Definition quoted_end (l : list attribute) : Prop :=
  exists l0 a w1 w2 q v, l = l0 ++ [a] /\ a_value a = Some (w1, w2, Some q, v).

Lemma quoted_end_text : forall n l y q, Forall (fun c => name_char c = true) n -> Forall attribute_ok l ->
  S_ "<" ++ n ++ attributes_text l = y ++ [q] -> (q = dquote \/ q = squote <-> quoted_end l).
Proof.
  intros n l y q Fn Fl E.
  assert (Name : forall k z, k <> [] -> Forall (fun c => name_char c = true) k -> z ++ k = y ++ [q] -> q <> dquote /\ q <> squote).
  { intros k z Nk Fk K. destruct (last_split k) as [-> | (k0 & c & ->)]; [contradiction|]. rewrite app_assoc in K.
    apply app_inj_tail in K. destruct K as [_ ->]. apply Forall_app in Fk. destruct Fk as [_ Fk]. inversion Fk as [|? ? Hc _]; subst.
    apply name_not in Hc. tauto. }
  assert (Bare : forall k z, k <> [] -> Forall (fun c => bare_char c = true) k -> z ++ k = y ++ [q] -> q <> dquote /\ q <> squote).
  { intros k z Nk Fk K. destruct (last_split k) as [-> | (k0 & c & ->)]; [contradiction|]. rewrite app_assoc in K.
    apply app_inj_tail in K. destruct K as [_ ->]. apply Forall_app in Fk. destruct Fk as [_ Fk]. inversion Fk as [|? ? Hc _]; subst.
    apply bare_not in Hc. tauto. }
  destruct l as [|a0 l0].
  - cbn [attributes_text map concat] in E. rewrite app_nil_r in E. split; intro K; exfalso.
    + destruct n as [|c n].
      * cbn in E. destruct y as [|? [|? ?]]; try discriminate. injection E as <-. destruct K; discriminate.
      * destruct (Name (c :: n) (S_ "<") ltac:(discriminate) Fn E). tauto.
    + destruct K as (l0 & a & w1 & w2 & q0 & v & K & _). destruct l0; discriminate.
  - destruct (exists_last (l := a0 :: l0)) as (l & a & El); [discriminate|]. rewrite El in *. clear El a0 l0.
    apply Forall_app in Fl. destruct Fl as [_ Fl]. inversion Fl as [|? ? Ha _]; subst. destruct Ha as (_ & _ & Hn & Fa & V).
    unfold attributes_text in E. rewrite map_app, concat_app in E. cbn [map concat] in E. rewrite app_nil_r in E.
    unfold attribute_text in E at 2. rewrite !app_assoc in E. destruct (a_value a) as [[[[w1 w2] qq] v]|] eqn:Ev; cbn [value_text value_ok] in *.
    + destruct qq as [qq|]; cbn [quotes_text] in *.
      * change (qq :: v ++ [qq]) with ((qq :: v) ++ [qq]) in E. rewrite !app_assoc in E. apply app_inj_tail in E. destruct E as [_ <-].
        split; intro K; [|tauto]. exists l, a, w1, w2, qq, v. auto.
      * destruct V as (_ & _ & Nv & Fv). rewrite !app_assoc in E. destruct (Bare v _ Nv Fv E) as [Q1 Q2]. split; [tauto|].
        intros (l1 & a1 & x1 & x2 & q1 & v1 & K1 & K2). apply app_inj_tail in K1. destruct K1 as [_ <-]. congruence.
    + rewrite app_nil_r in E. destruct (Name (a_name a) _ Hn Fa E) as [Q1 Q2]. split; [tauto|].
      intros (l1 & a1 & x1 & x2 & q1 & v1 & K1 & K2). apply app_inj_tail in K1. destruct K1 as [_ <-]. congruence.
Qed.

Lemma closed_tag : forall n l w sl k, part_ok (PStart n l w sl) -> html_blanks (part_text (PStart n l w sl)) ->
  closed (part_text (PStart n l w sl)) k ->
  exists w', k = part_text (PStart n l w' sl) /\
    ((w' = w /\ (sl = false -> quoted_end l -> w = [])) \/ (w' = [] /\ sl = false /\ quoted_end l)).
Proof.
  intros n l w sl k (((c0 & t0 & En & _) & Fn) & Fl & W & _) HB C.
  assert (Head : solid_end (S_ "<" ++ n ++ attributes_text l)).
  { cbn [part_text] in HB. apply html_blanks_app in HB. destruct HB as [_ HB]. apply html_blanks_app in HB. destruct HB as [HB1 HB].
    apply html_blanks_app in HB. destruct HB as [HB2 _]. apply solid_end_app. destruct l as [|a l].
    - cbn [attributes_text map concat]. rewrite app_nil_r. apply solid_solid_end; [rewrite En; discriminate|].
      exact (names_solid name_char _ HB1 (fun c H => proj1 (name_not c H)) Fn).
    - apply solid_end_app. apply attributes_end; [exact Fl | exact HB2 | discriminate]. }
  destruct Head as (y & c & Ey & Nc).
  assert (Key : forall x q w0, part_text (PStart n l w sl) = x ++ [q] ++ w0 ++ [gt] -> w0 <> [] -> blanks w0 -> ~ blank q ->
             sl = false /\ x ++ [q] = S_ "<" ++ n ++ attributes_text l).
  { intros x q w0 E Nw W0 Nq. cbn [part_text] in E. destruct sl; cbn [slash_text] in E.
    - exfalso. destruct (last_split w0) as [-> | (w1 & b & ->)]; [contradiction|].
      assert (E2 : (S_ "<" ++ n ++ attributes_text l ++ w) ++ [0x2F; gt] = (x ++ [q] ++ w1) ++ [b; gt]) by (rewrite <- !app_assoc in *; exact E).
      change [0x2F; gt] with ([0x2F] ++ [gt]) in E2. change [b; gt] with ([b] ++ [gt]) in E2.
      rewrite !app_assoc in E2. apply app_inv_tail in E2. apply app_inj_tail in E2. destruct E2 as [_ <-].
      apply Forall_app in W0. destruct W0 as [_ W0]. inversion W0. discriminate.
    - split; [reflexivity|]. assert (E2 : (S_ "<" ++ n ++ attributes_text l ++ w) ++ [gt] = (x ++ [q] ++ w0) ++ [gt]) by (rewrite <- !app_assoc in *; exact E).
      apply app_inv_tail in E2.
      assert (E3 : x ++ [q] ++ w0 = y ++ [c] ++ w).
      { rewrite <- E2. rewrite (app_assoc y), <- Ey. rewrite <- !app_assoc. reflexivity. }
      destruct (end_run_unique _ _ _ _ _ _ W0 (html_run_blanks w W) Nq Nc E3) as (-> & -> & _). now rewrite Ey. }
  pose proof (fun y q => quoted_end_text n l y q Fn Fl) as QE.
  remember (part_text (PStart n l w sl)) as m eqn:Em. destruct C as [x w0 Nw W0|x w0 Nw W0|m Hm].
  - destruct (Key x dquote w0 eq_refl Nw W0 ltac:(discriminate)) as (-> & E). exists []. split.
    + cbn [part_text slash_text app]. change [dquote; gt] with ([dquote] ++ [gt]). rewrite app_assoc, E. now rewrite <- !app_assoc.
    + right. repeat split. apply (QE x dquote); [now rewrite E | now left].
  - destruct (Key x squote w0 eq_refl Nw W0 ltac:(discriminate)) as (-> & E). exists []. split.
    + cbn [part_text slash_text app]. change [squote; gt] with ([squote] ++ [gt]). rewrite app_assoc, E. now rewrite <- !app_assoc.
    + right. repeat split. apply (QE x squote); [now rewrite E | now right].
  - exists w. split; [exact Em|]. left. split; [reflexivity|]. intros -> Q. destruct w as [|b w]; [reflexivity|]. exfalso.
    destruct (Hm y c (b :: w)) as [Q1 Q2].
    + rewrite Em. cbn [part_text slash_text]. rewrite (app_assoc y), <- Ey. now rewrite <- !app_assoc.
    + discriminate.
    + now apply html_run_blanks.
    + apply (QE y c) in Q; [tauto | exact Ey].
Qed.
