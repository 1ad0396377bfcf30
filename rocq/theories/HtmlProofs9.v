(** The stages of the minifier on the parts of a document: comments, types, tags to drop. *)
From Coq Require Import String List NArith Bool Arith Lia ZifyBool ZifyN.
From Verif Require Import Base HtmlModel HtmlSpec HtmlSyntaxSpec HtmlProofs1 HtmlProofs2 HtmlProofs3 HtmlProofs4 HtmlProofs8.
Import ListNotations.
Open Scope N_scope.

(** ** Following a scan *)

Lemma rewrites_cases : forall (L F : str -> str -> Prop) s e, rewrites L F s e ->
  (s = [] /\ e = []) \/
  (exists c s' e', s = c :: s' /\ e = c :: e' /\ (forall m r, s = m ++ r -> ~ L m r) /\ rewrites L F s' e') \/
  (exists m m' r e', s = m ++ r /\ e = m' ++ e' /\ m <> [] /\ L m r /\ F m m' /\ rewrites L F r e').
Proof.
  intros L F s e R. destruct R as [|c s t Hn R|m m' r t Hm Lm Fm R].
  - now left.
  - right. left. exists c, s, t. auto 10.
  - right. right. exists m, m', r, t. auto 10.
Qed.

(** Text whose matches lie inside it and change nothing is copied. *)
Lemma rewrites_same : forall (L F : str -> str -> Prop) n u r e, (length u <= n)%nat -> rewrites L F (u ++ r) e ->
  (forall u1 u2 m r', u = u1 ++ u2 -> u2 <> [] -> u2 ++ r = m ++ r' -> L m r' ->
     (exists u3, u2 = m ++ u3) /\ forall m', F m m' -> m' = m) ->
  exists e', e = u ++ e' /\ rewrites L F r e'.
Proof.
  intros L F n. induction n as [|n IH]; intros u r e Hn R H.
  - destruct u; [|cbn in Hn; lia]. exists e. auto.
  - destruct u as [|c u]; [exists e; auto|].
    destruct (rewrites_cases _ _ _ _ R) as [[K _] | [(d & s' & e' & K1 & -> & _ & R') | (m & m' & r' & e' & K1 & -> & Hm & Lm & Fm & R')]].
    + discriminate.
    + cbn [app] in K1. injection K1 as <- <-. destruct (IH u r e') as (e2 & -> & R2); [cbn in Hn; lia | exact R'| |].
      * intros u1 u2 m r' -> N2. apply (H (c :: u1) u2 m r' eq_refl N2).
      * exists e2. auto.
    + destruct (H [] (c :: u) m r' eq_refl ltac:(discriminate) K1 Lm) as ((u3 & Eu) & Hf). rewrite (Hf m' Fm).
      rewrite Eu, <- app_assoc in K1. apply app_inv_head in K1. subst r'.
      destruct (IH u3 r e') as (e2 & -> & R2).
      * assert (length (c :: u) = length (m ++ u3)) as E by now rewrite Eu. rewrite app_length in E.
        destruct m; [contradiction | cbn in *; lia].
      * exact R'.
      * intros u1 u2 m2 r2 -> N2. apply (H (m ++ u1) u2 m2 r2); [now rewrite Eu, app_assoc | exact N2].
      * exists e2. rewrite Eu, <- app_assoc. auto.
Qed.

Lemma rewrites_none : forall (L F : str -> str -> Prop) u r e, rewrites L F (u ++ r) e ->
  (forall u1 u2 m r', u = u1 ++ u2 -> u2 <> [] -> u2 ++ r = m ++ r' -> ~ L m r') ->
  exists e', e = u ++ e' /\ rewrites L F r e'.
Proof.
  intros L F u r e R H. apply (rewrites_same L F (length u) u r e (le_n _) R).
  intros u1 u2 m r' E1 E2 E3 Lm. exfalso. exact (H _ _ _ _ E1 E2 E3 Lm).
Qed.

Lemma rewrites_hit : forall (L F : str -> str -> Prop) m r e, rewrites L F (m ++ r) e -> m <> [] -> L m r ->
  (forall m1 r1 m2 r2, L m1 r1 -> L m2 r2 -> m1 ++ r1 = m2 ++ r2 -> m1 = m2) ->
  exists m' e', e = m' ++ e' /\ F m m' /\ rewrites L F r e'.
Proof.
  intros L F m r e R Hm Lm U.
  destruct (rewrites_cases _ _ _ _ R) as [[K _] | [(d & s' & e' & K1 & _ & K2 & _) | (m1 & m' & r' & e' & K1 & -> & _ & L1 & Fm & R')]].
  - apply app_eq_nil in K. tauto.
  - exfalso. exact (K2 m r eq_refl Lm).
  - assert (m = m1) as <- by exact (U _ _ _ _ Lm L1 K1). apply app_inv_head in K1. subst r'. eauto.
Qed.

(** ** Tags *)

Lemma name_no_angle : forall n, Forall (fun c => name_char c = true) n -> ~ In lt n /\ ~ In gt n.
Proof.
  intros n F. rewrite Forall_forall in F. split; intro I; apply F, name_not in I; intuition congruence.
Qed.

Lemma run_no_angle : forall n, html_run n -> ~ In lt n /\ ~ In gt n.
Proof.
  intros n F. unfold html_run in F. rewrite Forall_forall in F. split; intro I; apply F, blank_not in I; intuition congruence.
Qed.

Lemma quoted_no_angle : forall q v, Forall (fun c => quoted_char q c = true) v -> ~ In lt v /\ ~ In gt v /\ ~ In q v.
Proof.
  intros q v F. rewrite Forall_forall in F. repeat split; intro I; apply F in I; unfold quoted_char in I; cbn in I;
    rewrite ?N.eqb_refl, ?orb_true_r in I; discriminate.
Qed.

Lemma bare_no_angle : forall v, Forall (fun c => bare_char c = true) v -> ~ In lt v /\ ~ In gt v.
Proof.
  intros n F. rewrite Forall_forall in F. split; intro I; apply F, bare_not in I; intuition congruence.
Qed.

Lemma value_no_angle : forall v, value_ok v -> ~ In lt (value_text v) /\ ~ In gt (value_text v).
Proof.
  intros [[[[w1 w2] q] v]|] H; [|split; intros []]. cbn [value_text].
  assert (W1 : html_run w1) by (destruct q; cbn in H; tauto). assert (W2 : html_run w2) by (destruct q; cbn in H; tauto).
  apply run_no_angle in W1, W2.
  assert (Q : ~ In lt (quotes_text q v) /\ ~ In gt (quotes_text q v)).
  { destruct q as [q|]; cbn in H |- *.
    - destruct H as (_ & _ & Hq & F). apply quoted_no_angle in F.
      split; (intros [K | K]; [destruct Hq; subst; discriminate|]; apply in_app_iff in K; destruct K as [K | [K | []]];
        [tauto | destruct Hq; subst; discriminate]).
    - apply bare_no_angle. tauto. }
  rewrite !in_app_iff. cbn. unfold lt, gt in *. split; intros [K | [[K | []] | [K | K]]]; (tauto || discriminate).
Qed.

Lemma attributes_no_angle : forall l, Forall attribute_ok l -> ~ In lt (attributes_text l) /\ ~ In gt (attributes_text l).
Proof.
  intros l F. induction F as [|a l (_ & G & _ & Nm & V) F [I1 I2]]; [split; intros []|].
  unfold attributes_text in *. cbn [map concat]. unfold attribute_text.
  apply run_no_angle in G. apply name_no_angle in Nm. apply value_no_angle in V.
  rewrite !in_app_iff. split; tauto.
Qed.

(** Every part but a character or a comment is a tag, without angle brackets inside. *)
Lemma part_tag : forall p, part_ok p -> ~ is_comment p -> (forall c, p <> PChar c) ->
  exists x s, part_text p = [lt] ++ (x :: s) ++ [gt] /\ ~ In lt (x :: s) /\ ~ In gt (x :: s) /\
    (ascii_alpha x = true \/ x = 0x2F \/ (x = 0x21 /\ exists y s', s = y :: s' /\ y <> 0x2D)) /\
    (ascii_alpha x = true <-> exists n l w sl, p = PStart n l w sl).
Proof.
  intros [c|c|s|n w|n l w sl] Hp Hc Hn.
  - congruence.
  - exfalso. apply Hc. eexists. reflexivity.
  - destruct Hp as (a & d & -> & La & Ea & D1 & D2). exists 0x21, (a ++ d). split; [reflexivity|].
    assert (A : forall z, In z a -> z <> lt /\ z <> gt).
    { intros z I. apply (in_map low) in I. rewrite Ea in I. split; intros ->; cbn in I; intuition discriminate. }
    assert (B : ~ In lt (a ++ d) /\ ~ In gt (a ++ d)).
    { rewrite !in_app_iff. split; intros [K | K]; try contradiction; apply A in K; tauto. }
    repeat split.
    + intros [K | K]; [discriminate | tauto].
    + intros [K | K]; [discriminate | tauto].
    + right. right. split; [reflexivity|]. destruct (low_doctype_head a Ea) as (y & t & -> & Hy). exists y, (t ++ d). auto.
    + discriminate.
    + intros (? & ? & ? & ? & K). discriminate.
  - destruct Hp as ((_ & Fn) & W). exists 0x2F, (n ++ w). split; [cbn; rewrite <- !app_assoc; reflexivity|].
    apply name_no_angle in Fn. apply run_no_angle in W.
    assert (B : ~ In lt (n ++ w) /\ ~ In gt (n ++ w)) by (rewrite !in_app_iff; split; tauto).
    repeat split.
    + intros [K | K]; [discriminate | tauto].
    + intros [K | K]; [discriminate | tauto].
    + now right; left.
    + discriminate.
    + intros (? & ? & ? & ? & K). discriminate.
  - destruct Hp as (((c & t & -> & Ha) & Fn) & Fl & W & _).
    exists c, (t ++ attributes_text l ++ w ++ (if sl then S_ "/" else [])). split.
    { cbn [part_text]. destruct sl; cbn [slash_text]; rewrite <- ?app_assoc; cbn; rewrite <- ?app_assoc; reflexivity. }
    apply name_no_angle in Fn. apply run_no_angle in W. apply attributes_no_angle in Fl.
    assert (Z : ~ In lt (if sl then S_ "/" else []) /\ ~ In gt (if sl then S_ "/" else [])).
    { destruct sl; cbn; unfold lt, gt; split; intuition discriminate. }
    change (c :: t ++ attributes_text l ++ w ++ (if sl then S_ "/" else []))
      with ((c :: t) ++ attributes_text l ++ w ++ (if sl then S_ "/" else [])).
    split; [rewrite !in_app_iff; tauto|]. split; [rewrite !in_app_iff; tauto|]. split; [now left|].
    split; [intros _; eauto 10 | auto].
Qed.

Lemma part_first : forall p, part_ok p -> (forall c, p <> PChar c) -> exists t, part_text p = lt :: t.
Proof. intros [c|c|s|n w|n l w sl] Hp H; [exfalso; exact (H c eq_refl)|..]; eexists; reflexivity. Qed.

Lemma part_cases : forall p, (exists c, p = PChar c) \/ (exists c, p = PComment c) \/
  ((forall c, p <> PChar c) /\ ~ is_comment p).
Proof.
  intros [c|c|s|n w|n l w sl]; [left; eauto | right; left; eauto|..]; right; right; split;
    try discriminate; intros (x & K); discriminate.
Qed.

(** A scan for something that starts with an opening bracket copies tags in which it is not found
    at the start. *)
Lemma tag_copied : forall (L F : str -> str -> Prop) p r e, part_ok p -> ~ is_comment p -> (forall c, p <> PChar c) ->
  (forall m t, L m t -> exists m', m = lt :: m') ->
  (forall m t, part_text p ++ r = m ++ t -> ~ L m t) ->
  rewrites L F (part_text p ++ r) e -> exists e', e = part_text p ++ e' /\ rewrites L F r e'.
Proof.
  intros L F p r e Hp Hc Hn HL H R. apply (rewrites_none L F _ _ _ R).
  intros u1 u2 m t Eu Nu E Lm. destruct (part_tag p Hp Hc Hn) as (x & s & Ep & N1 & _).
  destruct u1 as [|d u1].
  - cbn [app] in Eu. subst u2. exact (H m t E Lm).
  - destruct (HL _ _ Lm) as (m' & ->). destruct u2 as [|d2 u2]; [contradiction|]. cbn in E. injection E as -> _.
    rewrite Ep in Eu. cbn [app] in Eu. injection Eu as <- Eu.
    assert (I : In lt ((x :: s) ++ [gt])). { cbn [app]. rewrite Eu. apply in_app_iff. right. now left. }
    apply in_app_iff in I. destruct I as [I | [I | []]]; [contradiction | discriminate].
Qed.

Lemma char_copied : forall (L F : str -> str -> Prop) c r e, c <> lt -> (forall m t, L m t -> exists m', m = lt :: m') ->
  rewrites L F (part_text (PChar c) ++ r) e -> exists e', e = part_text (PChar c) ++ e' /\ rewrites L F r e'.
Proof.
  intros L F c r e Hc HL R. apply (rewrites_none L F _ _ _ R).
  intros u1 u2 m t Eu Nu E Lm. destruct (HL _ _ Lm) as (m' & ->).
  destruct u1 as [|d u1].
  - cbn [app part_text] in Eu. subst u2. cbn in E. injection E as -> _. contradiction.
  - cbn in Eu. injection Eu as _ Eu. symmetry in Eu. apply app_eq_nil in Eu. tauto.
Qed.

(** ** Comments *)

Definition no_comment (p : part) : part := match p with PComment _ => PChar 0x20 | _ => p end.

Lemma comment_lt : forall m t, comment m t -> exists m', m = lt :: m'.
Proof. intros m t []. eexists. reflexivity. Qed.

Lemma uncommented_parts : forall ps e, Forall part_ok ps -> Forall part_safe ps -> uncommented (text_of ps) e ->
  e = text_of (map no_comment ps).
Proof.
  unfold text_of. induction ps as [|p ps IH]; intros e F S R; cbn [map concat] in *.
  - destruct (rewrites_cases _ _ _ _ R) as [[_ K] | [(d & s' & e' & K1 & _) | (m1 & m' & r' & e' & K1 & _ & K2 & _)]];
      [exact K | discriminate|]. symmetry in K1. apply app_eq_nil in K1. tauto.
  - inversion F as [|? ? Hp Fl]; inversion S as [|? ? Sp Sl]; subst.
    destruct (part_cases p) as [[c ->] | [[c ->] | [Np Nc]]].
    + destruct (char_copied _ _ _ _ _ Hp comment_lt R) as (e' & -> & R'). cbn [no_comment]. f_equal. now apply IH.
    + cbn [part_ok part_safe] in Hp, Sp.
      destruct (rewrites_hit _ _ _ _ _ R) as (m' & e' & -> & Fm & R').
      * discriminate.
      * constructor. exact Hp.
      * exact comment_det.
      * cbn [no_comment part_text]. f_equal; [|now apply IH]. cbn [part_text] in Fm.
        remember (S_ "<!--" ++ c ++ S_ "-->") as m eqn:Em. destruct Fm as [c' Hc'|c' Hc']; [|reflexivity].
        exfalso. apply app_inv_head, app_inv_tail in Em. subst c'. contradiction.
    + destruct (tag_copied comment comment_out p (concat (map part_text ps)) e Hp Nc Np comment_lt) with (2 := R) as (e' & -> & R').
      * intros m t E Lm. destruct Lm as [c r _]. destruct (part_tag p Hp Nc Np) as (x & s & Ep & _ & _ & Hx & _).
        rewrite Ep in E. cbn in E. injection E as E1 E2. destruct Hx as [Hx | [Hx | (_ & y & s' & -> & Hy)]].
        -- rewrite E1 in Hx. discriminate.
        -- rewrite E1 in Hx. discriminate.
        -- cbn in E2. injection E2 as E2 _. contradiction.
      * assert (no_comment p = p) as -> by (destruct p; try reflexivity; exfalso; apply Nc; eexists; reflexivity).
        f_equal. now apply IH.
Qed.

(** ** White space *)

Lemma html_blank_blank : forall c, html_blank c = true -> blank c.
Proof. intros c H. unfold html_blank in H. unfold blank, is_whitespace. cbn in H. lia. Qed.

Lemma html_run_blanks : forall w, html_run w -> blanks w.
Proof. intros w H. apply Forall_impl with (2 := H). exact html_blank_blank. Qed.

Lemma span_blanks : forall w r w' r', blanks w -> blanks w' -> stops is_whitespace r -> stops is_whitespace r' ->
  w ++ r = w' ++ r' -> w = w' /\ r = r'.
Proof.
  intros w r w' r' W W' S S' E. pose proof (span_app is_whitespace w r W S) as K.
  rewrite E, (span_app is_whitespace w' r' W' S') in K. injection K as -> ->. auto.
Qed.

Lemma span_unique : forall p w r w' r', Forall (fun c => p c = true) w -> Forall (fun c => p c = true) w' ->
  stops p r -> stops p r' -> w ++ r = w' ++ r' -> w = w' /\ r = r'.
Proof.
  intros p w r w' r' W W' S S' E. pose proof (span_app p w r W S) as K.
  rewrite E, (span_app p w' r' W' S') in K. injection K as -> ->. auto.
Qed.

Lemma app_split : forall (a b c d : str), a ++ b = c ++ d ->
  (exists k, c = a ++ k /\ b = k ++ d) \/ (exists k, a = c ++ k /\ d = k ++ b).
Proof.
  induction a as [|x a IH]; intros b c d E.
  - left. exists c. auto.
  - destruct c as [|y c].
    + right. exists (x :: a). auto.
    + injection E as -> E. destruct (IH _ _ _ E) as [(k & -> & ->) | (k & -> & ->)]; [left | right]; exists k; auto.
Qed.

(** The names and bare values of a text whose white space is that of HTML have no white space. *)
Lemma names_solid : forall p s, html_blanks s -> (forall c, p c = true -> html_blank c = false) ->
  Forall (fun c => p c = true) s -> Forall (fun c => is_whitespace c = false) s.
Proof.
  intros p s H Hp F. rewrite Forall_forall in *. intros c I. destruct (is_whitespace c) eqn:E; [|reflexivity].
  specialize (Hp c (F c I)). rewrite (H c I E) in Hp. discriminate.
Qed.

Lemma html_blanks_app : forall a b, html_blanks (a ++ b) <-> html_blanks a /\ html_blanks b.
Proof.
  intros a b. unfold html_blanks. split.
  - intro H. split; intros c I; apply H; rewrite in_app_iff; auto.
  - intros [H1 H2] c I. apply in_app_iff in I. destruct I; auto.
Qed.

(** Splitting the text of an attribute. *)
Lemma attribute_positions : forall a u1 u2, attribute_text a = u1 ++ u2 -> u2 <> [] ->
  (exists g1 g2, a_gap a = g1 ++ g2 /\ u2 = g2 ++ a_name a ++ value_text (a_value a)) \/
  (exists n1 n2, a_name a = n1 ++ n2 /\ n2 <> [] /\ u2 = n2 ++ value_text (a_value a)) \/
  (exists w1 w2 q v, a_value a = Some (w1, w2, q, v) /\
    ((exists x y, w1 = x ++ y /\ u2 = y ++ S_ "=" ++ w2 ++ quotes_text q v) \/
     (exists x y, w2 = x ++ y /\ u2 = y ++ quotes_text q v) \/
     (q = None /\ exists x y, v = x ++ y /\ u2 = y) \/
     (exists q', q = Some q' /\ ((exists x y, v = x ++ y /\ u2 = y ++ [q']))))).
Proof.
  intros a u1 u2 E Nu. unfold attribute_text in E.
  destruct (app_split _ _ _ _ E) as [(k & -> & E1) | (k & E1 & ->)]; [|left; eauto].
  destruct (app_split _ _ _ _ E1) as [(k2 & -> & E2) | (k2 & E2 & ->)].
  2:{ destruct k2 as [|d k2].
      - right. right. cbn [app] in *. destruct (a_value a) as [[[[w1 w2] q] v]|]; [|contradiction].
        exists w1, w2, q, v. split; [reflexivity|]. left. exists [], w1. auto.
      - right. left. exists k, (d :: k2). repeat split; [exact E2 | discriminate]. }
  right. right. destruct (a_value a) as [[[[w1 w2] q] v]|].
  2:{ cbn in E2. symmetry in E2. apply app_eq_nil in E2. tauto. }
  exists w1, w2, q, v. split; [reflexivity|]. cbn [value_text] in E2.
  destruct (app_split _ _ _ _ E2) as [(k3 & -> & E3) | (k3 & -> & ->)]; [|left; eauto].
  destruct k3 as [|d k3]; [left; exists w1, []; rewrite app_nil_r; cbn [app] in *; subst u2; auto|].
  cbn in E3. injection E3 as <- E3.
  destruct (app_split _ _ _ _ E3) as [(k4 & -> & E4) | (k4 & -> & ->)]; [|right; left; eauto].
  destruct q as [q'|]; cbn [quotes_text] in E4.
  - destruct k4 as [|d k4].
    + cbn [app] in E4. subst u2. right. left. exists w2, []. rewrite app_nil_r. auto.
    + cbn in E4. injection E4 as <- E4. right. right. right. exists q'. split; [reflexivity|].
      destruct (app_split _ _ _ _ E4) as [(k5 & -> & E5) | (k5 & -> & ->)]; [|eauto].
      destruct k5 as [|d k5].
      * cbn [app] in E5. subst u2. exists v, []. rewrite app_nil_r. auto.
      * cbn in E5. injection E5 as _ E5. symmetry in E5. apply app_eq_nil in E5. tauto.
  - right. right. left. split; [reflexivity|]. exists k4, u2. auto.
Qed.

(** ** Types *)

Section Types.
Variable wu : N -> bool.

(** The attributes that are taken out. *)
Definition removable (a : attribute) : bool :=
  str_eqb (a_name a) (S_ "type") &&
  match a_value a with
  | Some ([], [], Some q, x :: v) => (q =? dquote) && word_bar_space wu x && negb (existsb (N.eqb line_end) v)
  | _ => false
  end.

Lemma existsb_in : forall c s, existsb (N.eqb c) s = true <-> In c s.
Proof.
  intros c s. rewrite existsb_exists. split.
  - intros (x & I & E). apply N.eqb_eq in E. now subst.
  - intro I. exists c. split; [exact I | apply N.eqb_refl].
Qed.

Lemma removable_type : forall a r, attribute_ok a -> removable a = true -> a_name a = S_ "type" /\ type_attribute wu (attribute_text a) r.
Proof.
  intros [g n v] r (_ & G & _ & _ & V) H. unfold removable in H. cbn [a_gap a_name a_value] in *.
  apply andb_true_iff in H. destruct H as [H1 H2]. apply str_eqb_eq in H1. split; [exact H1|]. subst n.
  destruct v as [[[[w1 w2] q] v]|]; [|discriminate].
  destruct w1; [|discriminate]. destruct w2; [|discriminate]. destruct q as [q|]; [|discriminate]. destruct v as [|x v]; [discriminate|].
  apply andb_true_iff in H2. destruct H2 as [H2 H3]. apply andb_true_iff in H2. destruct H2 as [H2 H4].
  apply N.eqb_eq in H2. subst q. apply word_bar_iff in H4.
  destruct V as (_ & _ & _ & V). apply quoted_no_angle in V. destruct V as (_ & _ & V).
  apply (a_type wu g x v r).
  - now apply html_run_blanks.
  - exact H4.
  - intro I. apply V. now right.
  - intro I. apply existsb_in in I. rewrite I in H3. discriminate.
Qed.

Lemma type_stops : forall r, stops is_whitespace (S_ "type=" ++ r).
Proof. intros r c t E. injection E as <- _. reflexivity. Qed.

Lemma rest_not_equal : forall r t, tag_rest r -> r <> 0x3D :: t.
Proof.
  intros r t (c & u & -> & H) E. injection E as -> _. destruct H as [H | [H | H]]; discriminate.
Qed.

Lemma no_type : forall a rest, attribute_ok a -> html_blanks (attribute_text a) ->
  ~ occurs (S_ "type=") (value_of a) -> (ends_with (S_ "type") (a_name a) -> a_name a = S_ "type") ->
  tag_rest rest -> (bare_value a -> stops bare_char rest) -> removable a = false ->
  forall u1 u2 m r, attribute_text a = u1 ++ u2 -> u2 <> [] -> u2 ++ rest = m ++ r -> ~ type_attribute wu m r.
Proof.
  intros a rest (Hg & G & Hn & Fn & V) HB Ho He Hr Hb Hrm u1 u2 m r Eu Nu E T.
  unfold attribute_text in HB. apply html_blanks_app in HB. destruct HB as [_ HB]. apply html_blanks_app in HB. destruct HB as [HB1 HB2].
  pose proof (names_solid name_char _ HB1 (fun c H => proj1 (name_not c H)) Fn) as Sn.
  destruct T as [w x value r W Hx N1 N2].
  assert (Name : forall n2 y, Forall (fun c => name_char c = true) n2 -> stops name_char y ->
            n2 ++ y = S_ "type=" ++ dquote :: x :: value ++ dquote :: r -> n2 = S_ "type" /\ y = S_ "=" ++ dquote :: x :: value ++ dquote :: r).
  { intros n2 y F St K. apply (span_unique name_char); try assumption.
    - repeat constructor.
    - intros c t K2. injection K2 as <- _. reflexivity. }
  assert (Value : forall y, y = value_text (a_value a) ++ rest -> y = S_ "=" ++ dquote :: x :: value ++ dquote :: r ->
            a_name a = S_ "type" -> False).
  { intros y E1 E2 En. subst y. unfold removable in Hrm. rewrite En in Hrm. change (str_eqb (S_ "type") (S_ "type")) with true in Hrm. cbn [andb] in Hrm.
    destruct (a_value a) as [[[[w1 w2] q] v]|]; [|exact (rest_not_equal _ _ Hr E2)].
    cbn [value_text] in E2. rewrite <- !app_assoc in E2.
    assert (W1 : html_run w1) by (destruct q; cbn in V; tauto). assert (W2 : html_run w2) by (destruct q; cbn in V; tauto).
    destruct w1 as [|b w1].
    2:{ cbn in E2. injection E2 as E2 _. inversion W1 as [|? ? B _]. apply blank_not in B. intuition congruence. }
    cbn in E2. injection E2 as E2. destruct w2 as [|b w2].
    2:{ cbn in E2. injection E2 as E2 _. inversion W2 as [|? ? B _]. apply blank_not in B. intuition congruence. }
    cbn [app] in E2. destruct q as [q|]; cbn [quotes_text] in E2.
    - cbn [app] in E2. injection E2 as -> E2. rewrite <- app_assoc in E2. cbn [app] in E2.
      destruct V as (_ & _ & _ & V). apply quoted_no_angle in V. destruct V as (_ & _ & V).
      assert (Hxq : x <> dquote).
      { intros ->. destruct Hx as [[[_ [K | [K | K]]] | [K _]] | [K | K]]; unfold letter, digit, dquote in K; try lia; discriminate. }
      change (x :: value ++ dquote :: r) with ((x :: value) ++ dquote :: r) in E2.
      apply first_split in E2; [|exact V | intros [K | K]; [congruence | contradiction]]. subst v.
      rewrite N.eqb_refl in Hrm. apply word_bar_iff in Hx. rewrite Hx in Hrm. cbn [andb] in Hrm.
      destruct (existsb (N.eqb line_end) value) eqn:K; [|discriminate]. apply existsb_in in K. contradiction.
    - destruct V as (_ & _ & Nv & V). destruct v as [|c v]; [contradiction|]. cbn [app] in E2. injection E2 as -> _.
      inversion V as [|? ? K _]. discriminate. }
  assert (Ew : u2 ++ rest = w ++ S_ "type=" ++ dquote :: x :: value ++ dquote :: r).
  { rewrite E. rewrite <- app_assoc. f_equal. cbn. rewrite <- app_assoc. reflexivity. }
  clear E. assert (SnVal : stops name_char (value_text (a_value a) ++ rest)).
  { destruct (a_value a) as [[[[w1 w2] q] v]|]; [|now apply tag_rest_name]. cbn [value_text]. destruct w1 as [|b w1].
    - intros d t K. injection K as <- _. reflexivity.
    - assert (B : html_blank b = true) by (destruct q; cbn in V; destruct V as (W1 & _); now inversion W1).
      intros d t K. injection K as <- _. apply blank_not in B. tauto. }
  destruct (attribute_positions a u1 u2 Eu Nu) as [(g1 & g2 & Eg & ->) | [(n1 & n2 & En & Nn & ->) | (w1 & w2 & q & v & Ev & Pos)]].
  - rewrite <- !app_assoc in Ew. apply span_blanks in Ew; [|
      apply html_run_blanks; unfold html_run in *; rewrite Eg in G; apply Forall_app in G; tauto | exact W | | apply type_stops].
    + destruct Ew as [_ Ew]. apply Name in Ew; [|exact Fn | exact SnVal]. destruct Ew as [K1 K2].
      exact (Value _ eq_refl K2 K1).
    + intros d t K. destruct (a_name a) as [|c n]; [contradiction|]. injection K as <- _. now inversion Sn.
  - rewrite <- !app_assoc in Ew.
    assert (Fn2 : Forall (fun c => name_char c = true) n2) by (rewrite En in Fn; apply Forall_app in Fn; tauto).
    assert (Sn2 : Forall (fun c => is_whitespace c = false) n2) by (rewrite En in Sn; apply Forall_app in Sn; tauto).
    change (n2 ++ value_text (a_value a) ++ rest) with ([] ++ n2 ++ value_text (a_value a) ++ rest) in Ew.
    apply span_blanks in Ew; [|constructor | exact W | | apply type_stops].
    + destruct Ew as [_ Ew]. apply Name in Ew; [|exact Fn2 | exact SnVal]. destruct Ew as [K1 K2].
      apply (Value _ eq_refl K2). apply He. exists n1. rewrite En, K1. reflexivity.
    + intros d t K. destruct n2 as [|c n]; [contradiction|]. injection K as <- _. now inversion Sn2.
  - unfold value_of in Ho. rewrite Ev in *. cbn [value_text value_ok] in *.
    assert (W1 : html_run w1) by (destruct q; tauto). assert (W2 : html_run w2) by (destruct q; tauto).
    destruct Pos as [(y1 & y2 & Ey & ->) | [(y1 & y2 & Ey & ->) | [(-> & y1 & y2 & Ey & ->) | (q' & -> & y1 & y2 & Ey & ->)]]].
    + rewrite <- !app_assoc in Ew. apply span_blanks in Ew; [| |exact W| |apply type_stops].
      * destruct Ew as [_ Ew]. discriminate.
      * apply html_run_blanks. unfold html_run in *. rewrite Ey in W1. apply Forall_app in W1. tauto.
      * intros d t K. injection K as <- _. reflexivity.
    + rewrite <- !app_assoc in Ew.
      assert (Y2 : blanks y2). { apply html_run_blanks. unfold html_run in *. rewrite Ey in W2. apply Forall_app in W2. tauto. }
      destruct q as [q|]; cbn [quotes_text] in Ew.
      * apply span_blanks in Ew; [|exact Y2 | exact W| |apply type_stops].
        -- destruct Ew as [_ Ew]. injection Ew as Ew _. destruct V as (_ & _ & [-> | ->] & _); discriminate.
        -- intros d t K. injection K as <- _. destruct V as (_ & _ & [-> | ->] & _); reflexivity.
      * destruct V as (_ & _ & Nv & V).
        pose proof HB2 as HB3. do 3 (apply html_blanks_app in HB3; destruct HB3 as [_ HB3]). cbn [quotes_text] in HB3.
        pose proof (names_solid bare_char _ HB3 (fun c H => proj1 (bare_not c H)) V) as Sv.
        apply span_blanks in Ew; [|exact Y2 | exact W| |apply type_stops].
        -- destruct Ew as [_ Ew]. apply (span_unique bare_char v rest (S_ "type") (S_ "=" ++ dquote :: x :: value ++ dquote :: r)) in Ew.
           ++ destruct Ew as [_ Ew]. exact (rest_not_equal _ _ Hr Ew).
           ++ exact V.
           ++ repeat constructor.
           ++ apply Hb. eexists. eexists. eexists. exact Ev.
           ++ intros c t K. injection K as <- _. reflexivity.
        -- intros d t K. destruct v as [|c v]; [contradiction|]. injection K as <- _. now inversion Sv.
    + destruct V as (_ & _ & Nv & V).
      pose proof HB2 as HB3. do 3 (apply html_blanks_app in HB3; destruct HB3 as [_ HB3]). cbn [quotes_text] in HB3.
      pose proof (names_solid bare_char _ HB3 (fun c H => proj1 (bare_not c H)) V) as Sv.
      rewrite Ey in V, Sv. apply Forall_app in V. apply Forall_app in Sv. destruct V as [_ V]. destruct Sv as [_ Sv].
      change (y2 ++ rest) with ([] ++ y2 ++ rest) in Ew. apply span_blanks in Ew; [|constructor | exact W| |apply type_stops].
      * destruct Ew as [_ Ew]. apply (span_unique bare_char y2 rest (S_ "type") (S_ "=" ++ dquote :: x :: value ++ dquote :: r)) in Ew.
        -- destruct Ew as [_ Ew]. exact (rest_not_equal _ _ Hr Ew).
        -- exact V.
        -- repeat constructor.
        -- apply Hb. eexists. eexists. eexists. exact Ev.
        -- intros c t K. injection K as <- _. reflexivity.
      * intros d t K. destruct y2 as [|c y2]; [contradiction|]. injection K as <- _. now inversion Sv.
    + rewrite <- app_assoc in Ew. cbn [app] in Ew. rewrite app_assoc in Ew.
      destruct V as (_ & _ & Hq & V).
      destruct (app_split _ _ _ _ Ew) as [(k & K1 & K2) | (k & K1 & K2)].
      * assert (I : In q' (w ++ S_ "type=")).
        { rewrite K1. apply in_app_iff. right. destruct k as [|d k].
          - cbn [app] in K2. rewrite app_nil_r in K1. exfalso. apply Ho. exists (y1 ++ w), []. rewrite Ey, <- K1. now rewrite app_nil_r, app_assoc.
          - injection K2 as -> _. now left. }
        apply in_app_iff in I. destruct I as [I | I].
        -- unfold blanks in W. rewrite Forall_forall in W. apply W in I. destruct Hq as [-> | ->]; discriminate.
        -- destruct Hq as [-> | ->]; cbn in I; intuition discriminate.
      * apply Ho. exists (y1 ++ w), k. rewrite Ey, K1, <- !app_assoc. reflexivity.
Qed.

Lemma bare_stops : forall a l w sl r, Forall attribute_ok l -> html_run w -> end_ok (a :: l) w sl -> bare_value a ->
  stops bare_char (attributes_text l ++ w ++ slash_text sl ++ r).
Proof.
  intros a l w sl r Fl W He Kb d t E. destruct l as [|a2 l].
  - cbn [attributes_text map concat app] in E. destruct w as [|b2 w].
    + destruct sl; [|injection E as <- _; reflexivity]. exfalso. exact (He eq_refl eq_refl [] a eq_refl Kb).
    + injection E as <- _. inversion W as [|? ? B _]; subst. apply blank_not in B. tauto.
  - inversion Fl as [|? ? (Hg2 & Wg2 & _) _]; subst. unfold attributes_text in E. cbn [map concat] in E.
    unfold attribute_text at 1 in E. destruct (a_gap a2) as [|b2 g2]; [contradiction|]. injection E as <- _.
    inversion Wg2 as [|? ? B _]; subst. apply blank_not in B. tauto.
Qed.

(** Some attributes named type are gone. *)
Inductive fewer : list attribute -> list attribute -> Prop :=
| fw_nil : fewer [] []
| fw_keep : forall a l l', fewer l l' -> fewer (a :: l) (a :: l')
| fw_drop : forall a l l', a_name a = S_ "type" -> fewer l l' -> fewer (a :: l) l'.

Definition type_safe (a : attribute) : Prop :=
  ~ occurs (S_ "type=") (value_of a) /\ (ends_with (S_ "type") (a_name a) -> a_name a = S_ "type").

Lemma filter_fewer : forall l, fewer l (filter (fun a => negb (removable a)) l).
Proof.
  induction l as [|a l IH]; [constructor|]. cbn [filter]. destruct (removable a) eqn:E; cbn [negb]; [|now constructor].
  apply fw_drop; [|exact IH]. unfold removable in E. apply andb_true_iff in E. now apply str_eqb_eq.
Qed.

Lemma tag_rest_app : forall l w sl, Forall attribute_ok l -> html_run w ->
  tag_rest (attributes_text l ++ w ++ slash_text sl).
Proof.
  intros l w sl F W. pose proof (tag_rest_attributes l w sl [] F W) as H. now rewrite app_nil_r in H.
Qed.

Lemma untyped_attributes : forall l w sl e, Forall attribute_ok l -> Forall type_safe l -> html_blanks (attributes_text l) ->
  html_run w -> end_ok l w sl ->
  rewrites (type_attribute wu) (fun _ m' => m' = []) (attributes_text l ++ w ++ slash_text sl) e ->
  e = attributes_text (filter (fun a => negb (removable a)) l) ++ w ++ slash_text sl.
Proof.
  induction l as [|a l IH]; intros w sl e F S HB W He R.
  - cbn [filter]. cbn [attributes_text map concat app] in *.
    destruct (rewrites_none (type_attribute wu) (fun _ m' => m' = []) (w ++ slash_text sl) [] e) as (e' & -> & R').
    + now rewrite app_nil_r.
    + intros u1 u2 m r Eu Nu E T. rewrite app_nil_r in E. destruct T as [w0 x value r W0 _ _ _]. subst u2.
      rewrite <- !app_assoc in Eu. destruct (app_split _ _ _ _ Eu) as [(k & _ & K2) | (k & K1 & K2)].
      * assert (I : In 0x74 (slash_text sl)).
        { rewrite K2. apply in_app_iff. right. apply in_app_iff. right. cbn. auto. }
        destruct sl; cbn in I; intuition discriminate.
      * assert (I : In 0x74 (k ++ slash_text sl)).
        { rewrite <- K2. apply in_app_iff. right. apply in_app_iff. left. cbn. auto. }
        apply in_app_iff in I. destruct I as [I | I]; [|destruct sl; cbn in I; intuition discriminate].
        assert (I2 : In 0x74 w) by (rewrite K1; apply in_app_iff; now right).
        unfold html_run in W. rewrite Forall_forall in W. apply W in I2. discriminate.
    + destruct (rewrites_cases _ _ _ _ R') as [[_ K] | [(d & s' & e2 & K1 & _) | (m1 & m' & r' & e2 & K1 & _ & K2 & _)]].
      * subst e'. now rewrite app_nil_r.
      * discriminate.
      * symmetry in K1. apply app_eq_nil in K1. tauto.
  - inversion F as [|? ? Ha Fl]; inversion S as [|? ? (Sa1 & Sa2) Sl]; subst.
    unfold attributes_text in *. cbn [map concat] in *. fold (attributes_text l) in *. rewrite <- app_assoc in R.
    apply html_blanks_app in HB. destruct HB as [HB1 HB2].
    assert (He' : end_ok l w sl).
    { intros K1 K2 l' a' K3. apply (He K1 K2 (a :: l') a'). now rewrite K3. }
    destruct (removable a) eqn:Erm.
    + destruct (removable_type a (attributes_text l ++ w ++ slash_text sl) Ha Erm) as [Nm T].
      destruct (rewrites_hit _ _ _ _ _ R) as (m' & e' & -> & -> & R').
      * destruct Ha as (Hg & _). unfold attribute_text. destruct (a_gap a); [contradiction | discriminate].
      * exact T.
      * exact (type_det wu).
      * rewrite (IH w sl e' Fl Sl HB2 W He' R'). cbn [filter]. now rewrite Erm.
    + destruct (rewrites_none _ _ _ _ _ R) as (e' & -> & R').
      * apply no_type; try assumption.
        -- apply tag_rest_app; assumption.
        -- intro Kb. pose proof (bare_stops a l w sl [] Fl W He Kb) as K. now rewrite app_nil_r in K.
      * rewrite (IH w sl e' Fl Sl HB2 W He' R'). cbn [filter]. rewrite Erm. cbn [negb].
        unfold attributes_text. cbn [map concat]. now rewrite <- app_assoc.
Qed.

Lemma untyped_tag : forall n l w sl e, part_ok (PStart n l w sl) -> Forall type_safe l ->
  html_blanks (part_text (PStart n l w sl)) ->
  rewrites (type_attribute wu) (fun _ m' => m' = []) (part_text (PStart n l w sl)) e ->
  e = part_text (PStart n (filter (fun a => negb (removable a)) l) w sl).
Proof.
  intros n l w sl e ((Hn & Fn) & Fl & W & He) S HB R. cbn [part_text] in *. rewrite app_assoc in R.
  assert (HBn : html_blanks n /\ html_blanks (attributes_text l)).
  { apply html_blanks_app in HB. destruct HB as [_ HB]. apply html_blanks_app in HB. destruct HB as [HB1 HB].
    apply html_blanks_app in HB. tauto. }
  pose proof (names_solid name_char _ (proj1 HBn) (fun c H => proj1 (name_not c H)) Fn) as Sn.
  destruct (rewrites_none _ _ _ _ _ R) as (e' & -> & R').
  - intros u1 u2 m r Eu Nu E T. destruct T as [w0 x value r W0 _ _ _].
    assert (Ew : u2 ++ attributes_text l ++ w ++ slash_text sl = w0 ++ S_ "type=" ++ dquote :: x :: value ++ dquote :: r).
    { rewrite E. rewrite <- app_assoc. f_equal. cbn. rewrite <- app_assoc. reflexivity. }
    destruct u1 as [|d u1].
    + cbn [app] in Eu. subst u2. change ((S_ "<" ++ n) ++ attributes_text l ++ w ++ slash_text sl)
        with ([] ++ (S_ "<" ++ n) ++ attributes_text l ++ w ++ slash_text sl) in Ew.
      apply span_blanks in Ew; [|constructor | exact W0| |apply type_stops].
      * destruct Ew as [_ Ew]. discriminate.
      * intros c t K. injection K as <- _. reflexivity.
    + cbn in Eu. injection Eu as _ Eu. subst n. apply Forall_app in Fn, Sn. destruct Fn as [_ Fn]. destruct Sn as [_ Sn].
      change (u2 ++ attributes_text l ++ w ++ slash_text sl) with ([] ++ u2 ++ attributes_text l ++ w ++ slash_text sl) in Ew.
      apply span_blanks in Ew; [|constructor | exact W0| |apply type_stops].
      * destruct Ew as [_ Ew].
        apply (span_unique name_char u2 _ (S_ "type") (S_ "=" ++ dquote :: x :: value ++ dquote :: r)) in Ew.
        -- destruct Ew as [_ Ew]. exact (rest_not_equal _ _ (tag_rest_app l w sl Fl W) Ew).
        -- exact Fn.
        -- repeat constructor.
        -- apply tag_rest_name, tag_rest_app; assumption.
        -- intros c t K. injection K as <- _. reflexivity.
      * intros c t K. destruct u2 as [|c2 u2]; [contradiction|]. injection K as <- _. now inversion Sn.
  - rewrite (untyped_attributes l w sl e' Fl S (proj2 HBn) W He R').
    now rewrite <- app_assoc.
Qed.

(** What condensing does to a part. *)
Inductive untypes : part -> part -> Prop :=
| un_same : forall p, ~ script_tag wu (part_text p) [] -> untypes p p
| un_fewer : forall n l w sl, typed_element n = true -> script_tag wu (part_text (PStart n l w sl)) [] ->
    untypes (PStart n l w sl) (PStart n (filter (fun a => negb (removable a)) l) w sl).

Lemma script_any : forall m r r', script_tag wu m r -> script_tag wu m r'.
Proof. intros m r r' []. now constructor. Qed.

Lemma char_unscripted : forall c, ~ script_tag wu (part_text (PChar c)) [].
Proof.
  intros c. cbn [part_text]. generalize (@nil N) at 2. intros r0 T. remember [c] as m eqn:Em. destruct T as [name x body r I _ _ _].
  destruct I as [<- | [<- | []]]; cbn in Em; discriminate.
Qed.

Lemma script_lt : forall m t, script_tag wu m t -> exists m', m = lt :: m'.
Proof. intros m t [name x body r [<- | [<- | []]] _ _ _]; eexists; reflexivity. Qed.

Lemma name_prefix : forall k n rest z, Forall (fun c => name_char c = true) k -> stops name_char rest ->
  n ++ rest = k ++ z -> exists n', n = k ++ n'.
Proof.
  intros k n rest z Fk St E. destruct (app_split _ _ _ _ E) as [(j & E1 & E2) | (j & -> & _)]; [|eauto].
  destruct j as [|c j]; [exists []; now rewrite app_nil_r in *|]. exfalso.
  assert (name_char c = true). { subst k. apply Forall_app in Fk. destruct Fk as [_ Fk]. now inversion Fk. }
  rewrite (St c (j ++ z) E2) in H. discriminate.
Qed.

Lemma script_start : forall p r m t, part_ok p -> ~ is_comment p -> (forall c, p <> PChar c) ->
  part_text p ++ r = m ++ t -> script_tag wu m t -> m = part_text p /\ exists n l w sl, p = PStart n l w sl /\ typed_element n = true.
Proof.
  intros p r m t Hp Nc Np E T. destruct (part_tag p Hp Nc Np) as (x & s & Ep & N1 & N2 & Hx & Hs).
  destruct T as [name y body t I Hy G _].
  assert (Hyg : y <> gt).
  { intros ->. destruct Hy as [[[_ [K | [K | K]]] | [K _]] | [K | K]]; unfold letter, digit, gt in K; try lia; discriminate. }
  assert (Ng : ~ In gt name) by (destruct I as [<- | [<- | []]]; cbn; intuition discriminate).
  assert (Em : lt :: x :: s = name ++ y :: body).
  { rewrite Ep in E. assert (E' : (lt :: x :: s) ++ gt :: r = (name ++ y :: body) ++ gt :: t).
    { rewrite <- app_assoc. cbn [app] in E |- *. rewrite <- !app_assoc in E. cbn [app] in E. rewrite <- app_assoc in E. exact E. }
    apply first_split in E'; [exact E' | |].
    - intros [K | K]; [discriminate | contradiction].
    - intro K. apply in_app_iff in K. destruct K as [K | [K | K]]; [contradiction | congruence | contradiction]. }
  assert (Et : part_text p = name ++ y :: body ++ [gt]).
  { rewrite Ep. change ([lt] ++ (x :: s) ++ [gt]) with ((lt :: x :: s) ++ [gt]). rewrite Em, <- app_assoc. reflexivity. }
  split; [now rewrite Et|].
  assert (Ax : ascii_alpha x = true).
  { destruct I as [<- | [<- | []]]; cbn in Em; injection Em as -> _; reflexivity. }
  apply Hs in Ax. destruct Ax as (n & l & w & sl & ->). exists n, l, w, sl. split; [reflexivity|].
  destruct Hp as ((_ & Fn) & Fl & W & _). cbn [part_text] in Et. unfold typed_element.
  destruct I as [<- | [<- | []]]; cbn in Et; injection Et as Et.
  - destruct (name_prefix (S_ "style") n (attributes_text l ++ w ++ slash_text sl) (y :: body ++ [gt])) as (n' & ->).
    + repeat constructor.
    + now apply tag_rest_name, tag_rest_app.
    + exact Et.
    + now rewrite is_start_app.
  - destruct (name_prefix (S_ "script") n (attributes_text l ++ w ++ slash_text sl) (y :: body ++ [gt])) as (n' & ->).
    + repeat constructor.
    + now apply tag_rest_name, tag_rest_app.
    + exact Et.
    + rewrite is_start_app. apply orb_true_r.
Qed.

Definition safe_type (p : part) : Prop :=
  match p with PStart n l _ _ => typed_element n = true -> Forall type_safe l | _ => True end.

Lemma untyped_parts : forall ps e, Forall part_ok ps -> Forall (fun p => ~ is_comment p) ps -> Forall safe_type ps ->
  html_blanks (text_of ps) -> untyped wu (text_of ps) e ->
  exists ps', Forall2 untypes ps ps' /\ e = text_of ps'.
Proof.
  unfold text_of. induction ps as [|p ps IH]; intros e F C S HB R; cbn [map concat] in *.
  - exists []. split; [constructor|].
    destruct (rewrites_cases _ _ _ _ R) as [[_ K] | [(d & s' & e' & K1 & _) | (m1 & m' & r' & e' & K1 & _ & K2 & _)]];
      [exact K | discriminate|]. symmetry in K1. apply app_eq_nil in K1. tauto.
  - inversion F as [|? ? Hp Fl]; inversion C as [|? ? Cp Cl]; inversion S as [|? ? Sp Sl]; subst.
    apply html_blanks_app in HB. destruct HB as [HB1 HB2].
    destruct (part_cases p) as [[c ->] | [[c ->] | [Np Nc]]].
    + destruct (char_copied _ _ _ _ _ Hp script_lt R) as (e' & -> & R').
      destruct (IH e' Fl Cl Sl HB2 R') as (ps' & F2 & ->). exists (PChar c :: ps'). split; [constructor; [apply un_same, char_unscripted | exact F2] | reflexivity].
    + exfalso. apply Cp. eexists. reflexivity.
    + destruct (rewrites_cases _ _ _ _ R) as [[K _] | [(d & s' & e' & K1 & K2 & K3 & R') | (m1 & m' & r' & e' & K1 & -> & K2 & L1 & Fm & R')]].
      * destruct (part_first p Hp Np) as (t & Ep). rewrite Ep in K. discriminate.
      * destruct (tag_copied (script_tag wu) (rewrites (type_attribute wu) (fun _ m' => m' = [])) p (concat (map part_text ps)) e Hp Nc Np script_lt K3 R)
          as (e2 & -> & R2).
        destruct (IH e2 Fl Cl Sl HB2 R2) as (ps' & F2 & ->). exists (p :: ps'). split; [constructor; [apply un_same | exact F2] | reflexivity].
        intro T. exact (K3 _ _ eq_refl (script_any _ _ _ T)).
      * destruct (script_start p _ _ _ Hp Nc Np K1 L1) as (-> & n & l & w & sl & -> & Ht).
        apply app_inv_head in K1. subst r'. destruct (IH e' Fl Cl Sl HB2 R') as (ps' & F2 & ->).
        rewrite (untyped_tag n l w sl m' Hp (Sp Ht) HB1 Fm).
        eexists. split; [constructor; [apply un_fewer; [exact Ht | exact (script_any _ _ _ L1)] | exact F2] | reflexivity].
Qed.
End Types.

(** ** Tags to drop *)

Definition dropped (p : part) : bool := inb spec_tags (part_text p).

Lemma part_piece : forall p, part_ok p -> ~ is_comment p -> piece (part_text p).
Proof.
  intros p Hp Hc. destruct (part_cases p) as [[c ->] | [[c ->] | [Np Nc]]].
  - apply p_text. intros [K | []]. exact (Hp K).
  - exfalso. apply Hc. eexists. reflexivity.
  - destruct (part_tag p Hp Nc Np) as (x & s & -> & N1 & N2 & _). now apply p_tag.
Qed.

Lemma cleaned_parts : forall ps, Forall part_ok ps -> Forall (fun p => ~ is_comment p) ps ->
  clean_unneeded_tags (text_of ps) = text_of (filter (fun p => negb (dropped p)) ps).
Proof.
  intros ps F C. unfold text_of. apply clean_pieces.
  - induction F as [|p ps Hp F IH]; [constructor|]. inversion C; subst. constructor; [now apply part_piece | now apply IH].
  - clear F C. induction ps as [|p ps IH]; [constructor|]. cbn [filter map]. unfold dropped at 1.
    destruct (inb spec_tags (part_text p)) eqn:E; cbn [negb].
    + apply k_drop; [apply spec_tags_iff; now apply inb_iff | exact IH].
    + apply k_keep; [|exact IH]. intro K. apply spec_tags_iff, inb_iff in K. congruence.
Qed.
