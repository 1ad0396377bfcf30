(** The stages of the minifier on the parts of a document: quotation marks; the tags together. *)
From Coq Require Import String List NArith Bool Arith Lia ZifyBool ZifyN.
From Verif Require Import Base HtmlModel HtmlSpec HtmlSyntaxSpec HtmlProofs1 HtmlProofs2 HtmlProofs3 HtmlProofs4 HtmlProofs5 HtmlProofs6 HtmlProofs7 HtmlProofs8 HtmlProofs9 HtmlProofs10.
Import ListNotations.
Open Scope N_scope.

(** ** Values of width and height *)

Definition size_safe (a : attribute) : Prop :=
  ~ occurs (S_ "width=" ++ [dquote]) (value_of a) /\ ~ occurs (S_ "height=" ++ [dquote]) (value_of a).

Lemma letter_name : forall c, letter c -> name_char c = true /\ bare_char c = true /\ is_whitespace c = false /\ c <> dquote /\ c <> squote /\ c <> 0x3D.
Proof. intros c H. unfold letter in H. unfold name_char, bare_char, html_blank, is_whitespace, dquote, squote. cbn. lia. Qed.

Lemma value_letter_bare : forall c, value_letter c -> bare_char c = true /\ c <> dquote /\ c <> squote /\ html_blank c = false /\ c <> 0x2F /\ c <> gt.
Proof.
  intros c H. unfold value_letter, letter, digit in H. unfold bare_char, html_blank, dquote, squote, gt. cbn. lia.
Qed.

Lemma letters_names : forall s, Forall letter s -> Forall (fun c => name_char c = true) s /\ Forall (fun c => bare_char c = true) s.
Proof. intros s F. split; apply Forall_impl with (2 := F); intros c H; apply letter_name in H; tauto. Qed.

Lemma value_stops : forall a rest, attribute_ok a -> tag_rest rest -> stops name_char (value_text (a_value a) ++ rest).
Proof.
  intros a rest (_ & _ & _ & _ & V) Hr. destruct (a_value a) as [[[[w1 w2] q] v]|]; [|now apply tag_rest_name].
  cbn [value_text]. destruct w1 as [|b w1].
  - intros d t K. injection K as <- _. reflexivity.
  - assert (B : html_blank b = true) by (destruct q; cbn in V; destruct V as (W1 & _); now inversion W1).
    intros d t K. injection K as <- _. apply blank_not in B. tauto.
Qed.

(** Where a simple attribute is found in the text of an attribute. *)
Lemma simple_found : forall a rest, attribute_ok a -> size_safe a -> tag_rest rest -> (bare_value a -> stops bare_char rest) ->
  forall u1 u2 m r, attribute_text a = u1 ++ u2 -> u2 <> [] -> u2 ++ rest = m ++ r -> simple_attribute m r ->
  (exists n1 n2 v, a_name a = n1 ++ n2 /\ n2 <> [] /\ Forall letter n2 /\ a_value a = Some ([], [], Some dquote, v) /\
     v <> [] /\ Forall value_letter v /\ u2 = n2 ++ value_text (a_value a)) \/
  ((exists w1 w2 v, a_value a = Some (w1, w2, Some squote, v)) /\ (exists u3, u2 = m ++ u3) /\ forall m', attribute_out m m' -> m' = m).
Proof.
  intros a rest Ha (Z1 & Z2) Hr Hb u1 u2 m r Eu Nu E T. pose proof Ha as (Hg & G & Hn & Fn & V).
  destruct T as [name value r Nn Ln Nv Lv].
  assert (Ew : u2 ++ rest = name ++ S_ "=" ++ dquote :: value ++ dquote :: r).
  { rewrite E. rewrite <- app_assoc. f_equal. cbn. rewrite <- app_assoc. reflexivity. }
  destruct (letters_names _ Ln) as [Ln1 Ln2].
  assert (First : forall c s, name ++ S_ "=" ++ dquote :: value ++ dquote :: r = c :: s -> letter c).
  { intros c s K. destruct name as [|d name]; [contradiction|]. injection K as <- _. now inversion Ln. }
  assert (EqStop : forall p z, p 0x3D = false -> stops p (S_ "=" ++ z)).
  { intros p z Hp c t K. injection K as <- _. exact Hp. }
  destruct (attribute_positions a u1 u2 Eu Nu) as [(g1 & g2 & Eg & ->) | [(n1 & n2 & En & Nn2 & ->) | (w1 & w2 & q & v & Ev & Pos)]].
  - destruct g2 as [|b g2].
    + left. cbn [app] in Ew |- *. rewrite <- app_assoc in Ew. apply (span_unique name_char) in Ew;
        [|exact Fn | exact Ln1 | now apply value_stops | now apply EqStop].
      destruct Ew as [Enm Ew]. exists [], (a_name a).
      assert (Hv : exists v, a_value a = Some ([], [], Some dquote, v) /\ v = value).
      { destruct (a_value a) as [[[[w1 w2] q] v]|]; [|exfalso; exact (rest_not_equal _ _ Hr Ew)].
        cbn [value_text] in Ew. rewrite <- !app_assoc in Ew. cbn [value_ok] in V.
        assert (W1 : html_run w1) by (destruct q; tauto). assert (W2 : html_run w2) by (destruct q; tauto).
        destruct w1 as [|b w1]; [|injection Ew as Ew _; inversion W1 as [|? ? B _]; apply blank_not in B; exfalso; intuition congruence].
        cbn in Ew. injection Ew as Ew.
        destruct w2 as [|b w2]; [|injection Ew as Ew _; inversion W2 as [|? ? B _]; apply blank_not in B; exfalso; intuition congruence].
        cbn [app] in Ew. destruct q as [q|]; cbn [quotes_text] in Ew.
        - injection Ew as -> Ew. rewrite <- app_assoc in Ew. cbn [app] in Ew. destruct V as (_ & _ & _ & V). apply quoted_no_angle in V.
          apply first_split in Ew; [|tauto|]. { subst v. eauto. }
          intro K. rewrite Forall_forall in Lv. apply Lv, value_letter_bare in K. tauto.
        - exfalso. destruct V as (_ & _ & Nv' & V). destruct v as [|c v]; [contradiction|]. injection Ew as -> _. inversion V. discriminate. }
      destruct Hv as (v & Ev & ->). exists value. repeat split; try assumption. now rewrite Enm.
    + exfalso. cbn [app] in Ew. symmetry in Ew. apply First in Ew. apply letter_name in Ew.
      unfold html_run in G. rewrite Eg in G. apply Forall_app in G. destruct G as [_ G]. inversion G as [|? ? B _]; subst.
      apply html_blank_blank in B. unfold blank in B. intuition congruence.
  - left. rewrite <- app_assoc in Ew.
    assert (Fn2 : Forall (fun c => name_char c = true) n2) by (rewrite En in Fn; apply Forall_app in Fn; tauto).
    apply (span_unique name_char) in Ew; [|exact Fn2 | exact Ln1 | now apply value_stops | now apply EqStop].
    destruct Ew as [Enm Ew]. exists n1, n2.
    assert (Hv : exists v, a_value a = Some ([], [], Some dquote, v) /\ v = value).
    { destruct (a_value a) as [[[[w1 w2] q] v]|]; [|exfalso; exact (rest_not_equal _ _ Hr Ew)].
      cbn [value_text] in Ew. rewrite <- !app_assoc in Ew. cbn [value_ok] in V.
      assert (W1 : html_run w1) by (destruct q; tauto). assert (W2 : html_run w2) by (destruct q; tauto).
      destruct w1 as [|b w1]; [|injection Ew as Ew _; inversion W1 as [|? ? B _]; apply blank_not in B; exfalso; intuition congruence].
      cbn in Ew. injection Ew as Ew.
      destruct w2 as [|b w2]; [|injection Ew as Ew _; inversion W2 as [|? ? B _]; apply blank_not in B; exfalso; intuition congruence].
      cbn [app] in Ew. destruct q as [q|]; cbn [quotes_text] in Ew.
      - injection Ew as -> Ew. rewrite <- app_assoc in Ew. cbn [app] in Ew. destruct V as (_ & _ & _ & V). apply quoted_no_angle in V.
        apply first_split in Ew; [|tauto|]. { subst v. eauto. }
        intro K. rewrite Forall_forall in Lv. apply Lv, value_letter_bare in K. tauto.
      - exfalso. destruct V as (_ & _ & Nv' & V). destruct v as [|c v]; [contradiction|]. injection Ew as -> _. inversion V. discriminate. }
    destruct Hv as (v & Ev & ->). exists value. repeat split; try assumption. now rewrite Enm.
  - unfold value_of in Z1, Z2. rewrite Ev in *. cbn [value_text value_ok] in *.
    assert (W1 : html_run w1) by (destruct q; tauto). assert (W2 : html_run w2) by (destruct q; tauto).
    destruct Pos as [(y1 & y2 & Ey & ->) | [(y1 & y2 & Ey & ->) | [(-> & y1 & y2 & Ey & ->) | (q' & -> & y1 & y2 & Ey & ->)]]].
    + exfalso. rewrite <- !app_assoc in Ew. destruct y2 as [|b y2].
      * symmetry in Ew. apply First in Ew. apply letter_name in Ew. tauto.
      * cbn [app] in Ew. symmetry in Ew. apply First in Ew. apply letter_name in Ew.
        unfold html_run in W1. rewrite Ey in W1. apply Forall_app in W1. destruct W1 as [_ W1]. inversion W1 as [|? ? B _]; subst.
        apply html_blank_blank in B. unfold blank in B. intuition congruence.
    + exfalso. rewrite <- !app_assoc in Ew. destruct y2 as [|b y2].
      * destruct q as [q|]; cbn [quotes_text app] in Ew.
        -- symmetry in Ew. apply First in Ew. apply letter_name in Ew. destruct V as (_ & _ & Hq & _). intuition congruence.
        -- apply (span_unique bare_char) in Ew; [| tauto | exact Ln2 | apply Hb; do 3 eexists; exact Ev | now apply EqStop].
           destruct Ew as [_ Ew]. exact (rest_not_equal _ _ Hr Ew).
      * cbn [app] in Ew. symmetry in Ew. apply First in Ew. apply letter_name in Ew.
        unfold html_run in W2. rewrite Ey in W2. apply Forall_app in W2. destruct W2 as [_ W2]. inversion W2 as [|? ? B _]; subst.
        apply html_blank_blank in B. unfold blank in B. intuition congruence.
    + exfalso. destruct V as (_ & _ & _ & V). rewrite Ey in V. apply Forall_app in V. destruct V as [_ V].
      apply (span_unique bare_char) in Ew; [| exact V | exact Ln2 | apply Hb; do 3 eexists; exact Ev | now apply EqStop].
      destruct Ew as [_ Ew]. exact (rest_not_equal _ _ Hr Ew).
    + destruct V as (_ & _ & [-> | ->] & V).
      * exfalso. rewrite <- app_assoc in Ew. cbn [app] in Ew. apply quoted_no_angle in V. destruct V as (_ & _ & V).
        rewrite (app_assoc name) in Ew. pose proof Ew as Ew2. apply first_split in Ew.
        -- rewrite Ew in Ew2. apply app_inv_head in Ew2. injection Ew2 as Ew2. destruct value as [|c value]; [contradiction|].
           assert (Lc : value_letter c) by now inversion Lv. apply value_letter_bare in Lc. destruct Hr as (d & t & E1 & Hd). rewrite E1 in Ew2.
           injection Ew2 as -> _. intuition congruence.
        -- intro K. apply V. rewrite Ey. apply in_app_iff. now right.
        -- intro K. apply in_app_iff in K. destruct K as [K | K]; [|cbn in K; intuition discriminate].
           rewrite Forall_forall in Ln. apply Ln, letter_name in K. tauto.
      * right. split; [eauto|]. rewrite <- app_assoc in E. cbn [app] in E.
        assert (Nq : ~ In squote (name ++ S_ "=" ++ [dquote] ++ value ++ [dquote])).
        { rewrite !in_app_iff. intros [K | [K | [K | [K | K]]]]; try (cbn in K; intuition discriminate).
          - rewrite Forall_forall in Ln. apply Ln, letter_name in K. tauto.
          - rewrite Forall_forall in Lv. apply Lv, value_letter_bare in K. tauto. }
        assert (exists k, y2 = (name ++ S_ "=" ++ [dquote] ++ value ++ [dquote]) ++ k) as (k & Ek).
        { destruct (app_split _ _ _ _ E) as [(k & K1 & K2) | (k & K1 & K2)]; [|eauto].
          destruct k as [|d k]; [exists []; now rewrite app_nil_r in *|]. exfalso. injection K2 as <- _.
          assert (I : In squote (name ++ S_ "=" ++ dquote :: value ++ [dquote])) by (rewrite K1; apply in_app_iff; right; now left).
          exact (Nq I). }
        split; [exists (k ++ [squote]); rewrite Ek, <- app_assoc; reflexivity|].
        intros m' Fm. remember (name ++ S_ "=" ++ [dquote] ++ value ++ [dquote]) as m eqn:Em.
        destruct Fm as [nm vl I|nm vl _ _]; [|reflexivity]. exfalso.
        destruct I as [<- | [<- | []]]; [apply Z1 | apply Z2]; rewrite Ey, Ek.
        -- exists y1, (vl ++ [dquote] ++ k). rewrite <- !app_assoc. reflexivity.
        -- exists y1, (vl ++ [dquote] ++ k). rewrite <- !app_assoc. reflexivity.
Qed.

(** What becomes of an attribute: width and height may lose their quotation marks. *)
Definition last_letters (n pre name : str) : Prop :=
  n = pre ++ name /\ Forall letter name /\ (pre = [] \/ exists x c, pre = x ++ [c] /\ ~ letter c).

(** The attributes that lose them. *)
Definition quotable (a : attribute) : Prop :=
  exists pre name v, last_letters (a_name a) pre name /\ In name [S_ "width"; S_ "height"] /\
    a_value a = Some ([], [], Some dquote, v) /\ v <> [] /\ Forall value_letter v.

Lemma last_letters_unique : forall n pre name pre' name', last_letters n pre name -> last_letters n pre' name' -> name = name'.
Proof.
  assert (W : forall pre k name, Forall letter (k ++ name) -> (pre ++ k = [] \/ exists x c, pre ++ k = x ++ [c] /\ ~ letter c) -> k = []).
  { intros pre k name F H. destruct (last_split k) as [-> | (z & d & ->)]; [reflexivity|]. exfalso.
    apply Forall_app in F. destruct F as [F _]. apply Forall_app in F. destruct F as [_ F]. inversion F as [|? ? Ld _]; subst.
    destruct H as [H | (x & c & H & Hc)].
    - apply app_eq_nil in H. destruct H as [_ H]. apply app_eq_nil in H. destruct H; discriminate.
    - rewrite app_assoc in H. apply app_inj_tail in H. destruct H as [_ <-]. contradiction. }
  intros n pre name pre' name' (-> & F & H) (E & F' & H').
  destruct (app_split _ _ _ _ E) as [(k & -> & ->) | (k & -> & ->)].
  - now rewrite (W pre k name' F H').
  - now rewrite (W pre' k name F' H).
Qed.

Inductive unquotes : attribute -> attribute -> Prop :=
| uq_same : forall a, ~ quotable a -> unquotes a a
| uq_bare : forall g n w1 w2 v, ends_with (S_ "width") n \/ ends_with (S_ "height") n -> v <> [] -> Forall value_letter v ->
    quotable (Attribute g n (Some (w1, w2, Some dquote, v))) ->
    unquotes (Attribute g n (Some (w1, w2, Some dquote, v))) (Attribute g n (Some (w1, w2, None, v))).

Lemma letters_end : forall n : str, exists pre l, n = pre ++ l /\ Forall letter l /\ (pre = [] \/ exists x c, pre = x ++ [c] /\ ~ letter c).
Proof.
  induction n as [|c n (pre & l & -> & Fl & H)]; [exists [], []; auto|].
  destruct H as [-> | (x & d & -> & Hd)].
  - destruct (ascii_letter c) eqn:Ec.
    + apply ascii_letter_iff in Ec. exists [], (c :: l). repeat split; [now constructor | now left].
    + exists [c], l. repeat split; [exact Fl|]. right. exists [], c. split; [reflexivity|]. rewrite <- ascii_letter_iff. congruence.
  - exists (c :: x ++ [d]), l. repeat split; [exact Fl|]. right. exists (c :: x), d. auto.
Qed.

Lemma value_dec : forall v, {Forall value_letter v} + {~ Forall value_letter v}.
Proof.
  intro v. destruct (forallb value_char v) eqn:E.
  - left. rewrite forallb_forall in E. apply Forall_forall. intros c I. apply value_iff. auto.
  - right. intro F. rewrite Forall_forall in F.
    assert (K : forallb value_char v = true) by (apply forallb_forall; intros c I; apply value_iff; auto). congruence.
Qed.

Lemma unquoted_attribute : forall a rest e, attribute_ok a -> size_safe a -> tag_rest rest -> (bare_value a -> stops bare_char rest) ->
  unquoted (attribute_text a ++ rest) e ->
  exists a' e', unquotes a a' /\ e = attribute_text a' ++ e' /\ unquoted rest e'.
Proof.
  intros a rest e Ha Hz Hr Hb R.
  destruct (letters_end (a_name a)) as (pre & l & En & Fl & Hpre).
  assert (D : (l <> [] /\ exists v, a_value a = Some ([], [], Some dquote, v) /\ v <> [] /\ Forall value_letter v) \/
              ~ (l <> [] /\ exists v, a_value a = Some ([], [], Some dquote, v) /\ v <> [] /\ Forall value_letter v)).
  { destruct l as [|c l]; [right; tauto|]. destruct (a_value a) as [[[[[|? ?] [|? ?]] [q|]] [|x v]]|];
      try (right; intros (_ & y & K & K2 & _); congruence).
    destruct (N.eq_dec q dquote) as [-> | Nq]; [|right; intros (_ & y & K & _); congruence].
    destruct (value_dec (x :: v)) as [F | NF].
    - left. split; [discriminate|]. exists (x :: v). repeat split; [discriminate | exact F].
    - right. intros (_ & y & K & _ & F). injection K as <-. contradiction. }
  destruct D as [(Nl & v & Ev & Nv & Fv) | ND].
  - assert (Et : attribute_text a = (a_gap a ++ pre) ++ (l ++ S_ "=" ++ [dquote] ++ v ++ [dquote])).
    { unfold attribute_text. rewrite En, Ev. cbn [value_text quotes_text app]. rewrite <- !app_assoc. reflexivity. }
    rewrite Et, <- app_assoc in R.
    destruct (rewrites_none _ _ _ _ _ R) as (e1 & -> & R1).
    + intros u1 u2 m r Eu Nu E T.
      destruct (simple_found a rest Ha Hz Hr Hb u1 (u2 ++ (l ++ S_ "=" ++ [dquote] ++ v ++ [dquote])) m r) as [(n1 & n2 & v' & _ & _ & Ln2 & Ev' & _ & _ & E2) | ((w1 & w2 & v' & Ev') & _)].
      * rewrite Et, Eu, <- app_assoc. reflexivity.
      * intro K. apply app_eq_nil in K. tauto.
      * rewrite <- app_assoc. exact E.
      * exact T.
      * rewrite Ev in E2. cbn [value_text quotes_text app] in E2. 
        change (dquote :: v ++ [dquote]) with ([dquote] ++ v ++ [dquote]) in E2. rewrite (app_assoc u2) in E2.
        apply app_inv_tail in E2. assert (Lu : Forall letter u2) by (rewrite <- E2 in Ln2; apply Forall_app in Ln2; tauto).
        assert (exists y d, a_gap a ++ pre = y ++ [d] /\ ~ letter d) as (y & d & Ey & Hd).
        { destruct Hpre as [-> | (x & c & -> & Hc)].
          - rewrite app_nil_r. destruct Ha as (Hg & G & _). destruct (last_split (a_gap a)) as [K | (y & d & K)]; [contradiction|].
            exists y, d. split; [exact K|]. unfold html_run in G. rewrite K in G. apply Forall_app in G. destruct G as [_ G]. inversion G as [|? ? B _]; subst.
            intro Ld. apply letter_name in Ld. apply html_blank_blank in B. unfold blank in B. intuition congruence.
          - exists (a_gap a ++ x), c. split; [now rewrite app_assoc | exact Hc]. }
        rewrite Ey in Eu. destruct (last_split u2) as [K | (z & d' & K)]; [contradiction|].
        rewrite K, app_assoc in Eu. apply app_inj_tail in Eu. destruct Eu as [_ <-].
        rewrite K in Lu. apply Forall_app in Lu. destruct Lu as [_ Lu]. inversion Lu. contradiction.
      * rewrite Ev in Ev'. unfold dquote, squote in Ev'. discriminate.
    + destruct (rewrites_hit _ _ _ _ _ R1) as (m' & e2 & -> & Fm & R2).
      * destruct l; [contradiction | discriminate].
      * now constructor.
      * exact attribute_det.
      * remember (l ++ S_ "=" ++ [dquote] ++ v ++ [dquote]) as m eqn:Em.
        destruct Fm as [name value I|name value Fl' NI].
        -- pose proof Em as Em2. cbn in Em2. apply first_split in Em2.
           2:{ destruct I as [<- | [<- | []]]; cbn; intuition discriminate. }
           2:{ now apply letters_noteq. }
           subst name. apply app_inv_head in Em. do 2 apply app_inv_head in Em. apply app_inv_tail in Em. subst value.
           destruct a as [g n av]. cbn [a_gap a_name a_value] in *. subst n av.
           exists (Attribute g (pre ++ l) (Some ([], [], None, v))), e2. split; [|split].
           ++ constructor; try assumption; [destruct I as [<- | [<- | []]]; [left | right]; eexists; reflexivity|].
              exists pre, l, v. repeat split; assumption.
           ++ unfold attribute_text. cbn [a_gap a_name a_value value_text quotes_text]. flat.
           ++ exact R2.
        -- pose proof Em as Em2. cbn in Em2. apply first_split in Em2.
           2:{ now apply letters_noteq. }
           2:{ now apply letters_noteq. }
           exists a, e2. split; [|split; [rewrite Et, Em, <- !app_assoc; reflexivity | exact R2]].
           constructor. intros (pre' & name' & v' & Hl & I & _).
           rewrite (last_letters_unique _ _ _ pre l Hl (conj En (conj Fl Hpre))) in I. subst name. contradiction.
  - destruct (rewrites_same _ _ _ _ _ _ (le_n _) R) as (e1 & -> & R1).
    + intros u1 u2 m r Eu Nu E T.
      destruct (simple_found a rest Ha Hz Hr Hb u1 u2 m r Eu Nu E T) as [(n1 & n2 & v & En2 & Nn2 & Ln2 & Ev & Nv & Fv & _) | (_ & K)]; [|exact K].
      exfalso. apply ND. split; [|eauto]. intros ->. rewrite app_nil_r in En.
      destruct Hpre as [-> | (x & c & -> & Hc)].
      * rewrite En in En2. symmetry in En2. apply app_eq_nil in En2. tauto.
      * rewrite En in En2. destruct (last_split n2) as [K | (z & d' & K)]; [contradiction|].
        rewrite K, app_assoc in En2. apply app_inj_tail in En2. destruct En2 as [_ <-].
        rewrite K in Ln2. apply Forall_app in Ln2. destruct Ln2 as [_ Ln2]. inversion Ln2. contradiction.
    + exists a, e1. split; [|auto]. constructor. intros (pre' & name' & v' & Hl & I & K). apply ND. split; [|eauto].
      rewrite <- (last_letters_unique _ _ _ pre l Hl (conj En (conj Fl Hpre))). intros ->. destruct I as [I | [I | []]]; discriminate.
Qed.

Lemma unquoted_nil : forall e, unquoted [] e -> e = [].
Proof.
  intros e R. destruct (rewrites_cases _ _ _ _ R) as [[_ K] | [(d & s' & e2 & K1 & _) | (m1 & m' & r' & e2 & K1 & _ & K2 & _)]].
  - exact K.
  - discriminate.
  - symmetry in K1. apply app_eq_nil in K1. tauto.
Qed.

Lemma unquoted_attributes : forall l w sl e, Forall attribute_ok l -> Forall size_safe l -> html_run w -> end_ok l w sl ->
  unquoted (attributes_text l ++ w ++ slash_text sl) e ->
  exists l', Forall2 unquotes l l' /\ e = attributes_text l' ++ w ++ slash_text sl.
Proof.
  induction l as [|a l IH]; intros w sl e F S W He R.
  - exists []. split; [constructor|]. cbn [attributes_text map concat app] in *.
    destruct (rewrites_none simple_attribute attribute_out (w ++ slash_text sl) [] e) as (e' & -> & R').
    + now rewrite app_nil_r.
    + intros u1 u2 m r Eu Nu E T. rewrite app_nil_r in E. destruct T as [name value r _ _ _ _].
      assert (I : In 0x3D (w ++ slash_text sl)).
      { rewrite Eu, E. rewrite !in_app_iff. right. left. right. left. now left. }
      apply in_app_iff in I. destruct I as [I | I]; [|destruct sl; cbn in I; intuition discriminate].
      unfold html_run in W. rewrite Forall_forall in W. apply W in I. discriminate.
    + apply unquoted_nil in R'. subst e'. now rewrite app_nil_r.
  - inversion F as [|? ? Ha Fl]; inversion S as [|? ? Sa Sl]; subst.
    unfold attributes_text in R. cbn [map concat] in R. fold (attributes_text l) in R. rewrite <- app_assoc in R.
    assert (He' : end_ok l w sl).
    { intros K1 K2 l' a' K3. apply (He K1 K2 (a :: l') a'). now rewrite K3. }
    destruct (unquoted_attribute a _ e Ha Sa (tag_rest_app l w sl Fl W)) with (2 := R) as (a' & e' & Ua & -> & R').
    { intro Kb. pose proof (bare_stops (fun _ => true) a l w sl [] Fl W He Kb) as K. now rewrite app_nil_r in K. }
    destruct (IH w sl e' Fl Sl W He' R') as (l' & Fw & ->). exists (a' :: l'). split; [now constructor|].
    unfold attributes_text. cbn [map concat]. now rewrite <- app_assoc.
Qed.

Lemma unquoted_tag : forall n l w sl e, part_ok (PStart n l w sl) -> Forall size_safe l ->
  unquoted (part_text (PStart n l w sl)) e ->
  exists l', Forall2 unquotes l l' /\ e = part_text (PStart n l' w sl).
Proof.
  intros n l w sl e ((Hn & Fn) & Fl & W & He) S R. cbn [part_text] in *. rewrite app_assoc in R.
  destruct (rewrites_none _ _ _ _ _ R) as (e' & -> & R').
  - intros u1 u2 m r Eu Nu E T. destruct T as [name value r Nn Ln _ _]. destruct (letters_names _ Ln) as [Ln1 _].
    assert (Ew : u2 ++ attributes_text l ++ w ++ slash_text sl = name ++ S_ "=" ++ dquote :: value ++ dquote :: r).
    { rewrite E. rewrite <- app_assoc. f_equal. cbn. rewrite <- app_assoc. reflexivity. }
    destruct u1 as [|d u1].
    + cbn [app] in Eu. subst u2. destruct name as [|c name]; [contradiction|]. injection Ew as Ew _.
      inversion Ln as [|? ? Lc _]. subst c. destruct Lc; lia.
    + cbn in Eu. injection Eu as _ Eu. subst n. apply Forall_app in Fn. destruct Fn as [_ Fn].
      apply (span_unique name_char) in Ew.
      * destruct Ew as [_ Ew]. exact (rest_not_equal _ _ (tag_rest_app l w sl Fl W) Ew).
      * exact Fn.
      * exact Ln1.
      * apply tag_rest_name, tag_rest_app; assumption.
      * intros c t K. injection K as <- _. reflexivity.
  - destruct (unquoted_attributes l w sl e' Fl S W He R') as (l' & Fw & ->). exists l'. split; [exact Fw|].
    now rewrite <- app_assoc.
Qed.

(** ** Start tags *)

(** What the stages on start tags need. *)
Definition size_end (l : list attribute) (gap : str) (slash : bool) : Prop :=
  slash = true -> gap = [] -> forall l' a, l = l' ++ [a] ->
    ~ ends_with (S_ "width") (a_name a) /\ ~ ends_with (S_ "height") (a_name a).

Definition tag_safe (p : part) : Prop :=
  match p with PStart _ l w sl => Forall size_safe l /\ size_end l w sl | _ => True end.

Definition alike (a a' : attribute) : Prop := a_name a' = a_name a /\ skeleton (value_of a') = skeleton (value_of a).

(** The same tag, for a reader. *)
Inductive same_part : part -> part -> Prop :=
| sp_same : forall p, same_part p p
| sp_start : forall n l l' w w' sl, Forall2 alike l l' -> same_part (PStart n l w sl) (PStart n l' w' sl).

Lemma sim_alike : forall a a', sim_attribute a a' -> alike a a'.
Proof.
  intros a a' [H1 H2]. split; [exact H1|]. unfold value_of.
  destruct (a_value a) as [[[[? ?] ?] ?]|], (a_value a') as [[[[? ?] ?] ?]|]; cbn in H2; intuition.
Qed.

Lemma unquotes_alike : forall a a', unquotes a a' -> alike a a'.
Proof. intros a a' []; split; reflexivity. Qed.

Lemma alike_trans : forall a b c, alike a b -> alike b c -> alike a c.
Proof. intros a b c [H1 H2] [H3 H4]. split; congruence. Qed.

Lemma Forall2_comp : forall (A : Type) (P Q R : A -> A -> Prop), (forall a b c, P a b -> Q b c -> R a c) ->
  forall x y z, Forall2 P x y -> Forall2 Q y z -> Forall2 R x z.
Proof.
  intros A P Q R H x y z F. revert z. induction F as [|a b x y Hab F IH]; intros z G; inversion G; subst; constructor; eauto.
Qed.

Lemma unquotes_ok : forall a a', unquotes a a' -> attribute_ok a -> attribute_ok a'.
Proof.
  intros a a' U H. destruct U as [a _|g n w1 w2 v Hn Nv Fv _]; [exact H|].
  destruct H as (H1 & H2 & H3 & H4 & H5). unfold attribute_ok in *. cbn [a_gap a_name a_value value_ok] in *.
  repeat split; try tauto. apply Forall_impl with (2 := Fv). intros c K. apply value_letter_bare in K. tauto.
Qed.

Lemma Forall2_Forall : forall (A : Type) (P : A -> Prop) (R : A -> A -> Prop) l l',
  (forall a b, R a b -> P a -> P b) -> Forall2 R l l' -> Forall P l -> Forall P l'.
Proof.
  intros A P R l l' H F. induction F as [|a b l l' Hab F IH]; intro G; [constructor|]. inversion G; subst. constructor; eauto.
Qed.

Lemma sim_size_safe : forall a a', sim_attribute a a' -> size_safe a -> size_safe a'.
Proof.
  intros a a' S [H1 H2]. apply sim_alike in S. destruct S as [_ S]. symmetry in S.
  split; intro K; [apply H1 | apply H2]; apply occurs_skeleton with (4 := K); try exact S; try discriminate;
    apply Forall_app; split; repeat constructor.
Qed.

Lemma tag_changed : forall n l w sl m', part_ok (PStart n l w sl) -> tag_safe (PStart n l w sl) ->
  html_blanks (part_text (PStart n l w sl)) -> tag_out (part_text (PStart n l w sl)) m' ->
  exists p', m' = part_text p' /\ part_ok p' /\ same_part (PStart n l w sl) p'.
Proof.
  intros n l w sl m' Hp (Z1 & Z2) HB T. remember (part_text (PStart n l w sl)) as m eqn:Em.
  destruct T as [m _|m k k' m' _ Hc Hs _ _ Hi Hu].
  - exists (PStart n l w sl). repeat split; [exact Em | apply Hp..|constructor].
  - subst m. destruct (closed_tag n l w sl k Hp HB Hc) as (w' & -> & Hw').
    set (p1 := PStart n l w' sl) in *.
    assert (Ok1 : part_ok p1).
    { destruct Hw' as [[-> _] | (-> & -> & _)]; [exact Hp|]. destruct Hp as (A1 & A2 & A3 & A4). repeat split; try apply A1; try exact A2.
      - constructor.
      - intro K. discriminate. }
    assert (HBk : html_blanks (part_text p1)).
    { destruct Hw' as [[-> _] | (-> & -> & _)]; [exact HB|]. unfold p1. cbn [part_text] in HB |- *.
      rewrite !html_blanks_app in HB |- *. repeat split; try tauto. intros c []. }
    assert (HBk' : html_blanks k').
    { intros c I B. apply Hi in I. destruct I as [<- | I]; [reflexivity | exact (HBk c I B)]. }
    destruct (respaced_tag p1 [] k' Ok1) as (p2 & r' & Ek' & Ok2 & S2 & Er & _).
    + intros (x & K). discriminate.
    + discriminate.
    + exact HBk.
    + exact HBk'.
    + now rewrite app_nil_r.
    + apply skeleton_nil in Er. subst r'. rewrite app_nil_r in Ek'. subst k'.
      unfold p1 in S2. inversion S2 as [| |? ? l2 ? w2 ? F2 Hw2]; subst.
      destruct (unquoted_tag n l2 w2 sl m' Ok2) as (l3 & F3 & ->).
      * exact (Forall2_Forall _ _ _ _ _ sim_size_safe F2 Z1).
      * exact Hu.
      * exists (PStart n l3 w2 sl). split; [reflexivity|]. destruct Ok2 as (B1 & B2 & B3 & B4). split.
        -- repeat split; try apply B1; try exact B3.
           ++ exact (Forall2_Forall _ _ _ _ _ unquotes_ok F3 B2).
           ++ intros Ks Kw l' a3 K3 Kb. subst sl w2.
              assert (w = []) as -> by (destruct Hw' as [[-> _] | (_ & K & _)]; [now apply Hw2 | discriminate]).
              destruct (Forall2_last _ _ _ _ _ _ _ F3 K3) as (y2 & a2 & E2 & U).
              destruct (Forall2_last _ _ _ _ _ _ _ F2 E2) as (y1 & a1 & E1 & S1).
              destruct U as [a2 _|g nm v1 v2 v Hn Nv Fv _].
              ** exact (B4 eq_refl eq_refl y2 a2 E2 Kb).
              ** destruct (Z2 eq_refl eq_refl y1 a1 E1) as [Q1 Q2]. destruct S1 as [S1 _]. cbn [a_name] in S1. rewrite S1 in *. tauto.
        -- constructor. apply (Forall2_comp _ sim_attribute unquotes alike) with (y := l2); try assumption.
           intros a b c Sab Ubc. exact (alike_trans _ _ _ (sim_alike _ _ Sab) (unquotes_alike _ _ Ubc)).
Qed.

Section Tags.
Variable wu : N -> bool.

Lemma start_lt : forall m t, start_tag wu m t -> exists m', m = lt :: m'.
Proof. intros m t []. eexists. reflexivity. Qed.

Lemma start_found : forall p r m t, part_ok p -> ~ is_comment p -> (forall c, p <> PChar c) ->
  part_text p ++ r = m ++ t -> start_tag wu m t -> m = part_text p /\ exists n l w sl, p = PStart n l w sl.
Proof.
  intros p r m t Hp Nc Np E T. destruct (part_tag p Hp Nc Np) as (x & s & Ep & N1 & N2 & Hx & Hs).
  destruct T as [y body t Hy G _].
  assert (Hyg : y <> gt /\ y <> 0x2F /\ y <> 0x21).
  { unfold word_char, letter, digit, gt in *. lia. }
  assert (Em : x :: s = y :: body).
  { rewrite Ep in E. assert (E' : (x :: s) ++ gt :: r = (y :: body) ++ gt :: t).
    { cbn [app] in E |- *. rewrite <- !app_assoc in E. injection E as E1 E2. now rewrite E1, E2. }
    apply first_split in E'; [exact E' | exact N2|].
    intros [K | K]; [tauto | contradiction]. }
  injection Em as -> ->. split; [now rewrite Ep|]. apply Hs. destruct Hx as [Hx | [Hx | [Hx _]]]; tauto.
Qed.

Lemma tagged_parts : forall ps e, Forall part_ok ps -> Forall (fun p => ~ is_comment p) ps -> Forall tag_safe ps ->
  html_blanks (text_of ps) -> rewrites (start_tag wu) tag_out (text_of ps) e ->
  exists ps', e = text_of ps' /\ Forall part_ok ps' /\ Forall2 same_part ps ps'.
Proof.
  unfold text_of. induction ps as [|p ps IH]; intros e F C S HB R; cbn [map concat] in *.
  - exists []. split; [|split; constructor].
    destruct (rewrites_cases _ _ _ _ R) as [[_ K] | [(d & s' & e' & K1 & _) | (m1 & m' & r' & e' & K1 & _ & K2 & _)]];
      [exact K | discriminate|]. symmetry in K1. apply app_eq_nil in K1. tauto.
  - inversion F as [|? ? Hp Fl]; inversion C as [|? ? Cp Cl]; inversion S as [|? ? Sp Sl]; subst.
    apply html_blanks_app in HB. destruct HB as [HB1 HB2].
    destruct (part_cases p) as [[c ->] | [[c ->] | [Np Nc]]].
    + destruct (char_copied _ _ _ _ _ Hp start_lt R) as (e' & -> & R').
      destruct (IH e' Fl Cl Sl HB2 R') as (ps' & -> & Ok & F2). exists (PChar c :: ps').
      split; [reflexivity|]. split; [now constructor|]. constructor; [constructor | exact F2].
    + exfalso. apply Cp. eexists. reflexivity.
    + destruct (rewrites_cases _ _ _ _ R) as [[K _] | [(d & s' & e' & K1 & K2 & K3 & R') | (m1 & m' & r' & e' & K1 & -> & K2 & L1 & Fm & R')]].
      * destruct (part_first p Hp Np) as (t & Ep). rewrite Ep in K. discriminate.
      * destruct (tag_copied (start_tag wu) tag_out p (concat (map part_text ps)) e Hp Nc Np start_lt K3 R) as (e2 & -> & R2).
        destruct (IH e2 Fl Cl Sl HB2 R2) as (ps' & -> & Ok & F2). exists (p :: ps').
        split; [reflexivity|]. split; [now constructor|]. constructor; [constructor | exact F2].
      * destruct (start_found p _ _ _ Hp Nc Np K1 L1) as (-> & n & l & w & sl & ->).
        apply app_inv_head in K1. subst r'. destruct (IH e' Fl Cl Sl HB2 R') as (ps' & -> & Ok & F2).
        destruct (tag_changed n l w sl m' Hp Sp HB1 Fm) as (p' & -> & Hp' & Sm).
        exists (p' :: ps'). split; [reflexivity|]. split; [now constructor|]. now constructor.
Qed.
End Tags.
