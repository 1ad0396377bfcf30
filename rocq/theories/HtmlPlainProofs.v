(** The text of the minified document, part by part. *)
From Coq Require Import String List NArith Bool Arith Lia ZifyBool ZifyN.
From Verif Require Import Base HtmlModel HtmlSpec HtmlSyntaxSpec HtmlPlainSpec HtmlProofs1 HtmlProofs2 HtmlProofs3 HtmlProofs4 HtmlProofs5 HtmlProofs6 HtmlProofs7 HtmlProofs8 HtmlProofs9 HtmlProofs10 HtmlProofs11 HtmlProofs12 HtmlProofs13.
Import ListNotations.
Open Scope N_scope.

(** ** How a document is written *)

Lemma attributes_written : forall l, flat_map attribute_written l = attributes_text l.
Proof.
  intro l. unfold attributes_text. induction l as [|a l IH]; [reflexivity|]. cbn [flat_map map concat]. rewrite IH. f_equal.
  unfold attribute_written, attribute_text. do 2 f_equal. destruct (a_value a) as [[[[w1 w2] [q|]] v]|]; reflexivity.
Qed.

Lemma written_text : forall p, written p = part_text p.
Proof. intros [c|c|s|n w|n l w sl]; cbn [written part_text]; rewrite ?attributes_written; reflexivity. Qed.

Lemma document_text : forall l, document l = text_of l.
Proof.
  intro l. unfold document, text_of. induction l as [|p l IH]; [reflexivity|]. cbn [flat_map map concat]. now rewrite IH, written_text.
Qed.

(** ** Types *)

Section Words.
Variable wu : N -> bool.

Lemma starts_well_iff : forall c, starts_well wu c = true <-> word_bar_blank wu c.
Proof.
  intro c. unfold starts_well, word_bar_blank, word_char, one_word_char, ascii_alpha, letter, digit, blank.
  destruct (c <? 0x80) eqn:E; lia.
Qed.

Lemma starts_well_eq : forall c, starts_well wu c = word_bar_space wu c.
Proof. intro c. apply eq_true_iff_eq. rewrite starts_well_iff. symmetry. apply word_bar_iff. Qed.

Lemma type_given_eq : forall a, type_given wu a = removable wu a.
Proof.
  intro a. unfold type_given, removable. destruct (a_value a) as [[[[[|? ?] [|? ?]] [q|]] [|x v]]|]; cbn [negb]; rewrite ?starts_well_eq; reflexivity.
Qed.

Lemma unbroken_iff : forall s, unbroken s = true <-> ~ In line_end s.
Proof. intro s. unfold unbroken. rewrite negb_true_iff, <- not_true_iff_false, existsb_in. reflexivity. Qed.

Lemma opens_script_iff : forall n l w sl, part_ok (PStart n l w sl) ->
  (opens_script wu (part_text (PStart n l w sl)) = true <-> script_tag wu (part_text (PStart n l w sl)) []).
Proof.
  intros n l w sl Hp.
  destruct (part_tag _ Hp) as (x & s & Ep & _ & Ng & _); [intros (? & ?); discriminate | discriminate|].
  remember (part_text (PStart n l w sl)) as m eqn:Em. clear Em. unfold opens_script. rewrite existsb_exists. split.
  - intros (k & I & H). apply andb_true_iff in H. destruct H as [H1 H2]. apply is_start_spec in H1. destruct H1 as (r & ->).
    assert (Sk : skipn (length k) (k ++ r) = r) by (rewrite skipn_app, skipn_all, Nat.sub_diag; reflexivity).
    rewrite Sk in H2. destruct r as [|c r]; [discriminate|]. apply andb_true_iff in H2. destruct H2 as [H2 H3].
    apply starts_well_iff in H2. apply unbroken_iff in H3.
    destruct (last_split r) as [-> | (b & d & ->)].
    + exfalso. change ([lt] ++ (x :: s) ++ [gt]) with (([lt] ++ x :: s) ++ [gt]) in Ep. apply app_inj_tail in Ep. destruct Ep as [_ ->].
      destruct H2 as [H2 | [H2 | H2]]; [|discriminate H2 | discriminate H2]. unfold word_char, letter, digit, gt in H2. lia.
    + assert (Ep2 : (k ++ c :: b) ++ [d] = ([lt] ++ x :: s) ++ [gt]) by (rewrite <- app_assoc; exact Ep).
      apply app_inj_tail in Ep2. destruct Ep2 as [Ep2 ->]. apply a_script_tag; try assumption.
      * intro J. assert (J2 : In gt ([lt] ++ x :: s)) by (rewrite <- Ep2; apply in_app_iff; right; now right).
        destruct J2 as [J2 | J2]; [discriminate | contradiction].
      * intro J. apply H3. apply in_app_iff. now left.
  - intro T. remember (@nil N) as r0 eqn:Er. clear Er. destruct T as [k c body r I Hc _ Hl]. exists k. split; [exact I|].
    apply andb_true_iff. split; [apply is_start_spec; eexists; reflexivity|].
    rewrite skipn_app, skipn_all, Nat.sub_diag. cbn [app skipn]. apply andb_true_iff. split; [now apply starts_well_iff|].
    apply unbroken_iff. intro J. apply in_app_iff in J. destruct J as [J | [J | []]]; [contradiction | discriminate].
Qed.

Lemma untype_eq : forall p p', part_ok p -> untypes wu p p' -> p' = untype wu p.
Proof.
  intros p p' Hp U. destruct U as [p NT|n l w sl _ T].
  - destruct p as [c|c|s|n w|n l w sl]; try reflexivity. unfold untype. rewrite written_text.
    destruct (opens_script wu (part_text (PStart n l w sl))) eqn:E; [|reflexivity]. exfalso. now apply (opens_script_iff n l w sl Hp) in E.
  - unfold untype. rewrite written_text. apply (opens_script_iff n l w sl Hp) in T. rewrite T.
    rewrite (filter_ext (fun a => negb (removable wu a)) (fun a => negb (type_given wu a))); [reflexivity|].
    intro a. now destruct (type_given_eq a).
Qed.

Lemma untypes_map : forall ps ps', Forall part_ok ps -> Forall2 (untypes wu) ps ps' -> ps' = map (untype wu) ps.
Proof.
  intros ps ps' F U. induction U as [|p p' ps ps' Up U IH]; [reflexivity|]. inversion F; subst. cbn [map].
  f_equal; [now apply untype_eq | auto].
Qed.
End Words.

(** ** Tags left out *)

Lemma in_names : forall n l, existsb (str_eqb n) l = true <-> In n l.
Proof.
  intros n l. rewrite existsb_exists. split.
  - intros (x & I & E). apply str_eqb_eq in E. now subst.
  - intro I. exists n. split; [exact I | now apply str_eqb_eq].
Qed.

Lemma left_out_dropped : forall p, part_ok p -> ~ is_comment p -> left_out p = dropped p.
Proof.
  intros p Hp Hc. apply eq_true_iff_eq. split.
  - intro H. destruct p as [c|c|s|n [|y w]|n [|a l] [|y w] [|]]; try discriminate; cbn [left_out] in H; apply in_names in H;
      [now apply in_dropped | now apply in_dropped_open].
  - intro H. destruct (dropped_shape p Hp Hc H) as [(n & -> & I) | (n & -> & I)]; cbn [left_out]; now apply in_names.
Qed.

(** ** White space *)

(** All runs of white space of a text with tags. *)
Fixpoint squeeze (closed : bool) (w s : str) : str :=
  match s with
  | [] => one_run false w
  | c :: r => if html_blank c then squeeze closed (w ++ [c]) r
              else one_run (closed && (c =? lt)) w ++ c :: squeeze (c =? gt) [] r
  end.

Lemma html_blank_is : forall c, html_blank c = true -> blank c.
Proof. intros c H. unfold html_blank in H. unfold blank, is_whitespace. cbn in H. lia. Qed.

Lemma html_run_blanks : forall w, html_run w -> blanks w.
Proof. intros w H. refine (Forall_impl _ _ H). exact html_blank_is. Qed.

Lemma one_run_squeezed : forall p w r b, html_run w -> w <> [] ->
  (b = true <-> p = Some gt /\ exists r', r = lt :: r') -> squeezed_run p w r (one_run b w).
Proof.
  intros p w r b H Nw Hb. destruct w as [|c [|d w]]; [contradiction| |].
  - cbn [one_run]. destruct ((c =? 0xD) || (c =? 0xA) || b) eqn:E.
    + apply sr_many. intros x K. injection K as <-. unfold line_end. destruct b; [right; right; now apply Hb | lia].
    + apply (sr_one p [c] r c eq_refl); unfold line_end; try lia. intro K. apply Hb in K. subst b. lia.
  - apply sr_many. intros x K. discriminate.
Qed.

Lemma squeeze_squeezed : forall s p closed w, html_run w -> html_blanks s -> (closed = true <-> p = Some gt) ->
  squeezed p (w ++ s) (squeeze closed w s).
Proof.
  induction s as [|c s IH]; intros p closed w Hw HB Hc; cbn [squeeze].
  - rewrite app_nil_r. destruct w as [|x w]; [constructor|].
    rewrite <- (app_nil_r (x :: w)) at 1. rewrite <- (app_nil_r (one_run false (x :: w))).
    apply sq_run; try discriminate; [now apply html_run_blanks | | constructor].
    apply one_run_squeezed; [exact Hw | discriminate|]. split; [discriminate | intros (_ & r' & K); discriminate].
  - assert (HBs : html_blanks s) by (intros x I; apply HB; now right). destruct (html_blank c) eqn:Ec.
    + replace (w ++ c :: s) with ((w ++ [c]) ++ s) by (rewrite <- app_assoc; reflexivity). apply IH; try assumption.
      apply Forall_app. split; [exact Hw | now constructor].
    + assert (Nc : ~ blank c) by (intro B; apply HB in B; [congruence | now left]).
      assert (Hs : forall q, squeezed q (c :: s) (c :: squeeze (c =? gt) [] s)).
      { intro q. apply sq_char; [exact Nc|]. apply (IH (Some c) (c =? gt) []); [constructor | exact HBs|].
        rewrite N.eqb_eq. split; [now intros -> | now intros [= ->]]. }
      destruct w as [|x w]; [apply Hs|]. apply sq_run; try discriminate; try apply Hs; [now apply html_run_blanks | |].
      * intros d r' K. injection K as <- _. exact Nc.
      * apply one_run_squeezed; [exact Hw | discriminate|]. rewrite andb_true_iff, N.eqb_eq, Hc. split.
        -- intros [K ->]. split; [exact K | eauto].
        -- intros (K & r' & K2). injection K2 as -> _. auto.
Qed.

(** Without opening angle bracket it does not matter what was before. *)
Lemma squeeze_runs : forall s closed w, ~ In lt s -> ~ In gt s -> squeeze closed w s = runs w s.
Proof.
  induction s as [|c s IH]; intros closed w H G; [reflexivity|]. cbn [squeeze runs].
  assert (H' : ~ In lt s) by (intro I; apply H; now right). assert (G' : ~ In gt s) by (intro I; apply G; now right).
  destruct (html_blank c); [now apply IH|]. assert (c =? lt = false) as -> by (apply N.eqb_neq; intros ->; apply H; now left).
  rewrite andb_false_r. do 2 f_equal. now apply IH.
Qed.

Lemma squeeze_to : forall s closed w c r, ~ In lt s -> html_blank c = false -> c <> lt ->
  squeeze closed w (s ++ c :: r) = runs w s ++ c :: squeeze (c =? gt) [] r.
Proof.
  induction s as [|d s IH]; intros closed w c r H Ec Nc; cbn [app squeeze runs].
  - rewrite Ec. apply N.eqb_neq in Nc. now rewrite Nc, andb_false_r.
  - assert (H' : ~ In lt s) by (intro I; apply H; now right). destruct (html_blank d); [now apply IH|].
    assert (d =? lt = false) as -> by (apply N.eqb_neq; intros ->; apply H; now left). rewrite andb_false_r.
    rewrite <- app_assoc. cbn [app]. do 2 f_equal. now apply IH.
Qed.

Lemma runs_to : forall s w c r, html_blank c = false -> runs w (s ++ c :: r) = runs w s ++ c :: runs [] r.
Proof.
  induction s as [|d s IH]; intros w c r Ec; cbn [app runs]; [now rewrite Ec|].
  destruct (html_blank d); [now apply IH|]. rewrite <- app_assoc. cbn [app]. do 2 f_equal. now apply IH.
Qed.

Lemma runs_gap : forall g w, html_run g -> runs w g = one_run false (w ++ g).
Proof.
  induction g as [|c g IH]; intros w H; cbn [runs]; [now rewrite app_nil_r|]. inversion H as [|? ? Hc Hg]; subst. rewrite Hc, IH by exact Hg.
  now rewrite <- app_assoc.
Qed.

Lemma runs_solid : forall s r, Forall (fun c => html_blank c = false) s -> runs [] (s ++ r) = s ++ runs [] r.
Proof. intros s r H. induction H as [|c s Hc H IH]; [reflexivity|]. cbn [app runs]. rewrite Hc. cbn [one_run app]. now rewrite IH. Qed.

Lemma runs_word : forall g s r, html_run g -> s <> [] -> Forall (fun c => html_blank c = false) s ->
  runs [] (g ++ s ++ r) = one_run false g ++ s ++ runs [] r.
Proof.
  intros g s r Hg Ns Hs. destruct s as [|c s]; [contradiction|]. inversion Hs as [|? ? Hc Hs']; subst. cbn [app].
  rewrite runs_to by exact Hc. now rewrite runs_gap, runs_solid by assumption.
Qed.

Lemma name_solid : forall n, Forall (fun c => name_char c = true) n -> Forall (fun c => html_blank c = false) n.
Proof. intros n F. refine (Forall_impl _ _ F). intros c H. now apply name_not. Qed.

Lemma bare_solid : forall n, Forall (fun c => bare_char c = true) n -> Forall (fun c => html_blank c = false) n.
Proof. intros n F. refine (Forall_impl _ _ F). intros c H. now apply bare_not. Qed.

Lemma runs_attribute : forall a r, attribute_ok a -> runs [] (attribute_text a ++ r) = attribute_text (respace_attribute a) ++ runs [] r.
Proof.
  intros [g n v] r (Ng & Hg & Nn & Hn & Hv). unfold attribute_text, respace_attribute. cbn [a_gap a_name a_value] in *.
  rewrite <- !app_assoc, runs_word by (try assumption; now apply name_solid). do 2 f_equal.
  destruct v as [[[[w1 w2] [q|]] v]|]; [| |reflexivity]; cbn [value_text quotes_text]; cbn in Hv.
  - destruct Hv as (H1 & H2 & Hq & Hv). rewrite <- !app_assoc.
    rewrite runs_word by (try exact H1; try discriminate; repeat constructor). do 2 f_equal.
    change (w2 ++ (q :: v ++ [q]) ++ r) with (w2 ++ [q] ++ (v ++ [q]) ++ r). rewrite <- app_assoc.
    assert (Bq : html_blank q = false) by (destruct Hq as [-> | ->]; reflexivity).
    rewrite runs_word by (try exact H2; try discriminate; repeat constructor; exact Bq). f_equal. cbn [app]. f_equal.
    rewrite runs_to by exact Bq. rewrite <- app_assoc. reflexivity.
  - destruct Hv as (H1 & H2 & Nv & Hv). rewrite <- !app_assoc.
    rewrite runs_word by (try exact H1; try discriminate; repeat constructor). do 2 f_equal. apply bare_solid in Hv.
    rewrite runs_word by assumption. f_equal.
    assert (runs [] v = v) as ->; [|reflexivity]. rewrite <- (app_nil_r v) at 1. rewrite runs_solid by exact Hv. cbn. apply app_nil_r.
Qed.

Lemma runs_attributes : forall l r, Forall attribute_ok l ->
  runs [] (attributes_text l ++ r) = attributes_text (map respace_attribute l) ++ runs [] r.
Proof.
  unfold attributes_text. intros l r F. induction F as [|a l Ha F IH]; [reflexivity|]. cbn [map concat].
  rewrite <- !app_assoc, runs_attribute by exact Ha. now rewrite IH.
Qed.

Lemma squeeze_lt : forall closed w s, squeeze closed w (lt :: s) = one_run closed w ++ lt :: squeeze false [] s.
Proof. intros closed w s. cbn [squeeze]. change (html_blank lt) with false. now rewrite N.eqb_refl, andb_true_r. Qed.

Lemma respace_text : forall p, part_ok p -> ~ is_comment p -> (forall c, p <> PChar c) ->
  forall closed w r, squeeze closed w (part_text p ++ r) = one_run closed w ++ part_text (respace p) ++ squeeze true [] r.
Proof.
  intros p Hp Hc Nc closed w r. destruct (part_tag p Hp Hc Nc) as (x & s & Ep & Nl & _ & _ & _). rewrite Ep, <- !app_assoc.
  change ([lt] ++ (x :: s) ++ [gt] ++ r) with (lt :: (x :: s) ++ gt :: r). rewrite squeeze_lt. f_equal.
  rewrite (squeeze_to (x :: s) false [] gt r Nl eq_refl) by discriminate.
  change (gt =? gt) with true.
  assert (E : lt :: runs [] (x :: s) ++ [gt] = part_text (respace p)).
  { assert (E2 : forall body, part_text p = lt :: body ++ [gt] -> x :: s = body).
    { intros body K. rewrite Ep in K. injection K as K. change (x :: s ++ [gt]) with ((x :: s) ++ [gt]) in K. now apply app_inj_tail in K. }
    clear Ep. destruct p as [c|c|d|n g|n l g sl]; [now destruct (Nc c) | exfalso; apply Hc; eexists; reflexivity|..]; cbn [respace].
    - rewrite (E2 (0x21 :: d)) by reflexivity. reflexivity.
    - destruct Hp as ((_ & Hn) & Hg). rewrite (E2 (0x2F :: n ++ g)) by (cbn; now rewrite <- app_assoc).
      change (0x2F :: n ++ g) with ((0x2F :: n) ++ g). rewrite runs_solid by (constructor; [reflexivity | now apply name_solid]).
      rewrite runs_gap by exact Hg. cbn. now rewrite <- app_assoc.
    - destruct Hp as ((_ & Hn) & Hl & Hg & _). destruct sl.
      + rewrite (E2 (n ++ attributes_text l ++ g ++ [0x2F])) by (cbn; rewrite <- !app_assoc; reflexivity).
        rewrite runs_solid by now apply name_solid. rewrite runs_attributes by exact Hl.
        rewrite runs_to by reflexivity. rewrite runs_gap by exact Hg. cbn. rewrite <- !app_assoc. reflexivity.
      + rewrite (E2 (n ++ attributes_text l ++ g)) by (cbn; rewrite <- !app_assoc; reflexivity).
        rewrite runs_solid by now apply name_solid. rewrite runs_attributes by exact Hl. rewrite runs_gap by exact Hg. cbn.
        rewrite <- !app_assoc. reflexivity. }
  rewrite <- E. cbn [app]. rewrite <- app_assoc. reflexivity.
Qed.

Lemma flow_text : forall ps closed w, Forall part_ok ps -> Forall (fun p => ~ is_comment p) ps ->
  text_of (flow closed w ps) = squeeze closed w (text_of ps).
Proof.
  induction ps as [|p ps IH]; intros closed w F C; [apply text_of_chars|]. inversion F as [|? ? Hp Fl]; inversion C as [|? ? Cp Cl]; subst.
  rewrite text_of_cons. destruct (part_cases p) as [[c ->] | [[c ->] | [Np _]]].
  - cbn [flow part_text app squeeze]. destruct (html_blank c); [now apply IH|].
    assert (c =? lt = false) as -> by now apply N.eqb_neq. rewrite andb_false_r.
    rewrite text_of_app, text_of_chars, text_of_cons, IH by assumption. reflexivity.
  - exfalso. apply Cp. eexists. reflexivity.
  - rewrite respace_text by assumption. rewrite <- IH by assumption.
    destruct p as [c|c|s|n g|n l g sl]; [now destruct (Np c)|exfalso; apply Cp; eexists; reflexivity|..]; cbn [flow];
      now rewrite text_of_app, text_of_chars, text_of_cons.
Qed.

(** The parts that come out. *)

Lemma one_run_html : forall b w, html_run w -> html_run (one_run b w).
Proof.
  intros b [|c [|d w]] H; cbn [one_run]; [exact H| |repeat constructor].
  destruct ((c =? 0xD) || (c =? 0xA) || b); [repeat constructor | exact H].
Qed.

Lemma one_run_nil : forall b w, one_run b w = [] -> w = [].
Proof. intros b [|c [|d w]] H; [reflexivity| |discriminate]. cbn in H. destruct ((c =? 0xD) || (c =? 0xA) || b); discriminate. Qed.

Lemma runs_forall : forall (P : N -> Prop) s w, P 0x20 -> Forall P w -> Forall P s -> Forall P (runs w s).
Proof.
  intros P s w P0. assert (R : forall w, Forall P w -> Forall P (one_run false w)).
  { intros [|c [|d v]] H; cbn [one_run]; [exact H| |now constructor]. destruct ((c =? 0xD) || (c =? 0xA) || false); [now constructor | exact H]. }
  revert w. induction s as [|c s IH]; intros w Hw Hs; cbn [runs]; [now apply R|]. inversion Hs; subst.
  destruct (html_blank c); [apply IH; [apply Forall_app; split; [exact Hw | now constructor] | assumption]|].
  apply Forall_app. split; [now apply R|]. constructor; [assumption | now apply IH].
Qed.

Lemma runs_skeleton : forall s, html_blanks s -> ~ In lt s -> ~ In gt s -> skeleton (runs [] s) = skeleton s.
Proof.
  intros s HB L G. rewrite <- (squeeze_runs s false []) by assumption.
  refine (proj1 (squeezed_skeleton None _ _ _)). apply (squeeze_squeezed s None false []); [constructor | exact HB|].
  split; discriminate.
Qed.

Lemma quoted_brackets : forall q v, Forall (fun c => quoted_char q c = true) v -> ~ In lt v /\ ~ In gt v.
Proof.
  intros q v F. rewrite Forall_forall in F. split; intro I; apply F in I; unfold quoted_char in I; cbn in I; unfold lt, gt in I; lia.
Qed.

Lemma bare_brackets : forall v, Forall (fun c => bare_char c = true) v -> ~ In lt v /\ ~ In gt v.
Proof. intros v F. rewrite Forall_forall in F. split; intro I; apply F, bare_not in I; intuition. Qed.

Lemma bare_runs : forall v, Forall (fun c => bare_char c = true) v -> runs [] v = v.
Proof. intros v H. rewrite <- (app_nil_r v) at 1. rewrite runs_solid by now apply bare_solid. cbn. apply app_nil_r. Qed.

Lemma respace_attribute_ok : forall a, attribute_ok a -> attribute_ok (respace_attribute a).
Proof.
  intros [g n v] (Ng & Hg & Nn & Hn & Hv). unfold attribute_ok, respace_attribute. cbn [a_gap a_name a_value] in *.
  split; [intro K; now apply one_run_nil in K|]. split; [now apply one_run_html|]. split; [exact Nn|]. split; [exact Hn|].
  destruct v as [[[[w1 w2] [q|]] v]|]; [| |exact I]; cbn in *; destruct Hv as (H1 & H2 & H3 & H4).
  - split; [now apply one_run_html|]. split; [now apply one_run_html|]. split; [exact H3|].
    apply runs_forall; [|constructor | exact H4]. destruct H3 as [-> | ->]; reflexivity.
  - split; [now apply one_run_html|]. split; [now apply one_run_html|]. rewrite bare_runs by exact H4. now split.
Qed.

Lemma respace_attribute_sim : forall a, attribute_ok a -> html_blanks (attribute_text a) -> sim_attribute a (respace_attribute a).
Proof.
  intros [g n v] (_ & _ & _ & _ & Hv) HB. unfold sim_attribute, respace_attribute, attribute_text in *. cbn [a_gap a_name a_value] in *.
  split; [reflexivity|]. destruct v as [[[[w1 w2] q] v]|]; [|exact I]. cbn [sim_value]. split; [reflexivity|].
  split; [|split; apply one_run_nil].
  assert (HBv : html_blanks v).
  { intros c I. apply HB. rewrite !in_app_iff. right. right. cbn [value_text]. rewrite !in_app_iff. right. right. right.
    destruct q; cbn; rewrite ?in_app_iff; tauto. }
  destruct q as [q|]; cbn in Hv; destruct Hv as (_ & _ & H3 & H4).
  - destruct (quoted_brackets q v H4). now apply runs_skeleton.
  - now rewrite bare_runs.
Qed.

Lemma respace_ok : forall p, part_ok p -> part_ok (respace p).
Proof.
  intros [c|c|s|n w|n l w sl] Hp; try exact Hp; cbn [respace].
  - destruct Hp as (a & d & -> & La & Ea & N1 & N2). exists a, (runs [] d).
    assert (Ha : Forall (fun c => html_blank c = false) a).
    { apply Forall_forall. intros c I. destruct (html_blank c) eqn:E; [|reflexivity]. exfalso.
      assert (J : In (low c) (map low a)) by now apply in_map. rewrite Ea in J. unfold html_blank in E. cbn in E, J.
      unfold low in J. destruct ((0x41 <=? c) && (c <=? 0x5A)) eqn:K; lia. }
    split; [now apply runs_solid|]. split; [exact La|]. split; [exact Ea|].
    assert (G : Forall (fun c => c <> lt /\ c <> gt) (runs [] d)).
    { apply runs_forall; [split; discriminate | constructor|]. apply Forall_forall. intros c I. split; intros ->; contradiction. }
    rewrite Forall_forall in G. split; intro I; apply G in I; tauto.
  - destruct Hp as (H1 & H2). split; [exact H1 | now apply one_run_html].
  - destruct Hp as (H1 & H2 & H3 & H4). split; [exact H1|]. split; [|split; [now apply one_run_html|]].
    + apply Forall_forall. intros a I. apply in_map_iff in I. destruct I as (b & <- & I). rewrite Forall_forall in H2.
      apply respace_attribute_ok. auto.
    + intros K1 K2 l' a E (w1 & w2 & v & Ev). apply one_run_nil in K2. apply map_eq_app in E. destruct E as (l1 & l2 & -> & _ & E).
      destruct l2 as [|b [|b2 l2]]; try discriminate. injection E as <-. apply (H4 K1 K2 l1 b eq_refl).
      unfold respace_attribute in Ev. cbn [a_value] in Ev. destruct (a_value b) as [[[[u1 u2] q] u]|] eqn:Eb; [|discriminate].
      injection Ev as _ _ -> _. exists u1, u2, u. exact Eb.
Qed.

Lemma respace_sim : forall p, part_ok p -> ~ is_comment p -> (forall c, p <> PChar c) -> html_blanks (part_text p) -> sim p (respace p).
Proof.
  intros [c|c|s|n w|n l w sl] Hp Hc Nc HB; [now destruct (Nc c) | exfalso; apply Hc; eexists; reflexivity|..]; cbn [respace].
  - constructor. destruct (part_tag (PDoctype s) Hp Hc Nc) as (x & t & Ep & N1 & N2 & _).
    cbn [part_text app] in Ep. assert (0x21 :: s = x :: t) as E.
    { injection Ep as <- Ep. apply app_inj_tail in Ep. now destruct Ep as [<- _]. }
    rewrite <- E in N1, N2. apply runs_skeleton.
    + intros c I. apply HB. cbn [part_text]. rewrite !in_app_iff. tauto.
    + intro I. apply N1. now right.
    + intro I. apply N2. now right.
  - constructor. apply one_run_nil.
  - constructor; [|apply one_run_nil]. destruct Hp as (_ & Hl & _).
    assert (HBl : html_blanks (attributes_text l)) by (intros c I; apply HB; cbn [part_text]; rewrite !in_app_iff; tauto).
    clear - Hl HBl. unfold attributes_text in HBl. induction Hl as [|a l Ha Hl IH]; cbn [map concat] in *; constructor.
    + apply respace_attribute_sim; [exact Ha|]. intros c I. apply HBl. apply in_app_iff. now left.
    + apply IH. intros c I. apply HBl. apply in_app_iff. now right.
Qed.

Lemma flow_forall : forall (P Q : part -> Prop), (forall c, c <> lt -> Q (PChar c)) ->
  (forall p, (forall c, p <> PChar c) -> P p -> Q (respace p)) -> (forall p, P p -> part_ok p) ->
  forall ps closed w, html_run w -> Forall P ps -> Forall Q (flow closed w ps).
Proof.
  intros P Q Hc Hr Hok. assert (A : forall b w, html_run w -> Forall Q (map PChar (one_run b w))).
  { intros b w H. apply (one_run_html b) in H. apply Forall_forall. intros x I. apply in_map_iff in I. destruct I as (c & <- & I).
    apply Hc. unfold html_run in H. rewrite Forall_forall in H. apply H in I. intros ->. discriminate. }
  induction ps as [|p ps IH]; intros closed w Hw F; [now apply A|]. inversion F as [|? ? Hp Fl]; subst.
  destruct p as [c|c|s|n g|n l g sl]; cbn [flow];
    try (apply Forall_app; split; [now apply A|]; constructor; [apply Hr; [discriminate | exact Hp] | apply IH; [constructor | exact Fl]]).
  destruct (html_blank c) eqn:Ec.
  - apply IH; [apply Forall_app; split; [exact Hw | now constructor] | exact Fl].
  - apply Forall_app. split; [now apply A|]. constructor; [apply Hc; exact (Hok _ Hp) | apply IH; [constructor | exact Fl]].
Qed.

(** ** Start tags *)

Lemma ascii_alpha_letter : forall c, ascii_alpha c = true <-> letter c.
Proof. intro c. unfold ascii_alpha, letter. lia. Qed.

Lemma simple_char_iff : forall c, simple_char c = true <-> value_letter c.
Proof. intro c. unfold simple_char, value_letter, ascii_alpha, letter, digit. cbn. lia. Qed.

Lemma size_name_iff : forall n, size_name n = true <-> exists pre name, last_letters n pre name /\ In name [S_ "width"; S_ "height"].
Proof.
  intro n. unfold size_name. destruct (span ascii_alpha (rev n)) as [a b] eqn:E. cbn [fst].
  destruct (span_spec _ _ _ _ E) as (E1 & E2 & E3).
  assert (L : last_letters n (rev b) (rev a)).
  { split; [rewrite <- rev_app_distr, <- E1, rev_involutive; reflexivity|]. split.
    - apply Forall_rev. refine (Forall_impl _ _ E2). intros c H. now apply ascii_alpha_letter.
    - destruct b as [|c b]; [now left|]. right. exists (rev b), c. split; [reflexivity|]. specialize (E3 c b eq_refl).
      rewrite <- ascii_alpha_letter. congruence. }
  rewrite in_names. split.
  - intro I. exists (rev b), (rev a). split; [exact L | exact I].
  - intros (pre & name & L2 & I). now rewrite (last_letters_unique _ _ _ _ _ L L2).
Qed.

Lemma unquote_quotable : forall a, quotable a -> exists v, a_value a = Some ([], [], Some dquote, v) /\
  unquote a = Attribute (a_gap a) (a_name a) (Some ([], [], None, v)).
Proof.
  intros [g n v] (pre & name & v0 & L & I & E & Nv & Fv). cbn [a_name a_value a_gap] in *. subst v. exists v0. split; [reflexivity|].
  unfold unquote. cbn [a_name a_value a_gap]. destruct v0 as [|x v]; [contradiction|].
  assert (size_name n = true) as -> by (apply size_name_iff; eauto).
  assert (forallb simple_char (x :: v) = true) as ->; [|reflexivity].
  apply forallb_forall. intros c J. apply simple_char_iff. rewrite Forall_forall in Fv. auto.
Qed.

Lemma unquote_not : forall a, ~ quotable a -> unquote a = a.
Proof.
  intros [g n v] NQ. unfold unquote. cbn [a_name a_value a_gap]. destruct v as [[[[[|? ?] [|? ?]] [q|]] [|x v]]|]; try reflexivity.
  destruct ((q =? dquote) && size_name n && forallb simple_char (x :: v)) eqn:E; [|reflexivity]. exfalso. apply NQ.
  apply andb_true_iff in E. destruct E as [E E3]. apply andb_true_iff in E. destruct E as [E1 E2]. apply N.eqb_eq in E1. subst q.
  apply size_name_iff in E2. destruct E2 as (pre & name & L & I). exists pre, name, (x :: v). split; [exact L|]. split; [exact I|].
  split; [reflexivity|]. split; [discriminate|]. rewrite forallb_forall in E3. apply Forall_forall. intros c J. apply simple_char_iff. auto.
Qed.

Lemma unquotes_eq : forall a a', unquotes a a' -> a' = unquote a.
Proof.
  intros a a' [b NQ|g n w1 w2 v _ _ _ Q]; [symmetry; now apply unquote_not|].
  destruct (unquote_quotable _ Q) as (v0 & E & ->). cbn in *. injection E as -> -> ->. reflexivity.
Qed.

Lemma unquotes_map : forall l l', Forall2 unquotes l l' -> l' = map unquote l.
Proof. intros l l' F. induction F as [|a a' l l' U F IH]; [reflexivity|]. cbn. f_equal; [now apply unquotes_eq | exact IH]. Qed.

Lemma quoted_last_iff : forall l, quoted_last l = true <-> quoted_end l.
Proof.
  intro l. unfold quoted_last, quoted_end. split.
  - intro H. destruct (rev l) as [|a r] eqn:E; [discriminate|]. destruct (a_value a) as [[[[w1 w2] [q|]] v]|] eqn:Ev; try discriminate.
    exists (rev r), a, w1, w2, q, v. split; [|exact Ev]. now rewrite <- (rev_involutive l), E.
  - intros (l0 & a & w1 & w2 & q & v & -> & E). rewrite rev_app_distr. cbn [rev app]. now rewrite E.
Qed.

Lemma tagged_eq : forall p p', tagged p p' -> p' = tidied p.
Proof.
  intros p p' [q Ns|n l l' w w' sl F Hw].
  - destruct q; try reflexivity. now destruct (Ns name attrs gap slash).
  - cbn [tidied]. rewrite (unquotes_map l l' F). f_equal. destruct (quoted_last l && negb sl) eqn:E.
    + apply andb_true_iff in E. destruct E as [E1 E2]. apply quoted_last_iff in E1. apply negb_true_iff in E2.
      destruct Hw as [[-> K] | (-> & _)]; auto.
    + destruct Hw as [[-> _] | (_ & -> & Q)]; [reflexivity|]. apply quoted_last_iff in Q. rewrite Q in E. discriminate.
Qed.

Lemma tagged_map : forall ps ps', Forall2 tagged ps ps' -> ps' = map tidied ps.
Proof. intros ps ps' F. induction F as [|a b l l' T F IH]; [reflexivity|]. cbn. f_equal; [now apply tagged_eq | exact IH]. Qed.

(** ** The ends *)

Lemma lstrip_spec : forall s, exists a, s = a ++ lstrip s /\ html_run a /\ (forall c r, lstrip s = c :: r -> html_blank c = false).
Proof.
  induction s as [|c s (a & E & H & N)]; [exists []; repeat split; [constructor | discriminate]|]. cbn [lstrip]. destruct (html_blank c) eqn:Ec.
  - exists (c :: a). cbn [app]. rewrite <- E. repeat split; [now constructor | exact N].
  - exists []. repeat split; [constructor|]. intros d r K. injection K as <- _. exact Ec.
Qed.

Lemma stripped_trims : forall s, html_blanks s -> trims s (stripped s).
Proof.
  intros s HB. unfold stripped. destruct (lstrip_spec s) as (a & E & Ha & Na). set (u := lstrip s) in *.
  destruct (lstrip_spec (rev u)) as (b & E2 & Hb & Nb). set (v := lstrip (rev u)) in *.
  assert (Eu : u = rev v ++ rev b) by (rewrite <- rev_app_distr, <- E2, rev_involutive; reflexivity).
  split.
  - split; intros c r K.
    + intro B. rewrite K in Eu. assert (html_blank c = true).
      { apply HB; [|exact B]. rewrite E, Eu. apply in_app_iff. right. now left. }
      rewrite (Na c (r ++ rev b) Eu) in H. discriminate.
    + intro B. assert (html_blank c = true).
      { apply HB; [|exact B]. rewrite E, Eu, K. rewrite !in_app_iff. right. left. right. now left. }
      apply (f_equal (@rev N)) in K. rewrite rev_involutive, rev_app_distr in K. rewrite (Nb c (rev r) K) in H. discriminate.
  - exists a, (rev b). split; [now apply html_run_blanks|]. split; [apply html_run_blanks; now apply Forall_rev|].
    now rewrite <- Eu.
Qed.

(** ** The document *)

Theorem minify_compact : forall wu du lu s ps, lower_ok lu -> html_parts s = Some ps -> Forall part_safe ps -> html_blanks s ->
  Forall reflows ps -> minify wu du lu s = Ok (compact wu ps).
Proof.
  intros wu du lu s ps HL Hp Hs HB Hr. destruct (html_parts_sound s ps Hp) as (-> & F & K).
  destruct (minify_spec wu du lu (text_of ps) HL) as (a & b & d & e & t & Et & H1 & H2 & H3 & H4). rewrite Et. f_equal.
  destruct (good_no_comment ps (conj F (conj Hs (conj HB K))) a H1) as (p1 & -> & G1 & S1 & T1 & _ & Ep1).
  assert (R1 : Forall reflows p1) by (rewrite Ep1; apply no_comment_forall; [exact I | exact Hr]).
  destruct (good_untyped2 wu p1 b G1 S1 T1 H2) as (p2 & -> & G2 & F2).
  pose proof (Forall2_Forall _ _ _ _ _ (reflows_kind wu) F2 R1) as R2.
  pose proof (untypes_map wu p1 p2 (proj1 G1) F2) as Ep2.
  destruct (good_cleaned p2 G2) as (E3 & G3 & _). set (p3 := filter (fun p => negb (dropped p)) p2) in *. rewrite E3 in H3.
  assert (R3 : Forall reflows p3) by (apply Forall_forall; intros p J; apply filter_In in J; rewrite Forall_forall in R2; apply R2; tauto).
  assert (Ep3 : p3 = filter (fun p => negb (left_out p)) p2).
  { unfold p3. apply filter_ext_in. intros p J. destruct G2 as (Q1 & Q2 & _). rewrite Forall_forall in Q1, Q2.
    now rewrite left_out_dropped by auto. }
  destruct G3 as (Q1 & Q2 & Q3 & Q4 & _).
  destruct H3 as [(P & _) | (_ & Q & R)]; [exfalso; revert P; now apply reflows_not_pre|].
  assert (Ed : d = text_of (flow false [] p3)).
  { rewrite flow_text by assumption. refine (squeezed_det None _ _ Q _ _).
    apply (squeeze_squeezed (text_of p3) None false []); [constructor | exact Q4|]. split; discriminate. }
  set (p4 := flow false [] p3) in *. subst d.
  pose proof (html_blanks_incl _ _ Q4 (squeezed_incl _ _ _ Q)) as HB4.
  assert (All3 : Forall (fun p => part_ok p /\ ~ is_comment p /\ tag_safe p /\ html_blanks (part_text p)) p3).
  { apply Forall_forall. intros p J. rewrite Forall_forall in Q1, Q2, Q3. repeat split; auto. intros c Ic. apply Q4.
    unfold text_of. apply in_concat. exists (part_text p). split; [now apply in_map | exact Ic]. }
  assert (All4 : Forall (fun p => part_ok p /\ ~ is_comment p /\ tag_safe p) p4).
  { unfold p4. refine (flow_forall _ _ _ _ _ _ _ _ _ All3); [| |intros p (A & _); exact A|constructor].
    - intros c Hc. split; [exact Hc|]. split; [intros (? & ?); discriminate | exact I].
    - intros p Np (A1 & A2 & A3 & A4). pose proof (respace_sim p A1 A2 Np A4) as Sm. split; [now apply respace_ok|].
      split; [exact (sim_not_comment _ _ Sm) | exact (sim_safe _ _ Sm A3)]. }
  assert (Sub : forall P : part -> Prop, (forall p, part_ok p /\ ~ is_comment p /\ tag_safe p -> P p) -> Forall P p4)
    by (intros P H; exact (Forall_impl P H All4)).
  destruct (tidy_tagged_parts wu p4 e) with (6 := R) as (p5 & -> & _ & F5);
    [apply Sub; tauto | apply Sub; tauto | apply Sub; tauto | exact HB4 | apply (squeezed_tidy _ _ _ Q)|].
  pose proof (tagged_map p4 p5 F5) as Ep5.
  assert (HB5 : html_blanks (text_of p5)).
  { exact (html_blanks_incl _ _ HB4 (rewrites_incl _ _ tag_out_incl _ _ (rewrites_impl _ _ _ _ _ (fun _ m m' _ _ => tidy_tag_out_out m m') R))). }
  rewrite (trims_det _ _ _ H4 (stripped_trims _ HB5)). unfold compact. rewrite document_text. f_equal. f_equal.
  rewrite Ep5. unfold p4. rewrite Ep3, Ep2, Ep1. reflexivity.
Qed.

(** ** Documents that keep their white space *)

Lemma tidy_solid : forall s r, Forall (fun c => ~ blank c) s -> tidy r -> tidy (s ++ r).
Proof. intros s r H T. induction H as [|c s Hc H IH]; [exact T|]. cbn [app]. apply tidy_cons; [now left | exact IH]. Qed.

Lemma tidy_gap : forall g r, at_most_one g = true -> no_blank_first r -> tidy r -> tidy (g ++ r).
Proof. intros [|c [|d g]] r H N T; [exact T| |discriminate]. cbn [app]. apply tidy_cons; [now right | exact T]. Qed.

Lemma tidy_inner : forall v r, html_blanks v -> no_pair v = true -> no_blank_first r -> tidy r -> tidy (v ++ r).
Proof.
  induction v as [|c v IH]; intros r HB H N T; [exact T|]. cbn [no_pair] in H. apply andb_true_iff in H. destruct H as [H1 H2].
  apply negb_true_iff in H1. cbn [app]. apply tidy_cons; [|apply IH; try assumption; intros x I; apply HB; now right].
  destruct (html_blank c) eqn:Ec.
  - right. destruct v as [|d v]; [exact N|]. intros x r' K B. injection K as -> _. cbn [andb] in H1.
    assert (html_blank x = true) by (apply HB; [right; now left | exact B]). congruence.
  - left. intro B. apply HB in B; [congruence | now left].
Qed.

Lemma solid_first : forall s r, s <> [] -> Forall (fun c => ~ blank c) s -> no_blank_first (s ++ r).
Proof. intros s r Ns H. destruct H as [|c s Hc H]; [contradiction|]. intros d r' K. injection K as <- _. exact Hc. Qed.

Lemma solid_blank : forall s, html_blanks s -> Forall (fun c => html_blank c = false) s -> Forall (fun c => ~ blank c) s.
Proof.
  intros s HB H. rewrite Forall_forall in *. intros c I B. specialize (H c I). apply HB in B; [congruence | exact I].
Qed.

Lemma tidy_attribute : forall a r, attribute_ok a -> html_blanks (attribute_text a) -> single_attribute a = true -> tidy r -> tidy (attribute_text a ++ r).
Proof.
  intros [g n v] r (Ng & Hg & Nn & Hn & Hv) HB H T. unfold single_attribute, attribute_text in *. cbn [a_gap a_name a_value] in *.
  apply andb_true_iff in H. destruct H as [H1 H2]. rewrite !html_blanks_app in HB. destruct HB as (_ & B2 & B3).
  pose proof (solid_blank n B2 (name_solid n Hn)) as Sn. rewrite <- !app_assoc. apply tidy_gap; [exact H1 | now apply solid_first|].
  apply tidy_solid; [exact Sn|]. destruct v as [[[[w1 w2] q] v]|]; [|exact T]. cbn [value_text] in *.
  apply andb_true_iff in H2. destruct H2 as [H2 H3]. apply andb_true_iff in H2. destruct H2 as [H2 H4].
  rewrite !html_blanks_app in B3. destruct B3 as (_ & _ & _ & B4). rewrite <- !app_assoc.
  assert (E : forall x, Forall (fun c => ~ blank c) [x] -> no_blank_first (x :: w2 ++ quotes_text q v ++ r)).
  { intros x Hx. apply (solid_first [x] _ ltac:(discriminate) Hx). }
  assert (Eq : Forall (fun c => ~ blank c) (S_ "=")) by (constructor; [discriminate | constructor]).
  apply tidy_gap; [exact H2 | now apply solid_first|]. apply tidy_solid; [exact Eq|].
  destruct q as [q|]; cbn [quotes_text] in *; destruct Hv as (_ & _ & Hq & Hv).
  - assert (Sq : ~ blank q) by (destruct Hq as [-> | ->]; discriminate). cbn [app]. rewrite <- app_assoc.
    apply tidy_gap; [exact H4 | intros c r' K; injection K as <- _; exact Sq|]. apply tidy_cons; [now left|].
    assert (B5 : html_blanks v) by (intros c I; apply B4; right; apply in_app_iff; now left).
    apply tidy_inner; [exact B5 | exact H3 | intros c r' K; injection K as <- _; exact Sq|]. apply tidy_cons; [now left | exact T].
  - pose proof (solid_blank v B4 (bare_solid v Hv)) as Sv. apply tidy_gap; [exact H4 | now apply solid_first|]. now apply tidy_solid.
Qed.

Lemma single_tidy : forall n l w sl, part_ok (PStart n l w sl) -> html_blanks (part_text (PStart n l w sl)) -> single (PStart n l w sl) = true ->
  tidy (part_text (PStart n l w sl)).
Proof.
  intros n l w sl (((c & n' & En & _) & Hn) & Hl & Hw & _) HB H. cbn [single part_text] in *. apply andb_true_iff in H. destruct H as [H1 H2].
  rewrite !html_blanks_app in HB. destruct HB as (_ & B2 & B3 & _).
  change (S_ "<" ++ n ++ attributes_text l ++ w ++ slash_text sl) with ((lt :: n) ++ attributes_text l ++ w ++ slash_text sl).
  apply tidy_solid; [constructor; [discriminate | exact (solid_blank n B2 (name_solid n Hn))]|].
  assert (T : tidy (w ++ slash_text sl)).
  { assert (Ss : Forall (fun c => ~ blank c) (slash_text sl)) by (destruct sl; repeat constructor; discriminate).
    apply tidy_gap; [exact H2| |].
    - rewrite <- (app_nil_r (slash_text sl)). apply solid_first; [destruct sl; discriminate | exact Ss].
    - rewrite <- (app_nil_r (slash_text sl)). apply tidy_solid; [exact Ss|]. intros [|? a] ? ? ? K; discriminate. }
  revert T. generalize (w ++ slash_text sl). intros r T. unfold attributes_text in *. clear - Hl B3 H1 T.
  induction Hl as [|a l Ha Hl IH]; [exact T|]. cbn [map concat forallb] in *. apply html_blanks_app in B3. destruct B3 as [B3 B4].
  apply andb_true_iff in H1. destruct H1 as [H1 H3]. rewrite <- app_assoc. apply tidy_attribute; auto.
Qed.

Lemma tag_out_tidy : forall m m', tidy m -> tag_out m m' -> tidy_tag_out m m'.
Proof.
  intros m m' T O. destruct O as [m H|m k k' m1 H Hc _ _ Hk _ Hu]; [now apply tt_same|]. rewrite (Hk (closed_tidy _ _ Hc T)) in Hu.
  now apply (tt_change _ k).
Qed.

Lemma preserves_reflows : forall ps, Forall reflows ps <-> existsb preserves ps = false.
Proof.
  induction ps as [|p ps IH]; [split; [reflexivity | constructor]|]. cbn [existsb]. rewrite orb_false_iff, <- IH, Forall_cons_iff.
  destruct p as [c|c|s|n w|n l w sl]; cbn [reflows preserves]; rewrite ?orb_false_iff; tauto.
Qed.

Section Kept.
Variable wu : N -> bool.

Definition kept_step (p : part) : Prop := part_ok (tidied_line p) /\ (~ In line_end (part_text p) -> tagged p (tidied p)).

Lemma kept_step_other : forall p, part_ok p -> (forall n l w sl, p <> PStart n l w sl) -> tidied_line p = p /\ kept_step p.
Proof.
  intros p Hp Ns. assert (E : tidied p = p) by (destruct p; try reflexivity; now destruct (Ns name attrs gap slash)).
  assert (E' : tidied_line p = p) by (unfold tidied_line; rewrite E; now destruct (unbroken (written p))).
  split; [exact E'|]. split; [now rewrite E'|]. intros _. rewrite E. now apply tg_same.
Qed.

Lemma kept_tagged_parts : forall ps e, Forall part_ok ps -> Forall (fun p => ~ is_comment p) ps -> Forall tag_safe ps ->
  Forall (fun p => single p = true) ps -> html_blanks (text_of ps) -> rewrites (start_tag wu) tag_out (text_of ps) e ->
  e = text_of (map tidied_line ps) /\ Forall kept_step ps.
Proof.
  unfold text_of. induction ps as [|p ps IH]; intros e F C S Sg HB R; cbn [map concat] in *.
  - split; [|constructor].
    destruct (rewrites_cases _ _ _ _ R) as [[_ K] | [(d & s' & e' & K1 & _) | (m1 & m' & r' & e' & K1 & _ & K2 & _)]];
      [exact K | discriminate|]. symmetry in K1. apply app_eq_nil in K1. tauto.
  - inversion F as [|? ? Hp Fl]; inversion C as [|? ? Cp Cl]; inversion S as [|? ? Sp Sl]; inversion Sg as [|? ? Gp Gl]; subst.
    apply html_blanks_app in HB. destruct HB as [HB1 HB2].
    destruct (part_cases p) as [[c ->] | [[c ->] | [Np Nc]]].
    + destruct (char_copied _ _ _ _ _ Hp (start_lt wu) R) as (e' & -> & R').
      destruct (IH e' Fl Cl Sl Gl HB2 R') as [-> Ks]. destruct (kept_step_other (PChar c) Hp ltac:(discriminate)) as [-> Kp].
      split; [reflexivity | now constructor].
    + exfalso. apply Cp. eexists. reflexivity.
    + destruct (rewrites_cases _ _ _ _ R) as [[K _] | [(d & s' & e' & K1 & K2 & K3 & R') | (m1 & m' & r' & e' & K1 & -> & K2 & L1 & Fm & R')]].
      * destruct (part_first p Hp Np) as (t & Ep). rewrite Ep in K. discriminate.
      * destruct (tag_copied (start_tag wu) tag_out p (concat (map part_text ps)) e Hp Nc Np (start_lt wu) K3 R) as (e2 & -> & R2).
        destruct (IH e2 Fl Cl Sl Gl HB2 R2) as [-> Ks].
        enough (K : tidied_line p = p /\ kept_step p) by (destruct K as [-> Kp]; split; [reflexivity | now constructor]).
        destruct p as [c|c|s|n w|n l w sl]; try (apply kept_step_other; [exact Hp | discriminate]).
        assert (In line_end (part_text (PStart n l w sl)) \/ ~ In line_end (part_text (PStart n l w sl))) as [LE | NL]
          by (destruct (in_dec N.eq_dec line_end (part_text (PStart n l w sl))); auto).
        -- assert (E : tidied_line (PStart n l w sl) = PStart n l w sl).
           { unfold tidied_line. rewrite written_text. destruct (unbroken (part_text (PStart n l w sl))) eqn:Eu; [|reflexivity].
             apply unbroken_iff in Eu. contradiction. }
           split; [exact E|]. split; [now rewrite E | contradiction].
        -- exfalso. destruct (part_tag _ Hp Nc Np) as (x & s & Ep & _ & N2 & _ & Hs).
           assert (Ax : ascii_alpha x = true) by (apply Hs; eauto).
           apply (K3 (part_text (PStart n l w sl)) _ eq_refl). rewrite Ep in NL |- *. apply (a_start_tag wu x s).
           ++ left. unfold ascii_alpha in Ax. unfold letter. lia.
           ++ intro J. apply N2. now right.
           ++ intro J. apply NL. cbn. right. right. apply in_app_iff. now left.
      * destruct (start_found wu p _ _ _ Hp Nc Np K1 L1) as (-> & n & l & w & sl & ->).
        apply app_inv_head in K1. subst r'. destruct (IH e' Fl Cl Sl Gl HB2 R') as [-> Ks].
        assert (NL : ~ In line_end (part_text (PStart n l w sl))).
        { revert L1. generalize (concat (map part_text ps)). intros r L1. destruct L1 as [x body t Hx _ Hb]. intro J.
          rewrite !in_app_iff in J. destruct J as [[J | [J | []]] | [J | [J | []]]]; try contradiction; try discriminate.
          subst x. unfold word_char, letter, digit, line_end in Hx. lia. }
        apply (tag_out_tidy _ _ (single_tidy n l w sl Hp HB1 Gp)) in Fm.
        destruct (tidy_tag_changed n l w sl m' Hp Sp HB1 Fm) as (p' & -> & Hp' & Sm). pose proof (tagged_eq _ _ Sm) as Ep'. subst p'.
        assert (E : tidied_line (PStart n l w sl) = tidied (PStart n l w sl)).
        { unfold tidied_line. rewrite written_text. apply unbroken_iff in NL. now rewrite NL. }
        rewrite E. split; [reflexivity|]. constructor; [|exact Ks]. split; [now rewrite E | intros _; exact Sm].
Qed.

Lemma mentions_part : forall ps n l w sl k, In (PStart n l w sl) ps -> is_start k (map low n) = true -> mentions (lt :: k) (text_of ps).
Proof.
  intros ps n l w sl k I H. apply in_split in I. destruct I as (p1 & p2 & ->). apply is_start_spec in H. destruct H as (r & E).
  apply map_eq_app in E. destruct E as (k' & r' & -> & Ek & _).
  exists (text_of p1), (lt :: k'), (r' ++ attributes_text l ++ w ++ slash_text sl ++ text_of p2).
  split; [|cbn [map]; rewrite Ek; reflexivity]. rewrite text_of_app, text_of_cons. cbn [part_text app]. f_equal.
  cbn. f_equal. rewrite <- !app_assoc. reflexivity.
Qed.

Lemma preserves_preformatted : forall ps, existsb preserves ps = true -> preformatted (text_of ps).
Proof.
  intros ps H. apply existsb_exists in H. destruct H as ([c|c|s|n w|n l w sl] & I & H); try discriminate. cbn [preserves] in H.
  apply orb_true_iff in H. destruct H as [H | H]; [right | left]; exact (mentions_part _ _ _ _ _ _ I H).
Qed.

Lemma preserves_left : forall p, preserves p = true -> left_out p = false.
Proof.
  intros [c|c|s|n w|n [|a l] [|y w] [|]] H; try discriminate; try reflexivity. cbn [left_out].
  destruct (existsb (str_eqb n) droppable_open) eqn:E; [|reflexivity]. apply in_names in E. cbn in E.
  intuition (subst; discriminate).
Qed.

Lemma stripped_inner : forall a s b, html_run a -> html_run b -> html_blanks s -> forall t, trims s t -> stripped (a ++ s ++ b) = t.
Proof.
  intros a s b A B HB t (Tr & x & y & X & Y & E).
  assert (HB2 : html_blanks (a ++ s ++ b)).
  { intros c I Bc. rewrite !in_app_iff in I. unfold html_run in *. rewrite Forall_forall in A, B. destruct I as [I | [I | I]]; auto. }
  refine (trims_det _ _ _ (stripped_trims _ HB2) _). split; [exact Tr|]. exists (a ++ x), (y ++ b).
  apply html_run_blanks in A, B. split; [apply Forall_app; auto|]. split; [apply Forall_app; auto|].
  rewrite E, <- !app_assoc. reflexivity.
Qed.

Lemma document_chars : forall a ps b, html_run a -> html_run b ->
  document (map tidied_line (map PChar a ++ ps ++ map PChar b)) = a ++ document (map tidied_line ps) ++ b.
Proof.
  intros a ps b _ _. assert (M : forall a, map tidied_line (map PChar a) = map PChar a).
  { intro x. rewrite map_map. apply map_ext. intro c. unfold tidied_line. now destruct (unbroken (written (PChar c))). }
  rewrite !map_app, !M, !document_text, !text_of_app, !text_of_chars. reflexivity.
Qed.

Definition before_kept (p : part) : Prop :=
  part_ok p /\ ~ is_comment p /\ settled wu p /\ dropped p = false /\ safe_type p /\ tag_safe p /\ single p = true.

Lemma untyped_single : forall p, single p = true -> single (untype wu p) = true.
Proof.
  intros [c|c|u|n w|n l w sl] H; try reflexivity. unfold untype. destruct (opens_script wu (written (PStart n l w sl))); [|exact H].
  cbn [single] in *. apply andb_true_iff in H. destruct H as [H ->].
  rewrite andb_true_r. apply forallb_forall. intros x Ix. apply filter_In in Ix. rewrite forallb_forall in H. apply H. tauto.
Qed.

Lemma minify_kept_run : forall du lu s ps, lower_ok lu -> html_parts s = Some ps -> Forall part_safe ps -> html_blanks s ->
  existsb preserves ps = true -> forallb single ps = true ->
  exists u v p4 t, minify wu du lu s = Ok t /\ filter (fun p => negb (left_out p)) (map (untype wu) (map uncomment ps)) = map PChar u ++ p4 ++ map PChar v /\
    html_run u /\ html_run v /\ Forall before_kept p4 /\ Forall kept_step p4 /\ existsb preserves p4 = true /\
    html_blanks (text_of (map tidied_line p4)) /\ trims (text_of (map tidied_line p4)) t.
Proof.
  intros du lu s ps HL Hp Hs HB Hr Hg. destruct (html_parts_sound s ps Hp) as (-> & F & K).
  destruct (minify_spec wu du lu (text_of ps) HL) as (a & b & d & e & t & Et & H1 & H2 & H3 & H4).
  destruct (good_no_comment ps (conj F (conj Hs (conj HB K))) a H1) as (p1 & -> & G1 & S1 & T1 & _ & Ep1).
  destruct (good_untyped2 wu p1 b G1 S1 T1 H2) as (p2 & -> & G2 & F2).
  pose proof (Forall2_Forall _ _ _ _ _ (safe_type_fewer wu) F2 S1) as S2. pose proof (Forall2_right _ _ _ _ _ (untypes_settled wu) F2) as T2.
  pose proof (untypes_map wu p1 p2 (proj1 G1) F2) as Ep2.
  destruct (good_cleaned p2 G2) as (E3 & G3 & _). set (p3 := filter (fun p => negb (dropped p)) p2) in *. rewrite E3 in H3.
  assert (Ep3 : p3 = filter (fun p => negb (left_out p)) p2).
  { unfold p3. apply filter_ext_in. intros p J. destruct G2 as (Q1 & Q2 & _). rewrite Forall_forall in Q1, Q2.
    now rewrite left_out_dropped by auto. }
  assert (Hp3 : existsb preserves p3 = true).
  { apply existsb_exists in Hr. destruct Hr as (p & I & H). apply existsb_exists.
    exists (untype wu p). assert (H' : preserves (untype wu p) = true).
    { destruct p as [c|c|q|n w|n l w sl]; try discriminate. unfold untype. now destruct (opens_script wu (written (PStart n l w sl))). }
    split; [|exact H']. rewrite Ep3. apply filter_In. split; [|now rewrite preserves_left].
    rewrite Ep2, Ep1. apply in_map. apply in_map_iff. exists p. split; [now destruct p | exact I]. }
  pose proof (preserves_preformatted _ Hp3) as Pf.
  assert (B3 : Forall before_kept p3).
  { destruct G2 as (Q1 & Q2 & Q3 & _). apply Forall_forall. intros p J. unfold p3 in J. apply filter_In in J. destruct J as [J D].
    apply negb_true_iff in D. assert (Sg : single p = true).
    { rewrite Ep2, Ep1 in J. apply in_map_iff in J. destruct J as (q & <- & J). apply untyped_single. apply in_map_iff in J.
      destruct J as (q0 & <- & J). rewrite forallb_forall in Hg. specialize (Hg q0 J). destruct q0; try exact Hg; reflexivity. }
    rewrite Forall_forall in *. unfold before_kept. repeat split; auto. }
  destruct G3 as (Q1 & Q2 & Q3 & Q4 & _).
  destruct H3 as [(_ & Tr & R) | (NP & _)]; [|contradiction].
  destruct (trims_parts p3 d Q1 Q2 Q4 Tr) as (u & v & p4 & E4 & Hu & Hv & ->).
  exists u, v, p4, t. split; [exact Et|].
  split; [rewrite <- E4, Ep3, Ep2, Ep1; reflexivity|]. do 2 (split; [assumption|]).
  rewrite E4 in B3, Hp3, Q4. rewrite !Forall_app in B3. rewrite !text_of_app, !html_blanks_app in Q4. destruct B3 as (_ & B4 & _).
  assert (Sub : forall P : part -> Prop, (forall p, before_kept p -> P p) -> Forall P p4) by (intros P H; exact (Forall_impl P H B4)).
  destruct (kept_tagged_parts p4 e) with (6 := R) as [-> Ks]; try (apply Sub; intros p H; apply H); [tauto|].
  split; [exact B4|]. split; [exact Ks|]. split; [|split; [|exact H4]].
  - rewrite !existsb_app in Hp3. assert (N0 : forall x, existsb preserves (map PChar x) = false) by (induction x; auto).
    rewrite !N0, orb_false_r in Hp3. exact Hp3.
  - refine (html_blanks_incl (text_of p4) _ _ (rewrites_incl _ _ tag_out_incl _ _ R)). tauto.
Qed.

Theorem minify_kept : forall du lu s ps, lower_ok lu -> html_parts s = Some ps -> Forall part_safe ps -> html_blanks s ->
  existsb preserves ps = true -> forallb single ps = true -> minify wu du lu s = Ok (compact_kept wu ps).
Proof.
  intros du lu s ps HL Hp Hs HB Hr Hg.
  destruct (minify_kept_run du lu s ps HL Hp Hs HB Hr Hg) as (u & v & p4 & t & -> & E & Hu & Hv & _ & _ & _ & HB4 & T).
  f_equal. unfold compact_kept. rewrite E, document_chars, document_text by assumption. symmetry. now apply stripped_inner.
Qed.

(** ** The same again *)

Lemma tagged_single : forall p p', tagged p p' -> single p = true -> single p' = true.
Proof.
  intros p p' [q _|n l l' w w' sl F Hw] H; [exact H|]. cbn [single] in *. apply andb_true_iff in H. destruct H as [H1 H2].
  apply andb_true_iff. split; [|destruct Hw as [[-> _] | (-> & _)]; auto]. clear - F H1.
  induction F as [|a b l l' U F IH]; [reflexivity|]. cbn [forallb] in *. apply andb_true_iff in H1. destruct H1 as [H1 H3].
  rewrite IH by exact H3. rewrite andb_true_r. destruct U; exact H1.
Qed.

Definition done_line (p : part) : Prop :=
  ~ In line_end (part_text p) ->
  match p with
  | PStart _ l w sl => Forall (fun a => ~ quotable a) l /\ (sl = false -> quoted_end l -> w = [])
  | _ => True
  end.

Lemma kept_again : forall p, before_kept p -> kept_step p -> before_kept (tidied_line p) /\ done_line (tidied_line p).
Proof.
  intros p (A1 & A2 & A3 & A4 & A5 & A6 & A7) [K1 K2]. unfold tidied_line in *. rewrite written_text in *.
  destruct (unbroken (part_text p)) eqn:Eu.
  - apply unbroken_iff in Eu. specialize (K2 Eu).
    destruct (tagged_last wu p _ K2 A1 A2 A3 A4 A5 A6 Eu K1) as (B1 & B2 & B3 & B4 & B5 & B6).
    split; [|intros _; exact B6]. unfold before_kept. do 6 (split; [assumption|]). exact (tagged_single _ _ K2 A7).
  - split; [unfold before_kept; auto 8|]. intro NL. apply unbroken_iff in NL. congruence.
Qed.

Lemma done_same : forall p, kept_step p -> done_line p -> tidied_line p = p.
Proof.
  intros p [_ K] D. unfold tidied_line. rewrite written_text. destruct (unbroken (part_text p)) eqn:Eu; [|reflexivity].
  apply unbroken_iff in Eu. specialize (K Eu). specialize (D Eu). revert K. generalize (tidied p). intros p' K.
  destruct K as [q _|n l l' w w' sl F Hw]; [reflexivity|]. destruct D as [D1 D2]. rewrite (unquotes_same l l' F D1).
  destruct Hw as [[-> _] | (-> & -> & Qe)]; [reflexivity|]. now rewrite (D2 eq_refl Qe).
Qed.

Lemma kept_fixed : forall du lu ps, lower_ok lu -> Forall before_kept ps -> Forall done_line ps -> html_blanks (text_of ps) ->
  existsb preserves ps = true -> trimmed (text_of ps) -> minify wu du lu (text_of ps) = Ok (text_of ps).
Proof.
  intros du lu ps HL F D HB Hr Tr.
  assert (Sub : forall P : part -> Prop, (forall p, before_kept p -> P p) -> Forall P ps) by (intros P H; exact (Forall_impl P H F)).
  assert (Ok : Forall part_ok ps) by (apply Sub; intros p H; apply H).
  assert (Nc : Forall (fun p => ~ is_comment p) ps) by (apply Sub; intros p H; apply H).
  destruct (minify_spec wu du lu (text_of ps) HL) as (a & b & d & e & t & Et & H1 & H2 & H3 & H4). rewrite Et. f_equal.
  rewrite (uncommented_none ps a Ok Nc H1) in H2.
  destruct (untyped_parts wu ps b Ok Nc) with (3 := H2) as (p2 & F2 & ->); [apply Sub; intros p H; apply H | exact HB|].
  assert (p2 = ps) as ->. { refine (forall2_same _ _ (settled wu) _ _ _ F2 _); [exact (settled_same wu) | apply Sub; intros p H; apply H]. }
  rewrite (cleaned_parts ps Ok Nc), filter_all in H3 by (apply Sub; intros p H; apply H).
  assert (Same : trims (text_of ps) (text_of ps)).
  { split; [exact Tr|]. exists [], []. repeat split; try constructor. now rewrite app_nil_r. }
  destruct H3 as [(_ & T & R) | (NP & _)]; [|exfalso; apply NP; now apply preserves_preformatted].
  rewrite (trims_det _ _ _ T Same) in R.
  destruct (kept_tagged_parts ps e Ok Nc) with (4 := R) as [-> Ks]; try exact HB; try (apply Sub; intros p H; apply H).
  assert (E : map tidied_line ps = ps).
  { clear - Ks D. induction ps as [|p ps IH]; [reflexivity|]. inversion Ks; inversion D; subst. cbn [map]. f_equal; [now apply done_same | auto]. }
  rewrite E in H4. exact (trims_det _ _ _ H4 Same).
Qed.

Theorem minify_kept_twice : forall du lu s ps t, lower_ok lu -> html_parts s = Some ps -> Forall part_safe ps -> html_blanks s ->
  existsb preserves ps = true -> forallb single ps = true -> minify wu du lu s = Ok t -> minify wu du lu t = Ok t.
Proof.
  intros du lu s ps t HL Hp Hs HB Hr Hg M.
  destruct (minify_kept_run du lu s ps HL Hp Hs HB Hr Hg) as (u & v & p4 & t' & M' & _ & _ & _ & B4 & K4 & P4 & HB4 & T).
  rewrite M in M'. injection M' as <-.
  assert (A5 : Forall (fun p => before_kept p /\ done_line p) (map tidied_line p4)).
  { clear - B4 K4. induction B4 as [|p l Bp B4 IH]; [constructor|]. inversion K4; subst. cbn [map]. constructor; [now apply kept_again | auto]. }
  assert (Ok5 : Forall part_ok (map tidied_line p4)) by (refine (Forall_impl _ _ A5); intros p (H & _); apply H).
  assert (Nc5 : Forall (fun p => ~ is_comment p) (map tidied_line p4)) by (refine (Forall_impl _ _ A5); intros p (H & _); apply H).
  assert (P5 : existsb preserves (map tidied_line p4) = true).
  { apply existsb_exists in P4. destruct P4 as (p & I & H). apply existsb_exists. exists (tidied_line p). split; [now apply in_map|].
    unfold tidied_line. destruct (unbroken (written p)); [|exact H]. now destruct p. }
  destruct (trims_parts (map tidied_line p4) t Ok5 Nc5 HB4 T) as (x & y & p6 & E6 & _ & _ & ->).
  rewrite E6 in A5, P5, HB4. rewrite !Forall_app in A5. destruct A5 as (_ & A6 & _). rewrite !text_of_app, !html_blanks_app in HB4.
  apply kept_fixed; try assumption.
  - refine (Forall_impl _ _ A6). intros p H. apply H.
  - refine (Forall_impl _ _ A6). intros p H. apply H.
  - tauto.
  - rewrite !existsb_app in P5. assert (N0 : forall x, existsb preserves (map PChar x) = false) by (induction x0; auto).
    rewrite !N0, orb_false_r in P5. exact P5.
  - exact (proj1 T).
Qed.
End Kept.
