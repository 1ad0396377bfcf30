(** What a second run of the minifier finds to do in a minified document. *)
From Coq Require Import String List NArith Bool Arith Lia ZifyBool ZifyN.
From Verif Require Import Base HtmlModel HtmlSpec HtmlSyntaxSpec HtmlProofs1 HtmlProofs2 HtmlProofs3 HtmlProofs4 HtmlProofs5 HtmlProofs6 HtmlProofs7 HtmlProofs8 HtmlProofs9 HtmlProofs10 HtmlProofs11 HtmlProofs12.
Import ListNotations.
Open Scope N_scope.

(** ** Where the angle brackets are *)

Lemma text_of_cons : forall p ps, text_of (p :: ps) = part_text p ++ text_of ps.
Proof. reflexivity. Qed.

Lemma tag_lt : forall p a k, part_ok p -> ~ is_comment p -> part_text p = a ++ lt :: k -> a = [] /\ forall c, p <> PChar c.
Proof.
  intros p a k Hp Hc E. destruct (part_cases p) as [[c ->] | [[c ->] | [Np _]]].
  - exfalso. cbn [part_text] in E. destruct a as [|x [|? ?]]; try discriminate. injection E as -> _. now apply Hp.
  - exfalso. apply Hc. eexists. reflexivity.
  - split; [|exact Np]. destruct (part_tag p Hp Hc Np) as (x & s & Ep & N1 & _). rewrite Ep in E.
    destruct a as [|y a]; [reflexivity|]. exfalso. injection E as _ E.
    assert (I : In lt (x :: s ++ [gt])) by (rewrite E; apply in_app_iff; right; now left).
    change (x :: s ++ [gt]) with ((x :: s) ++ [gt]) in I. apply in_app_iff in I. destruct I as [I | [I | []]]; [contradiction | discriminate].
Qed.

Lemma tag_gt : forall p a k, part_ok p -> ~ is_comment p -> part_text p = a ++ gt :: k -> k = [].
Proof.
  intros p a k Hp Hc E. destruct (part_cases p) as [[c ->] | [[c ->] | [Np _]]].
  - cbn [part_text] in E. destruct a as [|x a]; [now injection E|]. injection E as _ E. destruct a; discriminate.
  - exfalso. apply Hc. eexists. reflexivity.
  - destruct (part_tag p Hp Hc Np) as (x & s & Ep & _ & N2 & _). rewrite Ep in E.
    destruct (last_split k) as [-> | (z & d & ->)]; [reflexivity|]. exfalso.
    change ([lt] ++ (x :: s) ++ [gt]) with ((lt :: x :: s) ++ [gt]) in E.
    assert (E2 : (lt :: x :: s) ++ [gt] = (a ++ gt :: z) ++ [d]) by (rewrite E, <- app_assoc; reflexivity).
    apply app_inj_tail in E2. destruct E2 as [E2 _].
    assert (I : In gt (lt :: x :: s)) by (rewrite E2; apply in_app_iff; right; now left).
    destruct I as [I | I]; [discriminate | contradiction].
Qed.

Lemma lt_parts : forall ps a r, Forall part_ok ps -> Forall (fun p => ~ is_comment p) ps -> text_of ps = a ++ lt :: r ->
  exists ps1 q ps2, ps = ps1 ++ q :: ps2 /\ part_text q ++ text_of ps2 = lt :: r /\ forall c, q <> PChar c.
Proof.
  induction ps as [|p ps IH]; intros a r F C E; [destruct a; discriminate|].
  inversion F as [|? ? Hp Fl]; inversion C as [|? ? Cp Cl]; subst. rewrite text_of_cons in E.
  destruct (app_split _ _ _ _ E) as [(k & -> & E2) | (k & E1 & E2)].
  - destruct (IH k r Fl Cl E2) as (ps1 & q & ps2 & -> & K). exists (p :: ps1), q, ps2. split; [reflexivity | exact K].
  - destruct k as [|x k].
    + cbn [app] in E2. destruct (IH [] r Fl Cl (eq_sym E2)) as (ps1 & q & ps2 & -> & K). exists (p :: ps1), q, ps2. split; [reflexivity | exact K].
    + injection E2 as <- ->. destruct (tag_lt p a k Hp Cp E1) as [-> Np]. exists [], p, ps. split; [reflexivity|].
      split; [now rewrite E1 | exact Np].
Qed.

Lemma between_parts : forall ps a c b, Forall part_ok ps -> Forall (fun p => ~ is_comment p) ps -> blank c ->
  text_of ps = a ++ gt :: c :: lt :: b ->
  exists ps1 p q ps2 x, ps = ps1 ++ p :: PChar c :: q :: ps2 /\ part_text p = x ++ [gt] /\ forall d, q <> PChar d.
Proof.
  induction ps as [|p ps IH]; intros a c b F C B E; [destruct a; discriminate|].
  inversion F as [|? ? Hp Fl]; inversion C as [|? ? Cp Cl]; subst. rewrite text_of_cons in E.
  destruct (app_split _ _ _ _ E) as [(k & -> & E2) | (k & E1 & E2)].
  - destruct (IH k c b Fl Cl B E2) as (ps1 & p1 & q & ps2 & x & -> & K). exists (p :: ps1), p1, q, ps2, x. split; [reflexivity | exact K].
  - destruct k as [|y k].
    + cbn [app] in E2. destruct (IH [] c b Fl Cl B (eq_sym E2)) as (ps1 & p1 & q & ps2 & x & -> & K). exists (p :: ps1), p1, q, ps2, x. split; [reflexivity | exact K].
    + injection E2 as <- E2. pose proof (tag_gt p a k Hp Cp E1) as ->. cbn [app] in E2.
      destruct ps as [|p2 ps]; [discriminate|]. inversion Fl as [|? ? Hp2 Fl2]; inversion Cl as [|? ? Cp2 Cl2]; subst.
      rewrite text_of_cons in E2. destruct (part_cases p2) as [[d ->] | [[d ->] | [Np2 _]]].
      * cbn [part_text app] in E2. injection E2 as <- E2.
        destruct ps as [|q ps]; [discriminate|]. exists [], p, q, ps, a. split; [reflexivity|]. split; [exact E1|].
        intros d ->. inversion Fl2 as [|? ? Hq _]; subst. rewrite text_of_cons in E2. cbn [part_text app] in E2. injection E2 as <- _. now apply Hq.
      * exfalso. apply Cp2. eexists. reflexivity.
      * exfalso. destruct (part_first p2 Hp2 Np2) as (t & Et). rewrite Et in E2. injection E2 as -> _. discriminate B.
Qed.

(** ** Elements that keep white space *)

Lemma low_letter : forall c x, low c = x -> ascii_alpha x = true -> ascii_alpha c = true /\ name_char c = true.
Proof.
  intros c x <- H. assert (A : ascii_alpha c = true).
  { unfold low, ascii_alpha in *. destruct ((0x41 <=? c) && (c <=? 0x5A)) eqn:E; lia. }
  split; [exact A|]. unfold ascii_alpha in A. unfold name_char, html_blank, dquote. cbn. lia.
Qed.

Lemma mention_named : forall ps k, Forall part_ok ps -> Forall (fun p => ~ is_comment p) ps ->
  k <> [] -> Forall (fun c => ascii_alpha c = true) k -> mentions (lt :: k) (text_of ps) ->
  Exists (fun p => match p with PStart n _ _ _ => is_start k (map low n) = true | _ => False end) ps.
Proof.
  intros ps k F C Nk Fk (a & b & c & E & Eb). destruct b as [|x b]; [discriminate|]. injection Eb as Ex Eb.
  assert (x = lt) as ->.
  { unfold low, lt in Ex. destruct ((0x41 <=? x) && (x <=? 0x5A)) eqn:K; unfold lt; lia. }
  destruct (lt_parts ps a (b ++ c) F C E) as (ps1 & q & ps2 & -> & Eq & Nq).
  apply Exists_app. right. apply Exists_cons. left.
  apply Forall_app in F, C. destruct F as [_ F]. destruct C as [_ C]. inversion F as [|? ? Hq _]; inversion C as [|? ? Cq _]; subst.
  assert (Fb : Forall (fun c => ascii_alpha c = true /\ name_char c = true) b).
  { apply Forall_forall. intros d I. assert (J : In (low d) (map low b)) by now apply in_map.
    rewrite Forall_forall in Fk. exact (low_letter d _ eq_refl (Fk _ J)). }
  destruct (part_tag q Hq Cq Nq) as (y & s & Ep & _ & _ & _ & Hs). pose proof Eq as Eq'. rewrite Ep in Eq'. injection Eq' as Eq'.
  destruct b as [|d b]; [contradiction|]. injection Eq' as -> _. inversion Fb as [|? ? [Ad _] _]; subst.
  apply Hs in Ad. destruct Ad as (n & l & w & sl & ->). destruct Hq as ((_ & Fn) & Fl & W & _).
  cbn [part_text app] in Eq. injection Eq as Eq.
  destruct (name_prefix (d :: b) n ((attributes_text l ++ w ++ slash_text sl) ++ text_of ps2) c) as (n' & ->).
  - apply Forall_impl with (2 := Fb). tauto.
  - rewrite <- !app_assoc. apply tag_rest_name, tag_rest_attributes; assumption.
  - cbn [app]. rewrite <- Eq. rewrite <- !app_assoc. reflexivity.
  - rewrite map_app. apply is_start_app.
Qed.

Lemma reflows_not_pre : forall ps, Forall part_ok ps -> Forall (fun p => ~ is_comment p) ps -> Forall reflows ps -> ~ preformatted (text_of ps).
Proof.
  intros ps F C R [H | H]; apply mention_named in H; try assumption; try discriminate; try (repeat constructor);
    apply Exists_exists in H; destruct H as (p & I & K); rewrite Forall_forall in R; specialize (R p I);
    destruct p; try contradiction; destruct R as [R1 R2]; cbn in *; congruence.
Qed.

(** ** White space *)

Definition between (s : str) : Prop := forall a c b, s = a ++ gt :: c :: lt :: b -> blank c -> c = 0x20.

Lemma squeezed_head : forall p s c t, squeezed p s (c :: t) -> ~ blank c -> exists s', s = c :: s'.
Proof.
  intros p s c t Q Hc. inversion Q as [|? ? s' ? _ _|? w w' r t0 Hw W _ Hq _ Ep Es Et]; subst; [eauto|]. exfalso.
  apply Hc. destruct Hq as [d -> _ _ _|_]; injection Et as <- _; [now inversion W | reflexivity].
Qed.

Lemma squeezed_between : forall p s t, squeezed p s t -> between t.
Proof.
  assert (G : forall s c b, squeezed (Some gt) s (c :: lt :: b) -> blank c -> c = 0x20).
  { intros s c b Q B. inversion Q as [|? ? s' ? Hc _|? w w' r t0 Hw W _ Hq Q' Ep Es Et]; subst; [contradiction|].
    destruct Hq as [d -> _ _ Nb|_].
    - injection Et as -> ->. exfalso. apply Nb. split; [reflexivity|]. apply (squeezed_head _ _ _ _ Q'). discriminate.
    - now injection Et as <- _. }
  intros p s t Q. induction Q as [p|p c s t Hc Q IH|p w w' r t Hw W _ Hq Q IH]; intros a d b E B.
  - destruct a; discriminate.
  - destruct a as [|x a]; [|injection E as _ E; exact (IH a d b E B)].
    injection E as -> ->. exact (G _ _ _ Q B).
  - assert (exists x, w' = [x] /\ blank x) as (x & -> & Bx).
    { destruct Hq as [x -> _ _ _|_]; [exists x; split; [reflexivity | now inversion W] | exists 0x20; split; reflexivity]. }
    destruct a as [|y a]; [injection E as -> _; discriminate Bx|]. injection E as _ E. exact (IH a d b E B).
Qed.

Lemma tidy_tail : forall c s, tidy (c :: s) -> tidy s.
Proof. intros c s T a b x d E. apply (T (c :: a) b x d). now rewrite E. Qed.

Lemma squeezed_same : forall s p, tidy s -> ~ In 0xD s -> ~ In line_end s -> between s ->
  (p = Some gt -> forall c b, s = c :: lt :: b -> blank c -> c = 0x20) -> squeezed p s s.
Proof.
  induction s as [|c s IH]; intros p T C1 C2 Bt Hp; [constructor|].
  assert (T' := tidy_tail _ _ T).
  assert (C1' : ~ In 0xD s) by (intro I; apply C1; now right). assert (C2' : ~ In line_end s) by (intro I; apply C2; now right).
  assert (Bt' : between s) by (intros a x b E; apply (Bt (c :: a) x b); now rewrite E).
  destruct (is_whitespace c) eqn:Ec.
  - change (c :: s) with ([c] ++ s). apply sq_run.
    + discriminate.
    + now constructor.
    + intros x r' -> B. apply (T [] c x r'); [reflexivity | split; [exact Ec | exact B]].
    + destruct s as [|x s].
      * apply sr_one; [reflexivity | intros ->; apply C1; now left | intros ->; apply C2; now left |]. intros (_ & r' & K). discriminate.
      * destruct (N.eq_dec x lt) as [-> | Nx].
        -- destruct p as [g|].
           ++ destruct (N.eq_dec g gt) as [-> | Ng].
              ** assert (c = 0x20) as -> by (apply (Hp eq_refl c s eq_refl); exact Ec). apply sr_many. intros c E. right. right. eauto.
              ** apply sr_one; [reflexivity | intros ->; apply C1; now left | intros ->; apply C2; now left |]. intros (K & _). congruence.
           ++ apply sr_one; [reflexivity | intros ->; apply C1; now left | intros ->; apply C2; now left |]. intros (K & _). discriminate.
        -- apply sr_one; [reflexivity | intros ->; apply C1; now left | intros ->; apply C2; now left |]. intros (_ & r' & K). congruence.
    + apply IH; try assumption. discriminate.
  - apply sq_char; [unfold blank; congruence|]. apply IH; try assumption. intros E x b -> B. injection E as ->.
    exact (Bt [] x b eq_refl B).
Qed.

(** ** Comments *)

Lemma uncommented_none : forall ps e, Forall part_ok ps -> Forall (fun p => ~ is_comment p) ps -> uncommented (text_of ps) e -> e = text_of ps.
Proof.
  induction ps as [|p ps IH]; intros e F C R.
  - destruct (rewrites_cases _ _ _ _ R) as [[_ K] | [(d & s' & e' & K1 & _) | (m1 & m' & r' & e' & K1 & _ & K2 & _)]];
      [exact K | discriminate|]. symmetry in K1. apply app_eq_nil in K1. tauto.
  - inversion F as [|? ? Hp Fl]; inversion C as [|? ? Cp Cl]; subst. rewrite text_of_cons in *.
    destruct (part_cases p) as [[c ->] | [[c ->] | [Np _]]].
    + destruct (char_copied comment comment_out _ _ _ Hp comment_lt R) as (e' & -> & R'). f_equal. now apply IH.
    + exfalso. apply Cp. eexists. reflexivity.
    + destruct (tag_copied comment comment_out p (text_of ps) e Hp Cp Np comment_lt) with (2 := R) as (e' & -> & R').
      * intros m t E T. destruct T as [x t _]. destruct (part_tag p Hp Cp Np) as (y & s & Ep & _ & _ & Hy & _). rewrite Ep in E.
        injection E as -> E. destruct Hy as [Hy | [Hy | (_ & z & s' & -> & Nz)]]; try discriminate.
        injection E as -> _. contradiction.
      * f_equal. now apply IH.
Qed.

(** ** Types *)

Section Second.
Variable wu : N -> bool.

Definition scripted (n : str) : Prop :=
  exists k n', In k [S_ "style"; S_ "script"] /\ n = k ++ n' /\ match n' with [] => True | y :: _ => word_bar_blank wu y end.

Lemma scripted_typed : forall n, scripted n -> typed_element n = true.
Proof.
  intros n (k & n' & I & -> & _). unfold typed_element. destruct I as [<- | [<- | []]]; rewrite is_start_app; [reflexivity | apply orb_true_r].
Qed.

Lemma script_scripted : forall n l w sl, part_ok (PStart n l w sl) -> script_tag wu (part_text (PStart n l w sl)) [] -> scripted n.
Proof.
  intros n l w sl ((_ & Fn) & Fl & W & _). generalize (@nil N). intros r T.
  remember (part_text (PStart n l w sl)) as m eqn:Em. destruct T as [name x body r I Hx _ _]. cbn [part_text] in Em.
  assert (exists k, In k [S_ "style"; S_ "script"] /\ name = lt :: k) as (k & Ik & ->).
  { destruct I as [<- | [<- | []]]; eexists; (split; [|reflexivity]); cbn; tauto. }
  cbn [app S_] in Em. injection Em as Em.
  assert (Fk : Forall (fun c => name_char c = true) k) by (destruct Ik as [<- | [<- | []]]; repeat constructor).
  destruct (name_prefix k n (attributes_text l ++ w ++ slash_text sl) (x :: body ++ [gt]) Fk) as (n' & ->).
  - now apply tag_rest_name, tag_rest_app.
  - now symmetry.
  - exists k, n'. split; [exact Ik|]. split; [reflexivity|]. destruct n' as [|y n']; [exact Logic.I|]. rewrite <- app_assoc in Em.
    apply app_inv_head in Em. injection Em as -> _. exact Hx.
Qed.

Lemma scripted_script : forall n l w sl, part_ok (PStart n l w sl) -> scripted n -> l <> [] ->
  ~ In line_end (part_text (PStart n l w sl)) -> script_tag wu (part_text (PStart n l w sl)) [].
Proof.
  intros n l w sl Hp (k & n' & I & -> & Hn') Nl NL. pose proof Hp as ((_ & Fn) & Fl & W & _).
  destruct (part_tag _ Hp) as (x & s & Ep & _ & Ng & _); [intros (? & ?); discriminate | discriminate|].
  assert (exists y t, n' ++ attributes_text l ++ w ++ slash_text sl = y :: t ++ [gt] /\ word_bar_blank wu y) as (y & t & Ey & Hy).
  { assert (exists u, w ++ slash_text sl = u ++ [gt]) as (u & Eu).
    { destruct sl; [exists (w ++ S_ "/") | exists w]; cbn; [now rewrite <- app_assoc | reflexivity]. }
    rewrite Eu. destruct n' as [|y n'].
    - destruct l as [|a l]; [contradiction|]. inversion Fl as [|? ? (Ng' & G & _) _]; subst.
      unfold attributes_text. cbn [map concat]. unfold attribute_text at 1. destruct (a_gap a) as [|y g]; [contradiction|].
      exists y. eexists. cbn [app]. rewrite app_assoc. split; [reflexivity|]. right. right. inversion G. now apply html_blank_blank.
    - exists y, (n' ++ attributes_text l ++ u). split; [|exact Hn']. cbn [app]. now rewrite <- !app_assoc. }
  assert (Et : part_text (PStart (k ++ n') l w sl) = (lt :: k) ++ y :: t ++ [gt]).
  { cbn [part_text]. cbn [app S_]. f_equal. rewrite <- app_assoc, Ey. reflexivity. }
  rewrite Et. apply a_script_tag.
  - destruct I as [<- | [<- | []]]; cbn; tauto.
  - exact Hy.
  - intro J. rewrite Et in Ep. assert (E2 : ((lt :: k) ++ y :: t) ++ [gt] = (lt :: x :: s) ++ [gt]) by (rewrite <- app_assoc; exact Ep).
    apply app_inv_tail in E2. assert (J2 : In gt (lt :: x :: s)) by (rewrite <- E2; apply in_app_iff; right; now right).
    destruct J2 as [J2 | J2]; [discriminate | contradiction].
  - intro J. apply NL. rewrite Et. apply in_app_iff. right. right. apply in_app_iff. now left.
Qed.

(** No type left to take out. *)
Definition settled (p : part) : Prop :=
  match p with
  | PStart _ l _ _ => script_tag wu (part_text p) [] -> Forall (fun a => removable wu a = false) l
  | _ => True
  end.

Lemma untypes_settled : forall p p', untypes wu p p' -> settled p'.
Proof.
  intros p p' [[c|c|s|n w|n l w sl] H|n l w sl _ _]; try exact I; intro T; [contradiction|].
  apply Forall_forall. intros a J. apply filter_In in J. destruct J as [_ J]. now apply negb_true_iff in J.
Qed.

Lemma filter_all : forall (A : Type) (f : A -> bool) l, Forall (fun a => f a = false) l -> filter (fun a => negb (f a)) l = l.
Proof. intros A f l F. induction F as [|a l Ha F IH]; [reflexivity|]. cbn. now rewrite Ha, IH. Qed.

Lemma settled_same : forall p p', untypes wu p p' -> settled p -> p' = p.
Proof.
  intros p p' [q H|n l w sl Ht T] S; [reflexivity|]. now rewrite (filter_all _ _ l (S T)).
Qed.

Lemma sim_removable : forall a a', sim_attribute a a' -> attribute_line a -> removable wu a' = true -> removable wu a = true.
Proof.
  intros [g n v] [g' n' v'] [En Ev] [_ Ln] H. unfold removable in *. cbn [a_name a_value] in *. subst n'.
  apply andb_true_iff in H. destruct H as [H1 H2]. rewrite H1. cbn [andb].
  destruct v' as [[[[[|? ?] [|? ?]] [q|]] [|x' v']]|]; try discriminate.
  destruct v as [[[[w1 w2] q0] v]|]; [|contradiction]. cbn [sim_value] in Ev. destruct Ev as (<- & Es & Z1 & Z2).
  rewrite (Z1 eq_refl), (Z2 eq_refl). destruct Ln as (_ & _ & Ln). apply andb_true_iff in H2. destruct H2 as [H2 H3].
  apply andb_true_iff in H2. destruct H2 as [H2 H4]. 
  destruct v as [|x v]; [apply skeleton_nil in Es; discriminate|]. rewrite H2. cbn [andb].
  apply andb_true_iff. split.
  - unfold word_bar_space in *. destruct (is_whitespace x) eqn:Ex; [apply orb_true_r|].
    assert (x' = x) as <-.
    { cbn [skeleton] in Es. rewrite Ex in Es. destruct (is_whitespace x') eqn:Ex'; [|now injection Es].
      exfalso. assert (K : forall y z, (0x20 :: y = x :: z) -> False) by (intros y z K; injection K as <-; discriminate Ex).
      destruct (skeleton v') as [|y z] eqn:Ez; [exact (K _ _ Es)|]. destruct y as [|p]; [exact (K _ _ Es)|].
      do 6 (destruct p as [p|p|]; try exact (K _ _ Es)). }
    now rewrite Ex in H4.
  - apply negb_true_iff. destruct (existsb (N.eqb line_end) v) eqn:K; [|reflexivity]. exfalso. apply existsb_in in K. apply Ln. now right.
Qed.

Lemma line_text : forall n l w sl, part_ok (PStart n l w sl) -> Forall attribute_line l -> ~ In line_end w -> ~ In line_end (part_text (PStart n l w sl)).
Proof.
  intros n l w sl ((_ & Fn) & Fl & _) L Lw I. cbn [part_text] in I. rewrite !in_app_iff in I.
  assert (Nm : forall k, Forall (fun c => name_char c = true) k -> ~ In line_end k).
  { intros k Fk J. rewrite Forall_forall in Fk. apply Fk in J. discriminate. }
  destruct I as [I | [I | [I | [I | I]]]].
  - destruct I as [I | []]. discriminate.
  - exact (Nm n Fn I).
  - unfold attributes_text in I. rewrite in_concat in I. destruct I as (x & I & J). apply in_map_iff in I. destruct I as (a & <- & I).
    rewrite Forall_forall in L, Fl. specialize (L a I). destruct (Fl a I) as (_ & _ & _ & Fa & V). destruct L as [L1 L2].
    unfold attribute_text in J. rewrite !in_app_iff in J. destruct J as [J | [J | J]]; [contradiction | exact (Nm _ Fa J)|].
    destruct (a_value a) as [[[[w1 w2] q] v]|]; [|exact J]. destruct L2 as (L2 & L3 & L4). cbn [value_text] in J. rewrite !in_app_iff in J.
    destruct J as [J | [[J | []] | [J | J]]]; try contradiction; [discriminate|]. destruct q as [q|]; [|contradiction]. cbn [quotes_text] in J.
    destruct V as (_ & _ & Hq & _). assert (Nq : q <> line_end) by (destruct Hq as [-> | ->]; discriminate).
    destruct J as [J | J]; [congruence|]. apply in_app_iff in J. destruct J as [J | [J | []]]; [contradiction | congruence].
  - contradiction.
  - destruct sl; cbn in I; intuition discriminate.
Qed.

Lemma sim_settled : forall p p', sim p p' -> part_ok p -> part_ok p' -> one_line p -> settled p -> settled p'.
Proof.
  intros p p' [s s' E|n w w' _|n l l' w w' sl F Hw] Hp Hp' L S; try exact I. intro T.
  pose proof (script_scripted n l' w' sl Hp' T) as Sc. destruct l as [|a l]; [inversion F; constructor|].
  destruct (L (scripted_typed n Sc)) as [L1 L2].
  pose proof (S (scripted_script n (a :: l) w sl Hp Sc ltac:(discriminate) (line_text _ _ _ sl Hp L1 L2))) as R.
  clear - F L1 R. induction F as [|b b' x y Hb F IH]; [constructor|]. inversion L1; inversion R; subst. constructor; [|auto].
  destruct (removable wu b') eqn:K; [|reflexivity]. rewrite (sim_removable b b' Hb) in *; congruence.
Qed.

Lemma ends_with_dec_trans : forall a a', a_name a' = a_name a -> skeleton (value_of a') = skeleton (value_of a) -> type_safe a -> type_safe a'.
Proof.
  intros a a' En Es [H1 H2]. split; [|now rewrite En]. intro K. apply H1.
  apply (occurs_skeleton (S_ "type=") (value_of a) (value_of a')); [discriminate | repeat constructor | now symmetry | exact K].
Qed.

Lemma sim_safe_type : forall p p', sim p p' -> safe_type p -> safe_type p'.
Proof.
  intros p p' [s s' E|n w w' _|n l l' w w' sl F Hw] S; try exact I. intro T.
  refine (Forall2_Forall _ _ _ _ _ _ F (S T)). intros a b Sab. apply sim_alike in Sab. destruct Sab. now apply ends_with_dec_trans.
Qed.

Lemma sim_reflows : forall p p', sim p p' -> reflows p -> reflows p'.
Proof. intros p p' S. now destruct S. Qed.

Lemma in_dropped : forall n, In n droppable_close -> dropped (PEnd n []) = true.
Proof. intros n I. unfold dropped. apply inb_iff, spec_tags_iff. right. exists n. split; [exact I | reflexivity]. Qed.

Lemma in_dropped_open : forall n, In n droppable_open -> dropped (PStart n [] [] false) = true.
Proof. intros n I. unfold dropped. apply inb_iff, spec_tags_iff. left. exists n. split; [exact I | reflexivity]. Qed.

Lemma sim_dropped : forall p p', sim p p' -> part_ok p' -> dropped p = false -> dropped p' = false.
Proof.
  intros p p' S Hp' D. destruct (dropped p') eqn:D'; [|reflexivity].
  destruct (dropped_shape p' Hp' (sim_not_comment _ _ S) D') as [(n & -> & I) | (n & -> & I)]; inversion S as [|? w ? Hw|? l ? w ? ? F Hw]; subst.
  - rewrite (Hw eq_refl), in_dropped in D by exact I. discriminate.
  - inversion F; subst. rewrite (Hw eq_refl), in_dropped_open in D by exact I. discriminate.
Qed.

(** ** Start tags *)

Inductive tagged : part -> part -> Prop :=
| tg_same : forall p, (forall n l w sl, p <> PStart n l w sl) -> tagged p p
| tg_start : forall n l l' w w' sl, Forall2 unquotes l l' ->
    (w' = w /\ (sl = false -> quoted_end l -> w = [])) \/ (w' = [] /\ sl = false /\ quoted_end l) ->
    tagged (PStart n l w sl) (PStart n l' w' sl).

Lemma tidy_tag_changed : forall n l w sl m', part_ok (PStart n l w sl) -> tag_safe (PStart n l w sl) ->
  html_blanks (part_text (PStart n l w sl)) -> tidy_tag_out (part_text (PStart n l w sl)) m' ->
  exists p', m' = part_text p' /\ part_ok p' /\ tagged (PStart n l w sl) p'.
Proof.
  intros n l w sl m' Hp (Z1 & Z2) HB T. remember (part_text (PStart n l w sl)) as m eqn:Em.
  destruct T as [m Oc|m k m' _ Hc Hu].
  - exfalso. destruct Oc as (a & b & E). subst m.
    destruct (tag_lt _ a (0x2F :: b) Hp) as [-> _]; [intros (? & ?); discriminate | exact E|].
    destruct Hp as (((c & r & -> & Ac) & _) & _). cbn [part_text app S_] in E. injection E as -> _. discriminate Ac.
  - subst m. destruct (closed_tag n l w sl k Hp HB Hc) as (w' & -> & Hw').
    assert (Ok1 : part_ok (PStart n l w' sl)).
    { destruct Hw' as [[-> _] | (-> & -> & _)]; [exact Hp|]. destruct Hp as (A1 & A2 & A3 & A4). repeat split; try apply A1; try exact A2.
      - constructor.
      - intro K. discriminate. }
    destruct (unquoted_tag n l w' sl m' Ok1 Z1 Hu) as (l' & F3 & ->).
    exists (PStart n l' w' sl). split; [reflexivity|]. split; [|now constructor]. destruct Ok1 as (B1 & B2 & B3 & B4).
    repeat split; try apply B1; try exact B3.
    + exact (Forall2_Forall _ _ _ _ _ unquotes_ok F3 B2).
    + intros -> -> y3 a3 K3 Kb. assert (w = []) as -> by (destruct Hw' as [[-> _] | (_ & K & _)]; [reflexivity | discriminate]).
      destruct (Forall2_last _ _ _ _ _ _ _ F3 K3) as (y2 & a2 & E2 & U). destruct U as [a2 _|g nm v1 v2 v Hn Nv Fv _].
      * exact (B4 eq_refl eq_refl y2 a2 E2 Kb).
      * destruct (Z2 eq_refl eq_refl y2 _ E2) as [Q1 Q2]. cbn [a_name] in *. tauto.
Qed.

Lemma tidy_tagged_parts : forall ps e, Forall part_ok ps -> Forall (fun p => ~ is_comment p) ps -> Forall tag_safe ps ->
  html_blanks (text_of ps) -> ~ In line_end (text_of ps) -> rewrites (start_tag wu) tidy_tag_out (text_of ps) e ->
  exists ps', e = text_of ps' /\ Forall part_ok ps' /\ Forall2 tagged ps ps'.
Proof.
  unfold text_of. induction ps as [|p ps IH]; intros e F C S HB NL R; cbn [map concat] in *.
  - exists []. split; [|split; constructor].
    destruct (rewrites_cases _ _ _ _ R) as [[_ K] | [(d & s' & e' & K1 & _) | (m1 & m' & r' & e' & K1 & _ & K2 & _)]];
      [exact K | discriminate|]. symmetry in K1. apply app_eq_nil in K1. tauto.
  - inversion F as [|? ? Hp Fl]; inversion C as [|? ? Cp Cl]; inversion S as [|? ? Sp Sl]; subst.
    apply html_blanks_app in HB. destruct HB as [HB1 HB2]. rewrite in_app_iff in NL.
    assert (NL2 : ~ In line_end (concat (map part_text ps))) by tauto.
    destruct (part_cases p) as [[c ->] | [[c ->] | [Np Nc]]].
    + destruct (char_copied _ _ _ _ _ Hp (start_lt wu) R) as (e' & -> & R').
      destruct (IH e' Fl Cl Sl HB2 NL2 R') as (ps' & -> & Ok & F2). exists (PChar c :: ps').
      split; [reflexivity|]. split; [now constructor|]. constructor; [constructor; discriminate | exact F2].
    + exfalso. apply Cp. eexists. reflexivity.
    + destruct (rewrites_cases _ _ _ _ R) as [[K _] | [(d & s' & e' & K1 & K2 & K3 & R') | (m1 & m' & r' & e' & K1 & -> & K2 & L1 & Fm & R')]].
      * destruct (part_first p Hp Np) as (t & Ep). rewrite Ep in K. discriminate.
      * destruct (tag_copied (start_tag wu) tidy_tag_out p (concat (map part_text ps)) e Hp Nc Np (start_lt wu) K3 R) as (e2 & -> & R2).
        destruct (IH e2 Fl Cl Sl HB2 NL2 R2) as (ps' & -> & Ok & F2). exists (p :: ps').
        split; [reflexivity|]. split; [now constructor|]. constructor; [|exact F2]. constructor. intros n l w sl ->.
        destruct (part_tag _ Hp Nc Np) as (x & s & Ep & _ & N2 & _ & Hs).
        assert (Ax : ascii_alpha x = true) by (apply Hs; eauto).
        apply (K3 (part_text (PStart n l w sl)) _ eq_refl). rewrite Ep in NL |- *. apply (a_start_tag wu x s).
        -- left. unfold ascii_alpha in Ax. unfold letter. lia.
        -- intro J. apply N2. now right.
        -- intro J. apply NL. left. cbn. right. right. apply in_app_iff. now left.
      * destruct (start_found wu p _ _ _ Hp Nc Np K1 L1) as (-> & n & l & w & sl & ->).
        apply app_inv_head in K1. subst r'. destruct (IH e' Fl Cl Sl HB2 NL2 R') as (ps' & -> & Ok & F2).
        destruct (tidy_tag_changed n l w sl m' Hp Sp HB1 Fm) as (p' & -> & Hp' & Sm).
        exists (p' :: ps'). split; [reflexivity|]. split; [now constructor|]. now constructor.
Qed.

(** A part with which nothing more is done. *)
Definition final (p : part) : Prop :=
  part_ok p /\ ~ is_comment p /\ settled p /\ dropped p = false /\ reflows p /\ safe_type p /\ tag_safe p /\
  match p with
  | PStart _ l w sl => Forall (fun a => ~ quotable a) l /\ (sl = false -> quoted_end l -> w = [])
  | _ => True
  end.

Lemma unquotes_same : forall l l', Forall2 unquotes l l' -> Forall (fun a => ~ quotable a) l -> l' = l.
Proof.
  intros l l' F. induction F as [|a a' l l' U F IH]; intro Q; [reflexivity|]. inversion Q; subst. f_equal; [|auto].
  destruct U; [reflexivity | contradiction].
Qed.

Lemma tagged_same : forall p p', tagged p p' -> final p -> p' = p.
Proof.
  intros p p' [q _|n l l' w w' sl F Hw] (_ & _ & _ & _ & _ & _ & _ & Q); [reflexivity|]. destruct Q as [Q1 Q2].
  rewrite (unquotes_same l l' F Q1). destruct Hw as [[-> _] | (-> & -> & Qe)]; [reflexivity|]. now rewrite (Q2 eq_refl Qe).
Qed.

Lemma unquoted_end : forall l l', Forall2 unquotes l l' -> quoted_end l' -> quoted_end l.
Proof.
  intros l l' F (y & b & w1 & w2 & q & v & E & Ev). destruct (Forall2_last _ _ _ _ _ _ _ F E) as (x & a & -> & U).
  exists x, a, w1, w2, q, v. split; [reflexivity|]. destruct U as [a _|]; [exact Ev | discriminate].
Qed.

Definition before_tags (p : part) : Prop :=
  part_ok p /\ ~ is_comment p /\ settled p /\ dropped p = false /\ reflows p /\ safe_type p /\ tag_safe p.

Lemma tagged_last : forall p p', tagged p p' -> part_ok p -> ~ is_comment p -> settled p -> dropped p = false -> safe_type p -> tag_safe p ->
  ~ In line_end (part_text p) -> part_ok p' ->
  ~ is_comment p' /\ settled p' /\ dropped p' = false /\ safe_type p' /\ tag_safe p' /\
  match p' with
  | PStart _ l w sl => Forall (fun a => ~ quotable a) l /\ (sl = false -> quoted_end l -> w = [])
  | _ => True
  end.
Proof.
  intros p p' T A1 A2 A3 A4 A6 A7 NL Hp'. destruct T as [p Ns|n l l' w w' sl F Hw].
  - repeat (split; [assumption|]). destruct p as [| | | |n l w sl]; try exact I. now destruct (Ns n l w sl).
  - split; [intros (? & ?); discriminate|]. split; [|split; [|split; [|split; [|split]]]].
    + intro T. pose proof (script_scripted n l' w' sl Hp' T) as Sc. destruct l as [|a l]; [inversion F; constructor|].
      pose proof (A3 (scripted_script n (a :: l) w sl A1 Sc ltac:(discriminate) NL)) as R.
      clear - F R. induction F as [|b b' x y U F IH]; [constructor|]. inversion R; subst. constructor; [|auto].
      destruct U; [assumption|]. unfold removable. cbn [a_name a_value]. destruct w1, w2; apply andb_false_r.
    + destruct (dropped (PStart n l' w' sl)) eqn:D; [|reflexivity].
      destruct (dropped_shape _ Hp' ltac:(intros (? & ?); discriminate) D) as [(n0 & K & _) | (n0 & K & I)]; [discriminate|].
      injection K as <- -> -> ->. inversion F; subst. destruct Hw as [[<- _] | (_ & _ & Q)].
      * rewrite in_dropped_open in A4 by exact I. discriminate.
      * destruct Q as (y & b & w1 & w2 & q & v & E & _). destruct y; discriminate.
    + intro Ty. refine (Forall2_Forall _ _ _ _ _ _ F (A6 Ty)). intros a b U. apply unquotes_alike in U. destruct U. now apply ends_with_dec_trans.
    + destruct A7 as [Z1 Z2]. split.
      * refine (Forall2_Forall _ _ _ _ _ _ F Z1). intros a b U. destruct U; intro Z; exact Z.
      * intros -> -> y b E. destruct (Forall2_last _ _ _ _ _ _ _ F E) as (x & a & Ea & U).
        assert (w = []) as -> by (destruct Hw as [[-> _] | (_ & K & _)]; [reflexivity | discriminate]).
        destruct (unquotes_alike _ _ U) as [En _]. rewrite En. exact (Z2 eq_refl eq_refl x a Ea).
    + clear - F. induction F as [|a b x y U F IH]; [constructor|]. constructor; [|exact IH]. destruct U as [a N|g n w1 w2 v _ _ _ _]; [exact N|].
      intros (pre & name & v0 & _ & _ & K & _). discriminate.
    + intros -> Q. apply (unquoted_end l l' F) in Q. destruct Hw as [[-> K] | (-> & _)]; auto.
Qed.

Lemma tagged_final : forall p p', tagged p p' -> before_tags p -> ~ In line_end (part_text p) -> part_ok p' -> final p'.
Proof.
  intros p p' T (A1 & A2 & A3 & A4 & A5 & A6 & A7) NL Hp'.
  destruct (tagged_last p p' T A1 A2 A3 A4 A6 A7 NL Hp') as (B1 & B2 & B3 & B4 & B5 & B6).
  unfold final. do 4 (split; [assumption|]). split; [|auto]. destruct T; assumption.
Qed.

Lemma forall2_same : forall (A : Type) (R : A -> A -> Prop) (P : A -> Prop), (forall a b, R a b -> P a -> b = a) ->
  forall l l', Forall2 R l l' -> Forall P l -> l' = l.
Proof.
  intros A R P H l l' F. induction F as [|a b l l' Rab F IH]; intro G; [reflexivity|]. inversion G; subst. f_equal; auto.
Qed.

Lemma final_fixed : forall du lu ps, lower_ok lu -> Forall final ps -> html_blanks (text_of ps) -> tidy_lines (text_of ps) ->
  between (text_of ps) -> trimmed (text_of ps) -> minify wu du lu (text_of ps) = Ok (text_of ps).
Proof.
  intros du lu ps HL F HB (Td & C1 & C2) Bt Tr.
  assert (Sub : forall P : part -> Prop, (forall p, final p -> P p) -> Forall P ps) by (intros P H; exact (Forall_impl P H F)).
  assert (Ok : Forall part_ok ps) by (apply Sub; intros p H; apply H).
  assert (Nc : Forall (fun p => ~ is_comment p) ps) by (apply Sub; intros p H; apply H).
  destruct (minify_spec wu du lu (text_of ps) HL) as (a & b & d & e & t & Et & H1 & H2 & H3 & H4). rewrite Et. f_equal.
  rewrite (uncommented_none ps a Ok Nc H1) in H2.
  destruct (untyped_parts wu ps b Ok Nc) with (3 := H2) as (p2 & F2 & ->); [apply Sub; intros p H; apply H | exact HB|].
  assert (p2 = ps) as ->. { refine (forall2_same _ _ settled _ _ _ F2 _); [exact settled_same | apply Sub; intros p H; apply H]. }
  rewrite (cleaned_parts ps Ok Nc), filter_all in H3 by (apply Sub; intros p H; apply H).
  destruct H3 as [(P & _) | (_ & Q & R)].
  { exfalso. revert P. apply reflows_not_pre; try assumption. apply Sub. intros p H. apply H. }
  assert (d = text_of ps) as ->.
  { symmetry. refine (squeezed_det None _ _ _ _ Q). apply squeezed_same; try assumption. discriminate. }
  destruct (tidy_tagged_parts ps e Ok Nc) with (4 := R) as (p5 & -> & _ & F5); [apply Sub; intros p H; apply H | exact HB | exact C2|].
  assert (p5 = ps) as ->. { refine (forall2_same _ _ final tagged_same _ _ F5 F). }
  refine (trims_det _ _ _ H4 _). split; [exact Tr|]. exists [], []. repeat split; try constructor. now rewrite app_nil_r.
Qed.

Lemma layout_forall2 : forall (P Q : part -> Prop), (forall c, Q (PChar c)) -> (forall p p', sim p p' -> P p -> Q p') ->
  forall ps ps', layout ps ps' -> Forall P ps -> Forall Q ps'.
Proof.
  intros P Q Hc Hs ps ps' L. assert (A : forall a, Forall Q (map PChar a)).
  { intro a. apply Forall_forall. intros x I. apply in_map_iff in I. destruct I as (c & <- & _). apply Hc. }
  induction L as [a b E|a b p p' ps ps' E S L IH]; intro F; [apply A|].
  apply Forall_app in F. destruct F as [_ F]. inversion F; subst. apply Forall_app. split; [apply A|]. constructor; eauto.
Qed.

Lemma tagged_between : forall ps ps', Forall2 tagged ps ps' -> Forall part_ok ps -> Forall part_ok ps' -> Forall (fun p => ~ is_comment p) ps ->
  Forall (fun p => ~ is_comment p) ps' -> between (text_of ps) -> between (text_of ps').
Proof.
  intros ps ps' F Ok Ok' C C' Bt a c b E B.
  destruct (between_parts ps' a c b Ok' C' B E) as (x' & p' & q' & y' & z & -> & Ep & Nq).
  apply Forall2_app_inv_r in F. destruct F as (x & r & _ & F & ->). inversion F as [|p ? r2 ? Tp F2]; subst.
  inversion F2 as [|k ? r3 ? Tk F3]; subst. inversion F3 as [|q ? y ? Tq _]; subst.
  assert (k = PChar c) as -> by (now inversion Tk).
  apply Forall_app in Ok, C. destruct Ok as [_ Ok]. destruct C as [_ C].
  inversion Ok as [|? ? Okp Ok2]; subst. inversion Ok2 as [|? ? _ Ok3]; subst. inversion Ok3 as [|? ? Okq _]; subst.
  assert (Hq : forall d, q <> PChar d). { intros d ->. inversion Tq; subst. exact (Nq d eq_refl). }
  assert (exists u, part_text p = u ++ [gt]) as (u & Eu).
  { inversion Tp as [|n l l' w w' sl]; subst; [eauto|]. exists (S_ "<" ++ n ++ attributes_text l ++ w ++ (if sl then S_ "/" else [])).
    cbn [part_text]. destruct sl; cbn [slash_text]; rewrite <- ?app_assoc; cbn [app]; rewrite ?app_nil_r; flat. }
  destruct (part_first q Okq Hq) as (t & Et).
  apply (Bt (text_of x ++ u) c (t ++ text_of y)); [|exact B].
  rewrite text_of_app, !text_of_cons, Eu, Et. cbn [part_text]. rewrite <- !app_assoc. reflexivity.
Qed.

Lemma one_line_fewer : forall p p', untypes wu p p' -> one_line p -> one_line p'.
Proof.
  intros p p' [q _|n l w sl _ _] H; [exact H|]. intro T. destruct (H T) as [H1 H2]. split; [|exact H2].
  exact (fewer_forall _ _ _ (filter_fewer wu l) H1).
Qed.

Lemma safe_type_fewer : forall p p', untypes wu p p' -> safe_type p -> safe_type p'.
Proof. intros p p' [q _|n l w sl _ _] H; [exact H|]. intro T. exact (fewer_forall _ _ _ (filter_fewer wu l) (H T)). Qed.

Lemma reflows_kind : forall p p', untypes wu p p' -> reflows p -> reflows p'.
Proof. intros p p' [q _|n l w sl _ _] H; exact H. Qed.

Lemma good_untyped2 : forall ps e, good ps -> Forall safe_type ps -> Forall type_end ps -> untyped wu (text_of ps) e ->
  exists ps', e = text_of ps' /\ good ps' /\ Forall2 (untypes wu) ps ps'.
Proof.
  intros ps e (G1 & G2 & G3 & G4 & G5) S T U. pose proof (rewrites_incl _ _ (untype_incl wu) _ _ U) as I.
  destruct (untyped_parts wu ps e G1 G2 S G4 U) as (ps' & F & ->).
  assert (All : Forall (fun p => part_ok p /\ tag_safe p /\ type_end p /\ ~ is_comment p) ps).
  { rewrite Forall_forall in *. intros p K. repeat split; auto. }
  assert (F2 : Forall2 (fun p p' => part_ok p' /\ tag_safe p' /\ same_kind p p' /\ worth (token_of p') = worth (token_of p)) ps ps').
  { refine (Forall2_and _ _ _ _ _ _ _ All F). intros a b (K1 & K2 & K3 & K4) K. now apply (untypes_ok wu). }
  assert (Fk : Forall2 same_kind ps ps') by (refine (Forall2_weak _ _ _ _ _ _ F2); intros a b K; tauto).
  exists ps'. split; [reflexivity|]. split; [|exact F].
  split; [refine (Forall2_right _ _ _ _ _ _ F2); tauto|].
  split; [refine (Forall2_right _ _ _ _ _ _ Fk); exact same_kind_comment|].
  split; [refine (Forall2_right _ _ _ _ _ _ F2); tauto|].
  split; [exact (html_blanks_incl _ _ G4 I)|]. now rewrite (same_kind_kept _ _ Fk).
Qed.

Lemma minify_twice : forall du lu s ps t, lower_ok lu -> html_parts s = Some ps -> Forall part_safe ps -> html_blanks s ->
  Forall one_line ps -> Forall reflows ps -> minify wu du lu s = Ok t -> minify wu du lu t = Ok t.
Proof.
  intros du lu s ps t HL Hp Hs HB Ho Hr M. destruct (html_parts_sound s ps Hp) as (-> & F & K).
  destruct (minify_spec wu du lu (text_of ps) HL) as (a & b & d & e & t0 & Et & H1 & H2 & H3 & H4).
  rewrite M in Et. injection Et as <-.
  destruct (good_no_comment ps (conj F (conj Hs (conj HB K))) a H1) as (p1 & -> & G1 & S1 & T1 & _ & Ep1).
  assert (O1 : Forall one_line p1) by (rewrite Ep1; apply no_comment_forall; [exact I | exact Ho]).
  assert (R1 : Forall reflows p1) by (rewrite Ep1; apply no_comment_forall; [exact I | exact Hr]).
  destruct (good_untyped2 p1 b G1 S1 T1 H2) as (p2 & -> & G2 & F2).
  pose proof (Forall2_Forall _ _ _ _ _ one_line_fewer F2 O1) as O2. pose proof (Forall2_Forall _ _ _ _ _ reflows_kind F2 R1) as R2.
  pose proof (Forall2_Forall _ _ _ _ _ safe_type_fewer F2 S1) as S2. pose proof (Forall2_right _ _ _ _ _ untypes_settled F2) as T2.
  destruct (good_cleaned p2 G2) as (E3 & G3 & _). set (p3 := filter (fun p => negb (dropped p)) p2) in *. rewrite E3 in H3.
  assert (B3 : Forall (fun p => before_tags p /\ one_line p) p3).
  { destruct G2 as (Q1 & Q2 & Q3 & _). apply Forall_forall. intros p J. unfold p3 in J. apply filter_In in J. destruct J as [J D].
    apply negb_true_iff in D. rewrite Forall_forall in *. unfold before_tags. repeat split; auto. }
  assert (NP : ~ preformatted (text_of p3)).
  { apply reflows_not_pre; refine (Forall_impl _ _ B3); intros p (J & _); apply J. }
  destruct H3 as [(P & _) | (_ & Q & R)]; [contradiction|].
  pose proof (squeezed_between _ _ _ Q) as Bt4. pose proof (squeezed_tidy _ _ _ Q) as Td4.
  assert (exists p4, d = text_of p4 /\ Forall before_tags p4 /\ html_blanks (text_of p4)) as (p4 & -> & B4 & HB4).
  { destruct G3 as (Q1 & Q2 & Q3 & Q4 & Q5). pose proof (html_blanks_incl _ _ Q4 (squeezed_incl _ _ _ Q)) as HBd.
    destruct (respaced_parts (length p3) p3 d (le_n _) Q1 Q2 Q4 HBd (proj1 (squeezed_skeleton _ _ _ Q))) as (p4 & -> & Ok4 & Nc4 & L).
    exists p4. split; [reflexivity|]. split; [|exact HBd].
    assert (L2 : Forall (fun p => part_ok p -> before_tags p) p4).
    { refine (layout_forall2 (fun p => before_tags p /\ one_line p) _ _ _ _ _ L B3).
      - intros c Hc. repeat split; try assumption; try (intros (? & ?); discriminate). 
        destruct (dropped (PChar c)) eqn:D; [|reflexivity].
        destruct (dropped_shape (PChar c) Hc ltac:(intros (? & ?); discriminate) D) as [(n & X & _) | (n & X & _)]; discriminate.
      - intros p p' S ((A1 & A2 & A3 & A4 & A5 & A6 & A7) & A8) Ok'. split; [exact Ok'|].
        split; [exact (sim_not_comment _ _ S)|]. split; [now apply (sim_settled p)|]. split; [now apply (sim_dropped p)|].
        split; [now apply (sim_reflows p)|]. split; [now apply (sim_safe_type p) | now apply (sim_safe p)]. }
    rewrite Forall_forall in *. auto. }
  assert (Sub : forall P : part -> Prop, (forall p, before_tags p -> P p) -> Forall P p4) by (intros P H; exact (Forall_impl P H B4)).
  assert (Ok4 : Forall part_ok p4) by (apply Sub; intros p H; apply H).
  assert (Nc4 : Forall (fun p => ~ is_comment p) p4) by (apply Sub; intros p H; apply H).
  destruct (tidy_tagged_parts p4 e Ok4 Nc4) with (4 := R) as (p5 & -> & Ok5 & F5); [apply Sub; intros p H; apply H | exact HB4 | apply Td4|].
  assert (Fin : Forall final p5).
  { assert (NL : Forall (fun p => before_tags p /\ ~ In line_end (part_text p)) p4).
    { apply Forall_forall. intros p J. split; [rewrite Forall_forall in B4; auto|]. intro X. destruct Td4 as (_ & _ & Td4). apply Td4.
      unfold text_of. apply in_concat. exists (part_text p). split; [now apply in_map | exact X]. }
    clear - F5 NL Ok5. induction F5 as [|x y l l' Txy F5 IH]; [constructor|]. inversion NL as [|? ? [N1 N2] N3]; inversion Ok5; subst.
    constructor; [now apply (tagged_final x) | auto]. }
  assert (Nc5 : Forall (fun p => ~ is_comment p) p5) by (refine (Forall_impl _ _ Fin); intros p H; apply H).
  pose proof (tagged_between p4 p5 F5 Ok4 Ok5 Nc4 Nc5 Bt4) as Bt5.
  pose proof (html_blanks_incl _ _ HB4 (rewrites_incl _ _ tag_out_incl _ _ (rewrites_impl _ _ _ _ _ (fun _ m m' _ _ => tidy_tag_out_out m m') R))) as HB5.
  destruct (tags_tidy wu _ _ R Td4) as [Td5 _]. pose proof (tidy_trims _ _ H4 Td5) as Td6.
  destruct (trims_parts p5 t Ok5 Nc5 HB5 H4) as (u & v & p6 & -> & _ & _ & ->).
  rewrite !Forall_app in Fin. apply final_fixed; try assumption.
  - tauto.
  - rewrite !text_of_app, !html_blanks_app in HB5. tauto.
  - intros x c y E. apply (Bt5 (u ++ x) c (y ++ v)). rewrite !text_of_app, !text_of_chars, E. rewrite <- !app_assoc. reflexivity.
  - exact (proj1 H4).
Qed.
End Second.
