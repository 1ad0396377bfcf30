(** The reader of HTML documents and the text of what it reads. *)
From Coq Require Import String List NArith Bool Arith Lia ZifyBool ZifyN.
From Verif Require Import Base HtmlModel HtmlSpec HtmlSyntaxSpec HtmlProofs1.
Import ListNotations.
Open Scope N_scope.

(** ** Texts *)

Definition quotes_text (q : option N) (v : str) : str :=
  match q with Some q => q :: v ++ [q] | None => v end.

Definition value_text (v : option (str * str * option N * str)) : str :=
  match v with
  | None => []
  | Some (w1, w2, q, v) => w1 ++ S_ "=" ++ w2 ++ quotes_text q v
  end.

Definition attribute_text (a : attribute) : str := a_gap a ++ a_name a ++ value_text (a_value a).

Definition attributes_text (l : list attribute) : str := concat (map attribute_text l).

Definition slash_text (b : bool) : str := if b then S_ "/>" else S_ ">".

Definition part_text (p : part) : str :=
  match p with
  | PChar c => [c]
  | PComment c => S_ "<!--" ++ c ++ S_ "-->"
  | PDoctype s => S_ "<!" ++ s ++ S_ ">"
  | PEnd n w => S_ "</" ++ n ++ w ++ S_ ">"
  | PStart n l w sl => S_ "<" ++ n ++ attributes_text l ++ w ++ slash_text sl
  end.

Definition text_of (l : list part) : str := concat (map part_text l).

(** ** What the reader accepts *)

Definition html_run (w : str) : Prop := Forall (fun c => html_blank c = true) w.

Definition value_ok (v : option (str * str * option N * str)) : Prop :=
  match v with
  | None => True
  | Some (w1, w2, Some q, v) =>
      html_run w1 /\ html_run w2 /\ (q = dquote \/ q = squote) /\ Forall (fun c => quoted_char q c = true) v
  | Some (w1, w2, None, v) =>
      html_run w1 /\ html_run w2 /\ v <> [] /\ Forall (fun c => bare_char c = true) v
  end.

Definition attribute_ok (a : attribute) : Prop :=
  a_gap a <> [] /\ html_run (a_gap a) /\ a_name a <> [] /\ Forall (fun c => name_char c = true) (a_name a) /\
  value_ok (a_value a).

Definition bare_value (a : attribute) : Prop := exists w1 w2 v, a_value a = Some (w1, w2, None, v).

Definition end_ok (l : list attribute) (gap : str) (slash : bool) : Prop :=
  slash = true -> gap = [] -> forall l' a, l = l' ++ [a] -> ~ bare_value a.

Definition tag_name_ok (n : str) : Prop :=
  (exists c r, n = c :: r /\ ascii_alpha c = true) /\ Forall (fun c => name_char c = true) n.

Definition part_ok (p : part) : Prop :=
  match p with
  | PChar c => c <> lt
  | PComment c => forall x y, c ++ S_ "-->" = x ++ S_ "-->" ++ y -> y = []
  | PDoctype s => exists a d, s = a ++ d /\ length a = 7%nat /\ map low a = S_ "doctype" /\ ~ In lt d /\ ~ In gt d
  | PEnd n w => tag_name_ok n /\ html_run w
  | PStart n l w sl => tag_name_ok n /\ Forall attribute_ok l /\ html_run w /\ end_ok l w sl
  end.

Definition is_comment (p : part) : Prop := exists c, p = PComment c.

(** ** Tools *)

Lemma is_start_spec : forall p s, is_start p s = true <-> exists r, s = p ++ r.
Proof.
  intros p s. unfold is_start. rewrite str_eqb_eq. split.
  - intro E. exists (skipn (length p) s). rewrite <- E at 1. symmetry. apply firstn_skipn.
  - intros [r ->]. rewrite firstn_app, Nat.sub_diag, firstn_all. cbn. apply app_nil_r.
Qed.

Lemma is_start_not : forall p s, is_start p s = false <-> ~ exists r, s = p ++ r.
Proof. intros p s. rewrite <- is_start_spec. destruct (is_start p s); intuition congruence. Qed.

Definition stops (p : N -> bool) (s : str) : Prop := forall c r, s = c :: r -> p c = false.

Lemma span_spec : forall p s a b, span p s = (a, b) -> s = a ++ b /\ Forall (fun c => p c = true) a /\ stops p b.
Proof.
  intros p s. induction s as [|c s IH]; intros a b E; cbn [span] in E.
  - injection E as <- <-. repeat split; [constructor | intros c r H; discriminate].
  - destruct (p c) eqn:Pc.
    + destruct (span p s) as [a' b'] eqn:Es. injection E as <- <-. destruct (IH _ _ eq_refl) as (-> & F & St).
      repeat split; [now constructor | exact St].
    + injection E as <- <-. repeat split; [constructor|]. intros d r H. injection H as -> ->. exact Pc.
Qed.

Lemma span_app : forall p a b, Forall (fun c => p c = true) a -> stops p b -> span p (a ++ b) = (a, b).
Proof.
  intros p a b F St. induction F as [|c a Hc F IH]; cbn [app span].
  - destruct b as [|c b]; [reflexivity|]. cbn [span]. now rewrite (St c b eq_refl).
  - now rewrite Hc, IH.
Qed.

Lemma low_doctype_head : forall a, map low a = S_ "doctype" -> exists c r, a = c :: r /\ c <> 0x2D.
Proof.
  intros [|c r] E; [discriminate|]. exists c, r. split; [reflexivity|]. intros ->. discriminate E.
Qed.

(** ** Soundness *)

Lemma comment_text_spec : forall s c r, comment_text s = Some (c, r) ->
  s = c ++ S_ "-->" ++ r /\ forall x y, c ++ S_ "-->" = x ++ S_ "-->" ++ y -> y = [].
Proof.
  induction s as [|d s IH]; intros c r E; [discriminate|]. cbn [comment_text] in E.
  destruct (is_start (S_ "-->") (d :: s)) eqn:E1.
  - apply is_start_spec in E1. destruct E1 as [t Et]. rewrite Et in E |- *. injection E as <- <-.
    split; [reflexivity|]. intros x y H. apply (f_equal (@length N)) in H. rewrite !app_length in H. cbn in H.
    destruct y; [reflexivity | cbn in H; lia].
  - destruct (is_start (S_ "--!>") (d :: s) || is_start (S_ "<!--") (d :: s)); [discriminate|].
    destruct (comment_text s) as [[a b]|] eqn:E2; [|discriminate]. injection E as <- <-.
    destruct (IH _ _ eq_refl) as (-> & H). split; [reflexivity|].
    intros [|e x] y K.
    + exfalso. apply is_start_not in E1. apply E1. exists (y ++ b).
      change (d :: a ++ S_ "-->" ++ b) with ((d :: a) ++ S_ "-->" ++ b). rewrite app_assoc, K, <- app_assoc. reflexivity.
    + injection K as -> K. exact (H x y K).
Qed.

Lemma read_value_spec : forall s q v r, read_value s = Some (q, v, r) ->
  s = quotes_text q v ++ r /\
  (match q with
   | Some q => (q = dquote \/ q = squote) /\ Forall (fun c => quoted_char q c = true) v
   | None => v <> [] /\ Forall (fun c => bare_char c = true) v /\ stops bare_char r
   end).
Proof.
  intros [|c s] q v r E; [discriminate|]. cbn [read_value] in E.
  destruct ((c =? dquote) || (c =? squote)) eqn:Eq.
  - destruct (span (quoted_char c) s) as [a [|d b]] eqn:Es; [discriminate|].
    destruct (N.eqb_spec d c) as [-> | Ne]; [|discriminate]. injection E as <- <- <-.
    destruct (span_spec _ _ _ _ Es) as (-> & F & _). cbn [quotes_text]. split.
    + cbn [app]. rewrite <- app_assoc. reflexivity.
    + split; [lia | exact F].
  - destruct (span bare_char (c :: s)) as [[|d a] b] eqn:Es; [discriminate|]. injection E as <- <- <-.
    destruct (span_spec _ _ _ _ Es) as (-> & F & St). cbn [quotes_text]. repeat split; [discriminate | exact F | exact St].
Qed.

Lemma read_attribute_spec : forall gap s a r, (exists c t, s = c :: t /\ name_char c = true) ->
  read_attribute gap s = Some (a, r) ->
  a_gap a = gap /\ gap ++ s = attribute_text a ++ r /\ a_name a <> [] /\
  Forall (fun c => name_char c = true) (a_name a) /\ value_ok (a_value a) /\ (bare_value a -> stops bare_char r).
Proof.
  intros gap s a r (c0 & t0 & E0 & H0) E. unfold read_attribute in E.
  destruct (span name_char s) as [n r1] eqn:En. destruct (span_spec _ _ _ _ En) as (Es & Fn & Sn).
  assert (Hn : n <> []). { intros ->. cbn [app] in Es. subst r1 s. rewrite (Sn c0 t0 eq_refl) in H0. discriminate. }
  destruct (span html_blank r1) as [w1 r2] eqn:Ew. destruct (span_spec _ _ _ _ Ew) as (Er & Fw & Sw).
  destruct (is_start (S_ "=") r2) eqn:Ee.
  - apply is_start_spec in Ee. destruct Ee as [r3 Ee]. rewrite Ee in E.
    change (skipn 1 (S_ "=" ++ r3)) with r3 in E.
    destruct (span html_blank r3) as [w2 r4] eqn:Ew2. destruct (span_spec _ _ _ _ Ew2) as (Er3 & Fw2 & _).
    destruct (read_value r4) as [[[q v] r5]|] eqn:Ev; [|discriminate]. injection E as <- <-.
    destruct (read_value_spec _ _ _ _ Ev) as (Er4 & Hv). unfold attribute_text. cbn [a_gap a_name a_value value_text value_ok].
    repeat split; try assumption.
    + rewrite Es, Er, Ee, Er3, Er4. rewrite <- !app_assoc. reflexivity.
    + destruct q; tauto.
    + intros (x & y & z & K). cbn in K. injection K as <- <- -> <-. tauto.
  - injection E as <- <-. unfold attribute_text. cbn [a_gap a_name a_value value_text value_ok].
    repeat split; try assumption.
    + rewrite Es, app_nil_r, app_assoc. reflexivity.
    + intros (x & y & z & K). cbn in K. discriminate.
Qed.

Lemma read_attributes_spec : forall n s l w sl r, read_attributes n s = Some (l, w, sl, r) ->
  s = attributes_text l ++ w ++ slash_text sl ++ r /\ Forall attribute_ok l /\ html_run w /\
  (sl = true -> w = [] -> forall l' a, l = l' ++ [a] -> bare_value a -> False) /\
  (stops bare_char s -> l = [] -> w = [] -> sl = false).
Proof.
  induction n as [|n IH]; intros s l w sl r E; [discriminate|]. cbn [read_attributes] in E.
  destruct (span html_blank s) as [w0 r0] eqn:Ew. destruct (span_spec _ _ _ _ Ew) as (Es & Fw & Sw).
  destruct (is_start (S_ ">") r0) eqn:E1.
  { apply is_start_spec in E1. destruct E1 as [t ->]. injection E as <- <- <- <-. cbn [attributes_text map concat app slash_text].
    split; [now rewrite Es|]. split; [constructor|]. split; [exact Fw|]. split; [discriminate | reflexivity]. }
  destruct (is_start (S_ "/>") r0) eqn:E2.
  { apply is_start_spec in E2. destruct E2 as [t ->]. injection E as <- <- <- <-. cbn [attributes_text map concat app slash_text].
    split; [now rewrite Es|]. split; [constructor|]. split; [exact Fw|]. split.
    - intros _ _ [|a0 l'] a K; discriminate.
    - intros St _ ->. cbn [app] in Es. subst s. specialize (St 0x2F (S_ ">" ++ t) eq_refl). discriminate. }
  destruct w0 as [|b w0]; [discriminate|]. destruct r0 as [|c r0]; [discriminate|].
  destruct (name_char c) eqn:Ec; [|discriminate].
  destruct (read_attribute (b :: w0) (c :: r0)) as [[a r1]|] eqn:Ea; [|discriminate].
  destruct (read_attributes n r1) as [[[[l1 w1] sl1] r2]|] eqn:El; [|discriminate]. injection E as <- <- <- <-.
  destruct (read_attribute_spec _ _ _ _ (ex_intro _ c (ex_intro _ r0 (conj eq_refl Ec))) Ea) as (A1 & A2 & A3 & A4 & A5 & A6).
  destruct (IH _ _ _ _ _ El) as (B1 & B2 & B3 & B4 & B5).
  repeat split.
  - rewrite Es, A2, B1. unfold attributes_text. cbn [map concat]. rewrite <- !app_assoc. reflexivity.
  - constructor; [|exact B2]. unfold attribute_ok. rewrite A1. repeat split; try assumption. discriminate.
  - exact B3.
  - intros K1 K2 l' a' K3 K4. destruct l' as [|a0 l'].
    + injection K3 as <- ->. rewrite (B5 (A6 K4) eq_refl K2) in K1. discriminate.
    + injection K3 as <- ->. exact (B4 K1 K2 l' a' eq_refl K4).
  - intros _ K. discriminate.
Qed.

Lemma read_markup_spec : forall s p r, read_markup s = Some (p, r) ->
  lt :: s = part_text p ++ r /\ part_ok p /\ (forall c, p <> PChar c).
Proof.
  intros s p r E. unfold read_markup in E.
  destruct (is_start (S_ "!--") s) eqn:E1.
  { apply is_start_spec in E1. destruct E1 as [t ->]. change (skipn 3 (S_ "!--" ++ t)) with t in E.
    destruct (is_start (S_ ">") t || is_start (S_ "->") t); [discriminate|].
    destruct (comment_text t) as [[c r']|] eqn:Ec; [|discriminate]. injection E as <- <-.
    destruct (comment_text_spec _ _ _ Ec) as (-> & H). repeat split; [|exact H | discriminate].
    cbn [part_text]. rewrite <- !app_assoc. reflexivity. }
  destruct (is_start (S_ "!") s) eqn:E2.
  { apply is_start_spec in E2. destruct E2 as [t ->]. change (skipn 1 (S_ "!" ++ t)) with t in E.
    destruct (str_eqb (map low (firstn 7 t)) (S_ "doctype")) eqn:Ed; [|discriminate]. apply str_eqb_eq in Ed.
    destruct (span _ (skipn 7 t)) as [d [|c r']] eqn:Es; [discriminate|].
    destruct (N.eqb_spec c gt) as [-> | Ne]; [|discriminate]. injection E as <- <-.
    destruct (span_spec _ _ _ _ Es) as (Et & F & _).
    repeat split; [| |discriminate].
    - cbn [part_text]. rewrite <- (firstn_skipn 7 t) at 1. rewrite Et, <- !app_assoc. reflexivity.
    - exists (firstn 7 t), d. repeat split; try assumption.
      + apply (f_equal (@length N)) in Ed. rewrite map_length in Ed. exact Ed.
      + intro K. rewrite Forall_forall in F. apply F in K. discriminate.
      + intro K. rewrite Forall_forall in F. apply F in K. discriminate. }
  destruct (is_start (S_ "/") s) eqn:E3.
  { apply is_start_spec in E3. destruct E3 as [t ->]. change (skipn 1 (S_ "/" ++ t)) with t in E.
    destruct t as [|c t]; [discriminate|]. destruct (ascii_alpha c) eqn:Ec; [|discriminate].
    destruct (span name_char (c :: t)) as [n r1] eqn:En. destruct (span_spec _ _ _ _ En) as (Et & Fn & _).
    destruct (span html_blank r1) as [w [|d r2]] eqn:Ew; [discriminate|]. destruct (span_spec _ _ _ _ Ew) as (Er & Fw & _).
    destruct (N.eqb_spec d gt) as [-> | Ne]; [|discriminate]. injection E as <- <-.
    repeat split; try assumption; [| |discriminate].
    - cbn [part_text]. rewrite Et, Er, <- !app_assoc. reflexivity.
    - destruct n as [|c' n].
      + exfalso. assert (K : name_char c = true).
        { unfold ascii_alpha in Ec. unfold name_char, html_blank, dquote. cbn. lia. }
        cbn [span] in En. rewrite K in En. destruct (span name_char t); discriminate.
      + injection Et as <- _. eauto. }
  destruct s as [|c t]; [discriminate|]. destruct (ascii_alpha c) eqn:Ec; [|discriminate].
  destruct (span name_char (c :: t)) as [n r1] eqn:En. destruct (span_spec _ _ _ _ En) as (Et & Fn & Sn).
  destruct (read_attributes (S (length r1)) r1) as [[[[l w] sl] r']|] eqn:Ea; [|discriminate]. injection E as <- <-.
  destruct (read_attributes_spec _ _ _ _ _ _ Ea) as (A1 & A2 & A3 & A4 & _).
  repeat split; try assumption; [| |discriminate].
  - cbn [part_text]. rewrite Et, A1, <- !app_assoc. reflexivity.
  - destruct n as [|c' n].
    + exfalso. assert (K : name_char c = true).
      { unfold ascii_alpha in Ec. unfold name_char, html_blank, dquote. cbn. lia. }
      cbn [span] in En. rewrite K in En. destruct (span name_char t); discriminate.
    + injection Et as <- _. eauto.
Qed.

Lemma read_parts_sound : forall n s l, read_parts n s = Some l -> s = text_of l /\ Forall part_ok l.
Proof.
  induction n as [|n IH]; intros s l E; [discriminate|]. cbn [read_parts] in E.
  destruct s as [|c s]; [injection E as <-; split; [reflexivity | constructor]|].
  destruct (N.eqb_spec c lt) as [-> | Ne].
  - destruct (read_markup s) as [[p r]|] eqn:Em; [|discriminate]. destruct (read_parts n r) as [l'|] eqn:El; [|discriminate].
    injection E as <-. destruct (read_markup_spec _ _ _ Em) as (A1 & A2 & _). destruct (IH _ _ El) as (B1 & B2).
    split; [|now constructor]. rewrite A1, B1. reflexivity.
  - destruct (read_parts n s) as [l'|] eqn:El; [|discriminate]. injection E as <-. destruct (IH _ _ El) as (B1 & B2).
    split; [|now constructor]. rewrite B1 at 1. reflexivity.
Qed.

(** ** Completeness *)

Lemma name_not : forall c, name_char c = true -> html_blank c = false /\ c <> 0x3D /\ c <> gt /\ c <> 0x2F /\ c <> lt /\ c <> dquote /\ c <> squote.
Proof. intros c H. unfold name_char, html_blank, gt, lt, dquote, squote in *. cbn in *. lia. Qed.

Lemma bare_not : forall c, bare_char c = true -> html_blank c = false /\ c <> 0x3D /\ c <> gt /\ c <> lt /\ c <> dquote /\ c <> squote.
Proof. intros c H. unfold bare_char, html_blank, gt, lt, dquote, squote in *. cbn in *. lia. Qed.

Lemma blank_not : forall c, html_blank c = true -> c <> 0x3D /\ c <> gt /\ c <> 0x2F /\ c <> lt /\ c <> dquote /\ c <> squote /\ name_char c = false /\ bare_char c = false /\ ascii_alpha c = false.
Proof.
  intros c H. unfold name_char, bare_char, ascii_alpha, html_blank, gt, lt, dquote, squote in *. cbn in *. lia.
Qed.

(** What may follow an attribute or a tag name: white space, a slash or the end. *)
Definition tag_rest (s : str) : Prop := exists c r, s = c :: r /\ (html_blank c = true \/ c = 0x2F \/ c = gt).

Lemma tag_rest_attributes : forall l w sl r, Forall attribute_ok l -> html_run w ->
  tag_rest (attributes_text l ++ w ++ slash_text sl ++ r).
Proof.
  intros [|a l] w sl r H W.
  - cbn. destruct w as [|b w].
    + destruct sl; eexists; eexists; (split; [reflexivity|]); auto.
    + inversion W. eexists. eexists. split; [reflexivity|]. auto.
  - inversion H as [|? ? (Hg & Wg & _) _]; subst. unfold attributes_text. cbn [map concat]. unfold attribute_text at 1.
    destruct (a_gap a) as [|b g]; [contradiction|]. inversion Wg. eexists. eexists. split; [reflexivity|]. auto.
Qed.

Lemma tag_rest_name : forall s, tag_rest s -> stops name_char s.
Proof.
  intros s (c & r & -> & H) d t E. injection E as -> ->.
  destruct (name_char d) eqn:Ed; [|reflexivity]. apply name_not in Ed. destruct H as [H | [H | H]]; intuition congruence.
Qed.

Lemma read_attribute_complete : forall a r, attribute_ok a -> tag_rest r ->
  (bare_value a -> stops bare_char r) -> is_start (S_ "=") (snd (span html_blank r)) = false ->
  read_attribute (a_gap a) (a_name a ++ value_text (a_value a) ++ r) = Some (a, r).
Proof.
  intros [g n v] r (Hg & Wg & Hn & Fn & Hv) Hr Hb He. cbn [a_gap a_name a_value] in *. unfold read_attribute.
  assert (Sn : stops name_char (value_text v ++ r)).
  { destruct v as [[[[w1 w2] q] v]|]; [|now apply tag_rest_name]. cbn [value_text]. destruct w1 as [|b w1].
    - intros d t E. injection E as <- _. reflexivity.
    - assert (B : html_blank b = true) by (destruct q; cbn in Hv; destruct Hv as (W & _); now inversion W).
      intros d t E. injection E as <- _. apply blank_not in B. tauto. }
  rewrite (span_app _ _ _ Fn Sn). destruct v as [[[[w1 w2] q] v]|].
  - cbn [value_text].
    assert (W1 : html_run w1) by (destruct q; cbn in Hv; tauto).
    assert (W2 : html_run w2) by (destruct q; cbn in Hv; tauto).
    assert (Q : exists c t, quotes_text q v ++ r = c :: t /\ html_blank c = false).
    { destruct q as [q|]; cbn [quotes_text value_ok] in *.
      - exists q. eexists. split; [reflexivity|]. destruct Hv as (_ & _ & [-> | ->] & _); reflexivity.
      - destruct Hv as (_ & _ & Hv & Fv). destruct v as [|c v]; [contradiction|]. inversion Fv as [|? ? Hc _]; subst.
        exists c. eexists. split; [reflexivity|]. apply bare_not in Hc. tauto. }
    rewrite <- !app_assoc. rewrite (span_app html_blank w1 (S_ "=" ++ w2 ++ quotes_text q v ++ r) W1)
      by (intros d t E; injection E as <- _; reflexivity).
    assert (is_start (S_ "=") (S_ "=" ++ w2 ++ quotes_text q v ++ r) = true) as -> by (apply is_start_spec; eauto).
    change (skipn 1 (S_ "=" ++ w2 ++ quotes_text q v ++ r)) with (w2 ++ quotes_text q v ++ r).
    rewrite (span_app html_blank w2 _ W2)
      by (intros d t E; destruct Q as (c & u & Q & Bc); rewrite Q in E; injection E as <- _; exact Bc).
    assert (read_value (quotes_text q v ++ r) = Some (q, v, r)) as ->; [|reflexivity].
    destruct q as [q|]; cbn [quotes_text value_ok] in *.
    + destruct Hv as (_ & _ & Hq & Fv). cbn [app read_value]. rewrite <- app_assoc. cbn [app].
      assert ((q =? dquote) || (q =? squote) = true) as -> by (destruct Hq as [-> | ->]; reflexivity).
      rewrite (span_app (quoted_char q) v (q :: r) Fv).
      * now rewrite N.eqb_refl.
      * intros d t E. injection E as <- _. unfold quoted_char. cbn. now rewrite N.eqb_refl.
    + destruct Hv as (_ & _ & Hv & Fv). destruct v as [|c v]; [contradiction|]. cbn [app read_value].
      assert (Hc : bare_char c = true) by now inversion Fv. apply bare_not in Hc.
      assert ((c =? dquote) || (c =? squote) = false) as -> by lia.
      change (c :: v ++ r) with ((c :: v) ++ r). rewrite (span_app bare_char (c :: v) r Fv); [reflexivity|].
      apply Hb. eexists. eexists. eexists. reflexivity.
  - cbn [value_text app]. destruct (span html_blank r) as [w1 r2] eqn:Ew. cbn [snd] in He. now rewrite He.
Qed.

Lemma not_start_head : forall p s c r, s = c :: r -> (forall p' , p <> c :: p') -> p <> [] -> is_start p s = false.
Proof.
  intros p s c r -> H Hp. apply is_start_not. intros [t E]. destruct p as [|d p]; [contradiction|].
  injection E as -> _. now apply (H p).
Qed.

Lemma name_head_not : forall c r p, name_char c = true -> In p [S_ ">"; S_ "/>"; S_ "="; S_ "!--"; S_ "!"; S_ "/"] ->
  p <> S_ "!--" -> p <> S_ "!" -> is_start p (c :: r) = false.
Proof.
  intros c r p H I N1 N2. apply is_start_not. intros [t E]. apply name_not in H. unfold gt in H.
  cbn in I. destruct I as [<- | [<- | [<- | [<- | [<- | [<- | []]]]]]]; try congruence; cbn in E; injection E as -> _; intuition congruence.
Qed.

Lemma is_start_app : forall p r, is_start p (p ++ r) = true.
Proof. intros. apply is_start_spec. eauto. Qed.

Lemma slash_span : forall w sl r, html_run w -> span html_blank (w ++ slash_text sl ++ r) = (w, slash_text sl ++ r).
Proof. intros w sl r W. apply span_app; [exact W|]. intros c t E. destruct sl; injection E as <- _; reflexivity. Qed.

Lemma read_attributes_complete : forall l w sl r n, (length (attributes_text l) < n)%nat ->
  Forall attribute_ok l -> html_run w -> end_ok l w sl ->
  read_attributes n (attributes_text l ++ w ++ slash_text sl ++ r) = Some (l, w, sl, r).
Proof.
  induction l as [|a l IH]; intros w sl r n Hn F W He; (destruct n as [|n]; [lia|]); cbn [read_attributes].
  - cbn [attributes_text map concat app]. rewrite slash_span by exact W. destruct sl; cbn [slash_text].
    + change (is_start (S_ ">") (S_ "/>" ++ r)) with false. now rewrite is_start_app.
    + now rewrite is_start_app.
  - inversion F as [|? ? Ha Fl]; subst. pose proof Ha as (Hg & Wg & Hnm & Fn & Hv).
    unfold attributes_text in *. cbn [map concat] in *. fold (attributes_text l) in *.
    unfold attribute_text in Hn |- *. rewrite !app_length in Hn. rewrite <- !app_assoc.
    assert (Ln : (0 < length (a_gap a))%nat) by (destruct (a_gap a); [contradiction | cbn; lia]).
    destruct (a_name a) as [|c nm] eqn:En; [contradiction|].
    assert (Hc : name_char c = true) by now inversion Fn.
    set (rest := attributes_text l ++ w ++ slash_text sl ++ r).
    rewrite (span_app html_blank (a_gap a) _ Wg)
      by (intros d t E; injection E as <- _; apply name_not in Hc; tauto).
    cbn [app]. rewrite !(name_head_not c) by (cbn; auto 10; discriminate).
    destruct (a_gap a) as [|b g] eqn:Eg; [contradiction|]. rewrite Hc.
    assert (HR : tag_rest rest) by (apply tag_rest_attributes; assumption).
    pose proof (read_attribute_complete a rest Ha HR) as RA. rewrite Eg, En in RA. cbn [app] in RA.
    rewrite RA.
    + unfold rest. rewrite IH; [reflexivity | | assumption..|].
      * rewrite <- En in Hn. lia.
      * intros K1 K2 l' a' K3. apply (He K1 K2 (a :: l') a'). now rewrite K3.
    + intros Kb d t E. unfold rest in E. destruct l as [|a2 l].
      * cbn [attributes_text map concat app] in E. destruct w as [|b2 w].
        -- destruct sl; [|injection E as <- _; reflexivity]. exfalso. exact (He eq_refl eq_refl [] a eq_refl Kb).
        -- injection E as <- _. inversion W as [|? ? B _]; subst. apply blank_not in B. tauto.
      * inversion Fl as [|? ? (Hg2 & Wg2 & _) _]; subst. unfold attributes_text in E. cbn [map concat] in E.
        unfold attribute_text at 1 in E. destruct (a_gap a2) as [|b2 g2]; [contradiction|]. injection E as <- _.
        inversion Wg2 as [|? ? B _]; subst. apply blank_not in B. tauto.
    + unfold rest. destruct l as [|a2 l].
      * cbn [attributes_text map concat app]. rewrite slash_span by exact W. destruct sl; reflexivity.
      * inversion Fl as [|? ? (Hg2 & Wg2 & Hn2 & Fn2 & _) _]; subst. unfold attributes_text. cbn [map concat].
        unfold attribute_text at 1. rewrite <- !app_assoc.
        destruct (a_name a2) as [|c2 nm2]; [contradiction|]. inversion Fn2 as [|? ? Hc2 _]; subst.
        rewrite (span_app html_blank (a_gap a2) _ Wg2)
          by (intros d t E; injection E as <- _; apply name_not in Hc2; tauto).
        cbn [snd app]. apply name_head_not; [exact Hc2 | cbn; auto 10 | discriminate..].
Qed.

Lemma alpha_not_start : forall c r p, ascii_alpha c = true -> In p [S_ "!--"; S_ "!"; S_ "/"] -> is_start p (c :: r) = false.
Proof.
  intros c r p H I. apply is_start_not. intros [t E]. 
  cbn in I. destruct I as [<- | [<- | [<- | []]]]; cbn in E; injection E as -> _; discriminate.
Qed.

Lemma read_markup_complete : forall p r, part_ok p -> ~ is_comment p -> (forall c, p <> PChar c) ->
  exists s, part_text p ++ r = lt :: s /\ read_markup s = Some (p, r).
Proof.
  intros [c|c|s|n w|n l w sl] r Hp Hc Hn.
  - congruence.
  - exfalso. apply Hc. eexists. reflexivity.
  - destruct Hp as (a & d & -> & La & Ea & D1 & D2). exists (S_ "!" ++ ((a ++ d) ++ S_ ">") ++ r). split; [reflexivity|].
    unfold read_markup.
    destruct (low_doctype_head a Ea) as (c & t & Ha & Nc).
    assert (is_start (S_ "!--") (S_ "!" ++ ((a ++ d) ++ S_ ">") ++ r) = false) as ->.
    { apply is_start_not. intros [u E]. rewrite Ha in E. cbn in E. injection E as E _. congruence. }
    rewrite is_start_app.
    change (skipn 1 (S_ "!" ++ ((a ++ d) ++ S_ ">") ++ r)) with (((a ++ d) ++ S_ ">") ++ r).
    rewrite <- !app_assoc, <- La, firstn_app, firstn_all, Nat.sub_diag. cbn [firstn]. rewrite app_nil_r, Ea.
    cbn [str_eqb]. change (str_eqb (S_ "doctype") (S_ "doctype")) with true. cbv iota.
    rewrite skipn_app, skipn_all, Nat.sub_diag. cbn [skipn app].
    rewrite span_app; [reflexivity | |].
    + apply Forall_forall. intros x I. assert (x <> lt) by congruence. assert (x <> gt) by congruence. lia.
    + intros x t' E. injection E as <- _. reflexivity.
  - destruct Hp as (((c & t & En & Ha) & Fn) & W). exists (S_ "/" ++ n ++ w ++ S_ ">" ++ r). split.
    { cbn [part_text]. rewrite <- !app_assoc. reflexivity. }
    unfold read_markup. change (is_start (S_ "!--") (S_ "/" ++ n ++ w ++ S_ ">" ++ r)) with false.
    change (is_start (S_ "!") (S_ "/" ++ n ++ w ++ S_ ">" ++ r)) with false. rewrite is_start_app.
    change (skipn 1 (S_ "/" ++ n ++ w ++ S_ ">" ++ r)) with (n ++ w ++ S_ ">" ++ r).
    assert (Sn : stops name_char (w ++ S_ ">" ++ r)).
    { destruct w as [|b w]; intros d u E; injection E as <- _; [reflexivity|]. inversion W as [|? ? B _]; subst.
      apply blank_not in B. tauto. }
    rewrite (span_app name_char n _ Fn Sn), (span_app html_blank w (S_ ">" ++ r) W)
      by (intros d u E; injection E as <- _; reflexivity).
    rewrite En at 1. cbn [app]. rewrite Ha. reflexivity.
  - destruct Hp as (((c & t & En & Ha) & Fn) & Fl & W & He). exists (n ++ attributes_text l ++ w ++ slash_text sl ++ r). split.
    { cbn [part_text]. rewrite <- !app_assoc. reflexivity. }
    unfold read_markup. assert (Hd : n ++ attributes_text l ++ w ++ slash_text sl ++ r = c :: t ++ attributes_text l ++ w ++ slash_text sl ++ r).
    { rewrite En. reflexivity. }
    rewrite Hd, !(alpha_not_start c) by (cbn; auto). rewrite Ha, <- Hd.
    rewrite (span_app name_char n _ Fn) by (apply tag_rest_name, tag_rest_attributes; assumption).
    rewrite read_attributes_complete; [reflexivity | | assumption..].
    rewrite !app_length. lia.
Qed.

Lemma read_parts_complete : forall l n, Forall part_ok l -> Forall (fun p => ~ is_comment p) l -> (length (text_of l) < n)%nat ->
  read_parts n (text_of l) = Some l.
Proof.
  induction l as [|p l IH]; intros n F C Hn; (destruct n as [|n]; [lia|]); [reflexivity|].
  inversion F as [|? ? Hp Fl]; inversion C as [|? ? Cp Cl]; subst. unfold text_of in *. cbn [map concat] in *. fold (text_of l) in *.
  assert ((exists c, p = PChar c) \/ forall c, p <> PChar c) as [[c ->] | Np]
    by (destruct p; [left; eauto | right; discriminate..]).
  - cbn [part_text app read_parts]. cbn [part_ok] in Hp. destruct (N.eqb_spec c lt) as [K | _]; [contradiction|].
    rewrite IH; [reflexivity | assumption..|]. rewrite app_length in Hn. cbn in Hn. lia.
  - destruct (read_markup_complete p (text_of l) Hp Cp Np) as (s & Es & Em). rewrite Es. cbn [read_parts].
    rewrite N.eqb_refl, Em, IH; [reflexivity | assumption..|].
    assert (length (part_text p ++ text_of l) = S (length s)) by now rewrite Es.
    rewrite app_length in *. assert (0 < length (part_text p))%nat by (destruct p; cbn; lia). lia.
Qed.

(** The two together. *)
Lemma html_parts_sound : forall s l, html_parts s = Some l -> s = text_of l /\ Forall part_ok l /\ text_kept None l = true.
Proof.
  intros s l E. unfold html_parts in E. destruct (read_parts (S (length s)) s) as [l'|] eqn:El; [|discriminate].
  destruct (text_kept None l') eqn:Et; [|discriminate]. injection E as <-.
  destruct (read_parts_sound _ _ _ El). auto.
Qed.

Lemma html_parts_complete : forall l, Forall part_ok l -> Forall (fun p => ~ is_comment p) l -> text_kept None l = true ->
  html_parts (text_of l) = Some l.
Proof.
  intros l F C T. unfold html_parts. rewrite read_parts_complete by (assumption || lia). now rewrite T.
Qed.
