(** Appending text after the tokens of a text. *)
From Coq Require Import String Arith List NArith ZArith Bool Lia ZifyBool ZifyN.
From Verif Require Import Base CssSpec CssGapSpec CssSyntaxSpec.
Import ListNotations.
Open Scope N_scope.

(** ** Code points that end names and numbers *)

Definition stop (c : N) : bool := white c || punct_char c || quote c.
Definition stopped (v : str) : Prop := match v with c :: _ => stop c = true | [] => True end.
Definition white_head (v : str) : bool := match v with c :: _ => white c | [] => false end.

Lemma punct_cases : forall c, punct_char c = true -> In c (S_ ",>(){}[]:;/+=*|~$^").
Proof. intros c H. unfold punct_char in H. apply existsb_exists in H. destruct H as (d & I & E). apply N.eqb_eq in E. subst d. exact I. Qed.

Lemma stop_cases : forall c, stop c = true -> In c ([0x20; 0x9; 0xA; 0xC; 0xD; 0x22; 0x27] ++ S_ ",>(){}[]:;/+=*|~$^").
Proof.
  intros c H. unfold stop in H. apply orb_true_iff in H. destruct H as [H|H]; [apply orb_true_iff in H; destruct H as [H|H]|].
  - unfold white, newline in H. apply in_or_app. left. cbn. lia.
  - apply in_or_app. right. now apply punct_cases.
  - unfold quote in H. apply in_or_app. left. cbn. lia.
Qed.

Ltac each H := vm_compute in H; repeat (destruct H as [H|H]; [subst; try reflexivity; try discriminate|]); try contradiction H.

Lemma stop_name : forall c, stop c = true -> name_char c = false.
Proof. intros c H. apply stop_cases in H. each H. Qed.
Lemma stop_digit : forall c, stop c = true -> digit c = false.
Proof. intros c H. apply stop_cases in H. each H. Qed.
Lemma stop_hex : forall c, stop c = true -> hex_digit c = false.
Proof. intros c H. apply stop_cases in H. each H. Qed.
Lemma stop_not : forall c d, stop c = true -> stop d = false -> (c =? d) = false.
Proof. intros c d H K. apply N.eqb_neq. intros ->. congruence. Qed.
Lemma punct_stop : forall c, punct_char c = true -> stop c = true.
Proof. intros c H. unfold stop. rewrite H. destruct (white c); reflexivity. Qed.
Lemma punct_white : forall c, punct_char c = true -> white c = false.
Proof. intros c H. apply punct_cases in H. each H. Qed.
Lemma punct_quote : forall c, punct_char c = true -> quote c = false.
Proof. intros c H. apply punct_cases in H. each H. Qed.
Lemma start_name : forall c, name_start c = true -> name_char c = true.
Proof. intros c H. unfold name_char. rewrite H. reflexivity. Qed.
Lemma digit_name : forall c, digit c = true -> name_char c = true.
Proof. intros c H. unfold name_char. rewrite H. destruct (name_start c); reflexivity. Qed.
Lemma stop_start : forall c, stop c = true -> name_start c = false.
Proof. intros c H. apply stop_name in H. unfold name_char in H. destruct (name_start c); [discriminate H|reflexivity]. Qed.

(** ** Where text may be appended *)

Definition bs_end (s : str) : Prop := exists a, s = a ++ [0x5C].
Definition white_last (s : str) : Prop := exists a c, s = a ++ [c] /\ white c = true.

Definition ext1 (s v : str) : Prop :=
  stopped v /\ ~ bs_end s /\ (white_head v = true -> ~ ends_hex s /\ ~ white_last s).
Definition ext2 (s v : str) : Prop :=
  exists s' p, s = s' ++ [p] /\ punct_char p = true /\ ~ bs_end s' /\ (p = 0x2B -> starts_digit v = false).
Definition ext (s v : str) : Prop := ext1 s v \/ ext2 s v.

Lemma bs_suffix : forall a b, bs_end b -> bs_end (a ++ b).
Proof. intros a b [c ->]. exists (a ++ c). apply app_assoc. Qed.
Lemma hex_suffix : forall a b, ends_hex b -> ends_hex (a ++ b).
Proof. intros a b (c & h & -> & H). exists (a ++ c), h. split; [apply app_assoc|exact H]. Qed.
Lemma white_suffix : forall a b, white_last b -> white_last (a ++ b).
Proof. intros a b (c & d & -> & H). exists (a ++ c), d. split; [apply app_assoc|exact H]. Qed.

Lemma ext1_suffix : forall a b v, ext1 (a ++ b) v -> ext1 b v.
Proof.
  intros a b v (S & B & W). split; [exact S|]. split; [intro K; apply B; now apply bs_suffix|].
  intro K. destruct (W K) as [W1 W2]. split; intro X; [apply W1; now apply hex_suffix|apply W2; now apply white_suffix].
Qed.

Lemma ext2_suffix : forall a b v, ext2 (a ++ b) v -> b <> [] -> ext2 b v.
Proof.
  intros a b v (s & p & E & P & B & D) N. destruct (exists_last N) as (b' & q & ->).
  rewrite app_assoc in E. apply app_inj_tail in E. destruct E as [<- ->].
  exists b', p. split; [reflexivity|]. split; [exact P|]. split; [intro K; apply B; now apply bs_suffix|exact D].
Qed.

Lemma ext_suffix : forall a b v, ext (a ++ b) v -> b <> [] -> ext b v.
Proof. intros a b v [H|H] N; [left; now apply ext1_suffix in H|right; eapply ext2_suffix; eauto]. Qed.

Lemma ext_cons : forall c b v, ext (c :: b) v -> b <> [] -> ext b v.
Proof. intros c b v. exact (ext_suffix [c] b v). Qed.

Lemma ext_single : forall c v, ext [c] v -> stopped v /\ c <> 0x5C \/ punct_char c = true.
Proof.
  intros c v [(S & B & _)|(s & p & E & P & _)].
  - left. split; [exact S|]. intros ->. apply B. exists []. reflexivity.
  - right. destruct s as [|x [|y s]]; try discriminate E. injection E as ->. exact P.
Qed.

Lemma ext_bs : forall v, ~ ext [0x5C] v.
Proof. intros v H. apply ext_single in H. destruct H as [[_ H]|H]; [congruence|discriminate H]. Qed.

(** ** Look-ahead *)

Lemma stopped_digit : forall v, stopped v -> starts_digit v = false.
Proof. intros [|c v] H; [reflexivity|]. cbn in *. now apply stop_digit. Qed.

Lemma stopped_dot : forall v, stopped v -> starts_dot_digit v = false.
Proof. intros [|c v] H; [reflexivity|]. cbn in *. rewrite (stop_not c 0x2E H eq_refl). reflexivity. Qed.

Lemma stopped_escape : forall v, stopped v -> valid_escape v = false.
Proof. intros [|c v] H; [reflexivity|]. cbn in *. rewrite (stop_not c 0x5C H eq_refl). reflexivity. Qed.

Lemma stopped_starts : forall v, stopped v -> starts_name v = false.
Proof.
  intros [|c v] H; [reflexivity|]. pose proof (stopped_escape (c :: v) H) as E. cbn [starts_name].
  cbn [stopped] in H. rewrite (stop_not c 0x2D H eq_refl), E, (stop_start c H). reflexivity.
Qed.

Lemma escape_ext : forall s v, ext s v -> s <> [] -> valid_escape (s ++ v) = valid_escape s.
Proof.
  intros [|c [|d r]] v H N; [congruence| |reflexivity]. cbn [app valid_escape].
  destruct (N.eqb_spec c 0x5C) as [->|C]; [destruct (ext_bs v H)|reflexivity].
Qed.

Lemma starts_ext : forall s v, ext s v -> s <> [] -> starts_name (s ++ v) = starts_name s.
Proof.
  intros [|c r] v H N; [congruence|]. pose proof (escape_ext (c :: r) v H N) as E.
  cbn [app] in *. cbn [starts_name]. rewrite E. destruct (N.eqb_spec c 0x2D) as [->|C]; [|reflexivity].
  destruct r as [|d r].
  - cbn [app]. destruct (ext_single _ _ H) as [[S _]|P]; [|discriminate P]. rewrite (stopped_escape v S).
    destruct v as [|x v]; [reflexivity|]. cbn [stopped] in S. rewrite (stop_start x S), (stop_not x 0x2D S eq_refl). reflexivity.
  - rewrite (escape_ext (d :: r) v); [reflexivity|exact (ext_cons _ _ _ H ltac:(discriminate))|discriminate].
Qed.

Lemma digit_ext : forall s v, s <> [] -> starts_digit (s ++ v) = starts_digit s.
Proof. intros [|c r] v N; [congruence|reflexivity]. Qed.

Lemma dot_ext : forall s v, ext s v -> s <> [] -> starts_dot_digit (s ++ v) = starts_dot_digit s.
Proof.
  intros [|c [|d r]] v H N; [congruence| |reflexivity]. cbn [app starts_dot_digit]. destruct (N.eqb_spec c 0x2E) as [->|C]; [|reflexivity].
  destruct (ext_single _ _ H) as [[S _]|P]; [|discriminate P]. rewrite (stopped_digit v S). reflexivity.
Qed.

Lemma number_start_ext : forall s v, ext s v -> s <> [] -> (s = [0x2B] -> starts_digit v = false /\ starts_dot_digit v = false) ->
  starts_number (s ++ v) = starts_number s.
Proof.
  intros s v H N P. unfold starts_number. rewrite (digit_ext s v N), (dot_ext s v H N).
  destruct s as [|c [|d r]]; [congruence| |].
  - f_equal. cbn [app]. assert (Z : (c =? 0x2B) || (c =? 0x2D) = true -> starts_digit v = false /\ starts_dot_digit v = false).
    { intro K. destruct (N.eqb_spec c 0x2B) as [->|C]; [now apply P|]. cbn in K. apply N.eqb_eq in K. subst c.
      destruct (ext_single _ _ H) as [[S _]|Q]; [|discriminate Q]. split; [now apply stopped_digit|now apply stopped_dot]. }
    destruct ((c =? 0x2B) || (c =? 0x2D)); [|reflexivity]. destruct (Z eq_refl) as [-> ->]. reflexivity.
  - f_equal. change ((c :: d :: r) ++ v) with (c :: (d :: r) ++ v). cbv iota.
    rewrite (digit_ext (d :: r) v), (dot_ext (d :: r) v); try discriminate; [reflexivity|].
    exact (ext_cons _ _ _ H ltac:(discriminate)).
Qed.

(** ** Parts of tokens *)

Lemma take_digits_app : forall s v, starts_digit v = false \/ snd (take_digits s) <> [] ->
  take_digits (s ++ v) = (fst (take_digits s), snd (take_digits s) ++ v).
Proof.
  induction s as [|c s IH]; intros v H.
  - cbn [app take_digits fst snd]. destruct v as [|c v]; [reflexivity|]. destruct H as [H|H]; [|cbn in H; congruence]. cbn in *. rewrite H. reflexivity.
  - cbn [app take_digits] in *. destruct (digit c); [|reflexivity]. cbn [fst snd] in *. rewrite (IH v H). reflexivity.
Qed.

Lemma take_digits_suffix : forall s, exists a, s = a ++ snd (take_digits s).
Proof.
  induction s as [|c s [a E]]; [exists []; reflexivity|]. cbn [take_digits]. destruct (digit c); cbn [snd]; [|exists []; reflexivity].
  exists (c :: a). cbn [app]. congruence.
Qed.

Lemma take_digits_last : forall s p, digit p = false -> snd (take_digits (s ++ [p])) <> [].
Proof.
  induction s as [|c s IH]; intros p H; cbn [app take_digits].
  - rewrite H. discriminate.
  - destruct (digit c); cbn [snd]; [now apply IH|discriminate].
Qed.

(** Digits of a text that may be extended. *)
Lemma digits_ext : forall s v, ext s v -> take_digits (s ++ v) = (fst (take_digits s), snd (take_digits s) ++ v).
Proof.
  intros s v [(S & _)|(s' & p & -> & P & _)]; apply take_digits_app.
  - left. now apply stopped_digit.
  - right. apply take_digits_last. apply stop_digit. now apply punct_stop.
Qed.

Lemma nil_ext2 : forall v, ~ ext2 [] v.
Proof. intros v (s & p & E & _). destruct s; discriminate E. Qed.

Lemma ext_rest : forall a b v, ext (a ++ b) v -> (ext2 (a ++ b) v -> b <> []) -> ext b v.
Proof. intros a b v [H|H] N; [left; exact (ext1_suffix _ _ _ H)|right; eapply ext2_suffix; eauto]. Qed.

Lemma nil_stopped : forall v, ext [] v -> stopped v.
Proof. intros v [(H & _)|H]; [exact H|destruct (nil_ext2 v H)]. Qed.

(** Any suffix left by [take_digits] may be extended. *)
Lemma digits_rest : forall s v, ext s v -> ext (snd (take_digits s)) v.
Proof.
  intros s v H. destruct (take_digits_suffix s) as [a E]. rewrite E in H. apply (ext_rest a); [exact H|].
  rewrite <- E. intros (s' & p & -> & P & _). apply take_digits_last. apply stop_digit. now apply punct_stop.
Qed.

Lemma fraction_ext : forall s v, ext s v -> take_fraction (s ++ v) = (fst (take_fraction s), snd (take_fraction s) ++ v).
Proof.
  intros s v H. unfold take_fraction. destruct s as [|c s].
  - cbn [app]. rewrite (stopped_dot v (nil_stopped v H)). reflexivity.
  - rewrite (dot_ext (c :: s) v H ltac:(discriminate)). destruct (starts_dot_digit (c :: s)) eqn:D; [|reflexivity].
    cbn [app tl]. rewrite (digits_ext s v); [reflexivity|]. destruct s; [cbn in D; rewrite andb_false_r in D; discriminate|].
    exact (ext_cons _ _ _ H ltac:(discriminate)).
Qed.

Lemma fraction_rest : forall s v, ext s v -> ext (snd (take_fraction s)) v.
Proof.
  intros s v H. unfold take_fraction. destruct (starts_dot_digit s) eqn:D; [|exact H]. cbn [snd].
  destruct s as [|c [|d s]]; try discriminate D; [cbn in D; rewrite andb_false_r in D; discriminate|].
  cbn [tl]. apply digits_rest. exact (ext_cons _ _ _ H ltac:(discriminate)).
Qed.

Definition plus_digit (v : str) : bool := match v with c :: r => (c =? 0x2B) && starts_digit r | [] => false end.

Lemma sign_app : forall s v, s <> [] -> take_sign (s ++ v) = (fst (take_sign s), snd (take_sign s) ++ v).
Proof. intros [|c s] v H; [congruence|]. cbn [app take_sign]. destruct ((c =? 0x2B) || (c =? 0x2D)); reflexivity. Qed.

Lemma exponent_ext : forall s v, ext s v -> plus_digit v = false \/ (s <> [0x65] /\ s <> [0x45]) ->
  take_exponent (s ++ v) = (fst (take_exponent s), snd (take_exponent s) ++ v).
Proof.
  intros [|c s] v H K.
  - pose proof (nil_stopped v H) as S. cbn [app fst snd take_exponent]. destruct v as [|c v]; [reflexivity|]. cbn [stopped] in S.
    cbn [take_exponent]. rewrite (stop_not c 0x65 S eq_refl), (stop_not c 0x45 S eq_refl). reflexivity.
  - cbn [app take_exponent]. destruct ((c =? 0x65) || (c =? 0x45)) eqn:E; [|reflexivity]. cbn [andb].
    destruct s as [|d s].
    + cbn [app take_sign snd starts_digit]. assert (Z : starts_digit (snd (take_sign v)) = false); [|rewrite Z; reflexivity].
      destruct (ext_single _ _ H) as [[S _]|P].
      2: { exfalso. apply punct_cases in P. revert E. each P. }
      destruct v as [|x v]; [reflexivity|]. cbn [stopped] in S. cbn [take_sign].
      rewrite (stop_not x 0x2D S eq_refl), orb_false_r. destruct (x =? 0x2B) eqn:X; [|cbn; now apply stop_digit].
      cbn [snd]. destruct K as [K|[K1 K2]]; [cbn [plus_digit] in K; rewrite X in K; exact K|].
      exfalso. apply orb_true_iff in E. destruct E as [E|E]; apply N.eqb_eq in E; subst c; congruence.
    + assert (H1 : ext (d :: s) v) by exact (ext_cons _ _ _ H ltac:(discriminate)).
      rewrite (sign_app (d :: s) v) by discriminate. cbn [fst snd].
      destruct (snd (take_sign (d :: s))) as [|x r] eqn:R.
      * cbn [app]. assert (d :: s = [d] /\ ((d =? 0x2B) || (d =? 0x2D)) = true) as [Es Ed].
        { cbn [take_sign] in R. destruct ((d =? 0x2B) || (d =? 0x2D)); cbn [snd] in R; [subst s; auto|discriminate]. }
        injection Es as ->. assert (Z : starts_digit v = false).
        { destruct H1 as [(S & _)|(s' & p & Ep & P & _ & D)]; [now apply stopped_digit|].
          destruct s' as [|y [|z s']]; try discriminate Ep. injection Ep as ->. apply D.
          apply orb_true_iff in Ed. destruct Ed as [Ed|Ed]; apply N.eqb_eq in Ed; subst p; [reflexivity|discriminate P]. }
        rewrite Z. reflexivity.
      * rewrite (digit_ext (x :: r) v) by discriminate. destruct (starts_digit (x :: r)) eqn:D; [|reflexivity].
        assert (H2 : ext (x :: r) v).
        { cbn [take_sign] in R. destruct ((d =? 0x2B) || (d =? 0x2D)); cbn [snd] in R; [|rewrite <- R; exact H1].
          subst s. exact (ext_cons _ _ _ H1 ltac:(discriminate)). }
        rewrite (digits_ext (x :: r) v H2). reflexivity.
Qed.

Lemma number_ext : forall s v, ext s v -> s <> [] -> snd (take_sign s) <> [] ->
  plus_digit v = false \/ (snd (take_number s) <> [0x65] /\ snd (take_number s) <> [0x45]) ->
  take_number (s ++ v) = (fst (take_number s), snd (take_number s) ++ v).
Proof.
  intros s v H N G K. unfold take_number in *. rewrite (sign_app s v N).
  assert (H1 : ext (snd (take_sign s)) v).
  { destruct s as [|c s]; [congruence|]. cbn [take_sign] in *. destruct ((c =? 0x2B) || (c =? 0x2D)); cbn [snd] in *; [|exact H].
    exact (ext_cons _ _ _ H G). }
  destruct (take_sign s) as [a s1]. cbn [fst snd] in *. rewrite (digits_ext s1 v H1).
  pose proof (digits_rest s1 v H1) as H2. destruct (take_digits s1) as [b s2]. cbn [fst snd] in *.
  rewrite (fraction_ext s2 v H2). pose proof (fraction_rest s2 v H2) as H3. destruct (take_fraction s2) as [c s3]. cbn [fst snd] in *.
  rewrite (exponent_ext s3 v H3).
  - destruct (take_exponent s3) as [d s4]. reflexivity.
  - destruct K as [K|[K1 K2]]; [now left|right]. destruct (take_exponent s3) as [d s4] eqn:E. cbn [fst snd] in *.
    split; intros ->; cbn in E; injection E as <- <-; congruence.
Qed.

(** ** Escapes and names *)

Lemma take_hex_app : forall n s v, (match v with c :: _ => hex_digit c = false | [] => True end) \/ snd (take_hex n s) <> [] ->
  take_hex n (s ++ v) = (fst (take_hex n s), snd (take_hex n s) ++ v).
Proof.
  induction n as [|n IH]; intros s v H; [reflexivity|]. destruct s as [|c s].
  - cbn [app take_hex fst snd]. destruct v as [|c v]; [reflexivity|]. destruct H as [H|H]; [|cbn in H; congruence]. rewrite H. reflexivity.
  - cbn [app take_hex] in *. destruct (hex_digit c); [|reflexivity]. cbn [fst snd] in *. rewrite (IH s v H). reflexivity.
Qed.

Lemma take_hex_split : forall n s, s = fst (take_hex n s) ++ snd (take_hex n s) /\ (length (fst (take_hex n s)) <= n)%nat /\
  Forall (fun c => hex_digit c = true) (fst (take_hex n s)).
Proof.
  induction n as [|n IH]; intros s; [split; [reflexivity|split; [cbn; lia|constructor]]|]. destruct s as [|c s].
  - split; [reflexivity|]. split; [cbn; lia|constructor].
  - cbn [take_hex]. destruct (hex_digit c) eqn:E; cbn [fst snd app length]; [|split; [reflexivity|split; [lia|constructor]]].
    destruct (IH s) as (A & B & C). split; [congruence|]. split; [lia|constructor; assumption].
Qed.

Lemma eat_white_app : forall s v, s <> [] -> (white_head v = true -> ~ white_last s) -> eat_white (s ++ v) = eat_white s ++ v.
Proof.
  intros [|c [|d s]] v N H; [congruence| |].
  - cbn [app eat_white]. destruct (white c) eqn:W; [|reflexivity]. destruct v as [|x v]; [reflexivity|]. cbn [white_head] in H.
    destruct ((c =? 0xD) && (x =? 0xA)) eqn:E; [|reflexivity]. exfalso. apply H; [unfold white, newline; lia|]. exists [], c. auto.
  - cbn [app eat_white]. destruct (white c); [|reflexivity]. destruct ((c =? 0xD) && (d =? 0xA)); reflexivity.
Qed.

Lemma eat_white_suffix : forall s, exists a, s = a ++ eat_white s.
Proof.
  intros [|c [|d s]]; [exists []; reflexivity| |]; cbn [eat_white].
  - destruct (white c); [exists [c]|exists []]; reflexivity.
  - destruct (white c); [|exists []; reflexivity]. destruct ((c =? 0xD) && (d =? 0xA)); [exists [c; d]|exists [c]]; reflexivity.
Qed.

Lemma eat_white_last : forall s p, white p = false -> eat_white (s ++ [p]) <> [].
Proof.
  intros [|c [|d s]] p H; cbn [app eat_white].
  - rewrite H. discriminate.
  - destruct (white c); [|discriminate]. destruct ((c =? 0xD) && (p =? 0xA)) eqn:E; [|discriminate].
    exfalso. unfold white, newline in H. lia.
  - destruct (white c); [|discriminate]. destruct ((c =? 0xD) && (d =? 0xA)); [|discriminate]. destruct s; discriminate.
Qed.

Lemma take_escape_suffix : forall s, exists a, s = a ++ snd (take_escape s).
Proof.
  intros [|c s]; [exists []; reflexivity|]. cbn [take_escape]. destruct (hex_digit c); cbn [snd]; [|exists [c]; reflexivity].
  destruct (take_hex_split 5 s) as (E & _). destruct (eat_white_suffix (snd (take_hex 5 s))) as [b Eb].
  exists (c :: fst (take_hex 5 s) ++ b). cbn [app]. rewrite <- app_assoc, <- Eb, <- E. reflexivity.
Qed.

Lemma take_escape_ext : forall s v, ext (0x5C :: s) v -> s <> [] ->
  take_escape (s ++ v) = (fst (take_escape s), snd (take_escape s) ++ v) /\ ext (snd (take_escape s)) v.
Proof.
  intros s v H N. split.
  - destruct s as [|c s]; [congruence|]. cbn [app take_escape]. destruct (hex_digit c) eqn:Hc; [|reflexivity]. cbn [fst snd].
    destruct (take_hex_split 5 s) as (E & L & F).
    assert (X : take_hex 5 (s ++ v) = (fst (take_hex 5 s), snd (take_hex 5 s) ++ v)).
    { apply take_hex_app. destruct H as [(S & _)|(s' & p & Ep & P & _)].
      - left. destruct v as [|x v]; [exact I|]. now apply stop_hex.
      - right. intro Z. rewrite Z, app_nil_r in E.
        destruct s as [|d s]; [destruct s' as [|a [|b [|e s']]]; try discriminate Ep; injection Ep as _ <-; apply punct_stop, stop_hex in P; congruence|].
        destruct (exists_last (l := d :: s)) as (s0 & q & Eq); [discriminate|]. rewrite Eq in Ep.
        change (0x5C :: c :: s0 ++ [q]) with ((0x5C :: c :: s0) ++ [q]) in Ep. apply app_inj_tail in Ep. destruct Ep as [_ ->].
        rewrite <- E, Eq in F. apply Forall_app in F. destruct F as [_ F]. inversion F as [|? ? Fp]. apply punct_stop, stop_hex in P. congruence. }
    rewrite X. cbn [fst snd]. f_equal. destruct (snd (take_hex 5 s)) as [|x r] eqn:R.
    + cbn [app eat_white]. destruct v as [|y v]; [reflexivity|]. cbn [eat_white]. destruct (white y) eqn:Wy; [|reflexivity]. exfalso.
      rewrite app_nil_r in E. destruct H as [(S & _ & W)|(s' & p & Ep & P & _)].
      * destruct (W Wy) as [W1 _]. apply W1. exists [], (c :: s). split; [reflexivity|]. rewrite E. cbn [length]. split; [lia|].
        constructor; assumption.
      * destruct s as [|d s]; [destruct s' as [|a [|b [|e s']]]; try discriminate Ep; injection Ep as _ <-; apply punct_stop, stop_hex in P; congruence|].
        destruct (exists_last (l := d :: s)) as (s0 & q & Eq); [discriminate|]. rewrite Eq in Ep.
        change (0x5C :: c :: s0 ++ [q]) with ((0x5C :: c :: s0) ++ [q]) in Ep. apply app_inj_tail in Ep. destruct Ep as [_ ->].
        rewrite <- E, Eq in F. apply Forall_app in F. destruct F as [_ F]. inversion F as [|? ? Fp]. apply punct_stop, stop_hex in P. congruence.
    + apply eat_white_app; [discriminate|]. intro Wv. destruct H as [(S & _ & W)|(s' & p & Ep & P & _)].
      * destruct (W Wv) as [_ W2]. intro K. apply W2. rewrite E. change (0x5C :: c :: ?a ++ ?b) with ((0x5C :: c :: a) ++ b).
        now apply white_suffix.
      * intros (a & y & Ey & Wy). rewrite E, Ey in Ep. change (0x5C :: c :: fst (take_hex 5 s) ++ a ++ [y]) with ((0x5C :: c :: fst (take_hex 5 s)) ++ a ++ [y]) in Ep.
        rewrite app_assoc in Ep. apply app_inj_tail in Ep. destruct Ep as [_ ->]. apply punct_white in P. congruence.
  - destruct (take_escape_suffix s) as [a E]. assert (H' : ext ((0x5C :: a) ++ snd (take_escape s)) v) by (cbn [app]; rewrite <- E; exact H).
    apply (ext_rest (0x5C :: a)); [exact H'|]. cbn [app]. rewrite <- E. intros (s' & p & Ep & P & B & _).
    destruct (exists_last N) as (s0 & q & Eq). rewrite Eq in Ep. change (0x5C :: s0 ++ [q]) with ((0x5C :: s0) ++ [q]) in Ep.
    apply app_inj_tail in Ep. destruct Ep as [<- ->]. rewrite Eq. destruct s0 as [|c s0].
    + exfalso. apply B. exists []. reflexivity.
    + cbn [app take_escape]. destruct (hex_digit c); cbn [snd]; [|destruct s0; discriminate].
      assert (Z : exists k, snd (take_hex 5 (s0 ++ [p])) = k ++ [p]).
      { destruct (take_hex_split 5 (s0 ++ [p])) as (A & _ & F). destruct (snd (take_hex 5 (s0 ++ [p]))) as [|x r] eqn:R.
        - exfalso. rewrite app_nil_r in A. rewrite <- A in F. apply Forall_app in F. destruct F as [_ F]. inversion F as [|? ? Fp].
          apply punct_stop, stop_hex in P. congruence.
        - destruct (exists_last (l := x :: r)) as (k & y & Ey); [discriminate|]. rewrite Ey in A. rewrite app_assoc in A.
          apply app_inj_tail in A. destruct A as [_ ->]. exists k. exact Ey. }
      destruct Z as [k ->]. apply eat_white_last. now apply punct_white.
Qed.

Lemma take_escape_length : forall s, (length (snd (take_escape s)) <= length s)%nat.
Proof. intro s. destruct (take_escape_suffix s) as [a E]. rewrite E at 2. rewrite app_length. lia. Qed.

Lemma take_escape_error : forall s, s <> [] -> snd (fst (take_escape s)) = false.
Proof. intros [|c s] H; [congruence|]. cbn. destruct (hex_digit c); reflexivity. Qed.

(** Names. *)
Lemma name_ext : forall n s v m, ext s v -> (length s <= n)%nat -> (length (s ++ v) <= m)%nat ->
  take_name m (s ++ v) = (fst (take_name n s), snd (take_name n s) ++ v).
Proof.
  induction n as [|n IH]; intros s v m H Ln Lm.
  - destruct s; [|cbn in Ln; lia]. cbn [take_name fst snd app]. pose proof (nil_stopped v H) as S.
    destruct m as [|m]; [destruct v; [reflexivity|cbn in Lm; lia]|]. destruct v as [|c v]; [reflexivity|]. cbn [take_name].
    pose proof (stopped_escape _ S) as E. cbn [stopped] in S. rewrite (stop_name c S), E. reflexivity.
  - destruct s as [|c s].
    + cbn [take_name fst snd app]. pose proof (nil_stopped v H) as S.
      destruct m as [|m]; [destruct v; [reflexivity|cbn in Lm; lia]|]. destruct v as [|c v]; [reflexivity|]. cbn [take_name].
      pose proof (stopped_escape _ S) as E. cbn [stopped] in S. rewrite (stop_name c S), E. reflexivity.
    + pose proof (escape_ext (c :: s) v H ltac:(discriminate)) as E. cbn [app] in *. cbn [length] in Ln, Lm.
      destruct m as [|m]; [lia|]. cbn [take_name]. rewrite E. destruct (name_char c) eqn:Nc.
      * assert (H1 : ext s v).
        { apply (ext_rest [c]); [exact H|]. intros (s' & p & Ep & P & _) ->. destruct s' as [|x [|y s']]; try discriminate Ep.
          injection Ep as <-. apply punct_stop, stop_name in P. congruence. }
        rewrite (IH s v m H1) by lia. destruct (take_name n s) as [[a e] x]. reflexivity.
      * destruct (valid_escape (c :: s)) eqn:V; [|reflexivity].
        assert (c = 0x5C) by (cbn [valid_escape] in V; lia). subst c.
        assert (Ns : s <> []) by (intros ->; exact (ext_bs v H)).
        destruct (take_escape_ext s v H Ns) as [E2 H2]. rewrite E2. pose proof (take_escape_length s) as L2.
        destruct (take_escape s) as [[d e] x]. cbn [fst snd] in *.
        rewrite (IH x v m H2); [|lia|rewrite !app_length in *; lia].
        destruct (take_name n x) as [[a e'] x']. reflexivity.
Qed.

Lemma take_name_suffix : forall n s, exists a, s = a ++ snd (take_name n s).
Proof.
  induction n as [|n IH]; intros s; [exists []; reflexivity|]. destruct s as [|c s]; [exists []; reflexivity|].
  cbn [take_name]. destruct (name_char c).
  - destruct (IH s) as [a E]. destruct (take_name n s) as [[v e] x]. cbn [snd] in *. exists (c :: a). cbn [app]. congruence.
  - destruct (valid_escape (c :: s)); [|exists []; reflexivity]. destruct (take_escape_suffix s) as [a E].
    destruct (take_escape s) as [[d e] x]. cbn [snd] in *. destruct (IH x) as [b Eb]. destruct (take_name n x) as [[v e'] x']. cbn [snd] in *.
    exists (c :: a ++ b). cbn [app]. rewrite <- app_assoc, <- Eb, <- E. reflexivity.
Qed.

(** A name leaves the punctuation that ends the text. *)
Lemma name_rest : forall n s v, ext s v -> (length s <= n)%nat -> ext (snd (take_name n s)) v.
Proof.
  induction n as [|n IH]; intros s v H L; [destruct s; [exact H|cbn in L; lia]|]. destruct s as [|c s]; [exact H|].
  cbn [take_name length] in *. destruct (name_char c) eqn:Nc.
  - assert (H1 : ext s v).
    { apply (ext_rest [c]); [exact H|]. intros (s' & p & Ep & P & _) ->. destruct s' as [|x [|y s']]; try discriminate Ep.
      injection Ep as <-. apply punct_stop, stop_name in P. congruence. }
    specialize (IH s v H1 ltac:(lia)). destruct (take_name n s) as [[a e] x]. exact IH.
  - destruct (valid_escape (c :: s)) eqn:V; [|exact H]. assert (c = 0x5C) by (cbn [valid_escape] in V; lia). subst c.
    assert (Ns : s <> []) by (intros ->; exact (ext_bs v H)). destruct (take_escape_ext s v H Ns) as [_ H2].
    pose proof (take_escape_length s) as L2. destruct (take_escape s) as [[d e] x]. cbn [snd] in *.
    specialize (IH x v H2 ltac:(lia)). destruct (take_name n x) as [[a e'] x']. exact IH.
Qed.

(** ** Tokens that end with a mark of their own *)

Lemma eat_white_more : forall s v, eat_white s <> [] -> eat_white (s ++ v) = eat_white s ++ v.
Proof.
  intros [|c [|d s]] v H; cbn [eat_white app] in *; [congruence| |].
  - destruct (white c); [congruence|reflexivity].
  - destruct (white c); [|reflexivity]. destruct ((c =? 0xD) && (d =? 0xA)); reflexivity.
Qed.

Lemma take_escape_more : forall s v, snd (take_escape s) <> [] ->
  take_escape (s ++ v) = (fst (take_escape s), snd (take_escape s) ++ v).
Proof.
  intros [|c s] v H; [cbn in H; congruence|]. cbn [app take_escape] in *. destruct (hex_digit c); [|reflexivity]. cbn [fst snd] in *.
  assert (Z : snd (take_hex 5 s) <> []) by (intro Z; rewrite Z in H; cbn in H; congruence).
  rewrite (take_hex_app 5 s v (or_intror Z)). cbn [fst snd]. rewrite eat_white_more by exact H. reflexivity.
Qed.

Lemma eat_white_length : forall s, (length (eat_white s) <= length s)%nat.
Proof. intro s. destruct (eat_white_suffix s) as [a E]. rewrite E at 2. rewrite app_length. lia. Qed.

Lemma comment_ext : forall s v t r, take_comment s = (t, false, r) -> take_comment (s ++ v) = (t, false, r ++ v).
Proof.
  induction s as [|c s IH]; intros v t r H; [discriminate H|]. destruct s as [|d s]; [discriminate H|].
  change ((c :: d :: s) ++ v) with (c :: (d :: s) ++ v). cbn [take_comment] in *. change ((d :: s) ++ v) with (d :: s ++ v) in *. cbv iota.
  destruct ((c =? 0x2A) && (d =? 0x2F)); [|now apply (IH v t r)]. injection H as <- <-. reflexivity.
Qed.

Lemma string_nil : forall n q a, snd (fst (take_string n q [] a)) = true.
Proof. intros [|n] q a; reflexivity. Qed.

Lemma string_ext : forall n q s a v m t r, take_string n q s a = (t, false, r) -> (length (s ++ v) <= m)%nat ->
  take_string m q (s ++ v) a = (t, false, r ++ v).
Proof.
  induction n as [|n IH]; intros q s a v m t r H L; [discriminate H|]. destruct s as [|c s]; [discriminate H|].
  cbn [app length] in *. destruct m as [|m]; [lia|]. cbn [take_string] in *. destruct (c =? q); [injection H as <- <-; reflexivity|].
  destruct (newline c); [discriminate H|]. destruct (c =? 0x5C).
  - destruct s as [|d s]; [discriminate H|]. cbn [app] in *. change (d :: s ++ v) with ((d :: s) ++ v) in *.
    destruct (newline d).
    + assert (Z : eat_white (d :: s) <> []).
      { intro Z. rewrite Z in H. pose proof (string_nil n q a) as K. rewrite H in K. discriminate K. }
      rewrite (eat_white_more _ v Z). apply (IH _ _ _ _ _ _ _ H). pose proof (eat_white_length (d :: s)). rewrite !app_length in *. lia.
    + assert (Z : snd (take_escape (d :: s)) <> []).
      { intro Z. destruct (take_escape (d :: s)) as [[x e] r']. cbn [snd] in Z. subst r'. pose proof (string_nil n q (a ++ [x])) as K.
        rewrite H in K. discriminate K. }
      rewrite (take_escape_more _ v Z). pose proof (take_escape_length (d :: s)) as L2. destruct (take_escape (d :: s)) as [[x e] r'].
      cbn [fst snd] in *. apply (IH _ _ _ _ _ _ _ H). rewrite !app_length in *. lia.
  - apply (IH _ _ _ _ _ _ _ H). lia.
Qed.

Lemma skip_white_more : forall s v d r, skip_white s = d :: r -> skip_white (s ++ v) = d :: r ++ v.
Proof.
  induction s as [|c s IH]; intros v d r H; [discriminate H|]. cbn [app skip_white] in *. destruct (white c); [now apply IH|].
  injection H as <- <-. reflexivity.
Qed.

Lemma url_nil : forall n a, snd (fst (take_url n [] a)) = true.
Proof. intros [|n] a; reflexivity. Qed.

Lemma url_ext : forall n s a v m t r, take_url n s a = (t, false, r) -> (length (s ++ v) <= m)%nat ->
  take_url m (s ++ v) a = (t, false, r ++ v).
Proof.
  induction n as [|n IH]; intros s a v m t r H L; [discriminate H|]. destruct s as [|c s]; [discriminate H|].
  cbn [app length] in *. destruct m as [|m]; [lia|]. cbn [take_url] in *. destruct (c =? 0x29); [injection H as <- <-; reflexivity|].
  destruct (white c).
  - destruct (skip_white s) as [|d r'] eqn:E; [discriminate H|]. rewrite (skip_white_more s v d r' E).
    destruct (d =? 0x29); [injection H as <- <-; reflexivity|discriminate H].
  - destruct (quote c || (c =? 0x28) || non_printable c); [discriminate H|]. destruct (c =? 0x5C) eqn:C.
    + destruct s as [|d s].
      { exfalso. cbn [valid_escape] in H. rewrite C in H. cbn [andb take_escape] in H. pose proof (url_nil n (a ++ [0xFFFD])) as K.
        rewrite H in K. discriminate K. }
      replace (valid_escape (c :: (d :: s) ++ v)) with (valid_escape (c :: d :: s)) by reflexivity.
      destruct (valid_escape (c :: d :: s)); [|discriminate H].
      assert (Z : snd (take_escape (d :: s)) <> []).
      { intro Z. destruct (take_escape (d :: s)) as [[x e] r']. cbn [snd] in Z. subst r'. pose proof (url_nil n (a ++ [x])) as K.
        rewrite H in K. discriminate K. }
      rewrite (take_escape_more _ v Z). pose proof (take_escape_length (d :: s)) as L2. destruct (take_escape (d :: s)) as [[x e] r'].
      cbn [fst snd] in *. apply (IH _ _ _ _ _ _ H). rewrite !app_length in *. lia.
    + apply (IH _ _ _ _ _ _ H). lia.
Qed.

(** ** One token *)

Lemma skip_white_stop : forall v, white_head v = false -> skip_white v = v.
Proof. intros [|c v] H; [reflexivity|]. cbn in *. rewrite H. reflexivity. Qed.

Lemma skip_white_app : forall s v, skip_white s <> [] \/ white_head v = false -> skip_white (s ++ v) = skip_white s ++ v.
Proof.
  induction s as [|c s IH]; intros v H.
  - cbn in *. apply skip_white_stop. destruct H; congruence.
  - cbn [app skip_white] in *. destruct (white c); [now apply IH|reflexivity].
Qed.

Lemma skip_white_all : forall s, skip_white s = [] -> s <> [] -> white_last s.
Proof.
  induction s as [|c s IH]; intros H N; [congruence|]. cbn [skip_white] in H. destruct (white c) eqn:W; [|discriminate H].
  destruct s as [|d s]; [exists [], c; auto|]. apply (white_suffix [c]). apply IH; [exact H|discriminate].
Qed.

Lemma ext_white : forall s v, ext s v -> white_last s -> white_head v = false.
Proof.
  intros s v [(_ & _ & W)|(s' & p & -> & P & _)] K.
  - destruct (white_head v) eqn:E; [|reflexivity]. destruct (W eq_refl) as [_ Z]. destruct (Z K).
  - destruct K as (a & c & E & Wc). apply app_inj_tail in E. destruct E as [_ ->]. apply punct_white in P. congruence.
Qed.

Lemma take_name_length : forall n s, (length (snd (take_name n s)) <= length s)%nat.
Proof. intros n s. destruct (take_name_suffix n s) as [a E]. rewrite E at 2. rewrite app_length. lia. Qed.

(** After a name. *)
Lemma name_split : forall s v a e r, ext s v -> take_name (length s) s = (a, e, r) ->
  take_name (length (s ++ v)) (s ++ v) = (a, e, r ++ v) /\ ext r v.
Proof.
  intros s v a e r H E. split.
  - rewrite (name_ext (length s) s v _ H (le_n _) (le_n _)), E. reflexivity.
  - pose proof (name_rest (length s) s v H (le_n _)) as K. rewrite E in K. exact K.
Qed.

Lemma ident_ext : forall s v t r, ext s v -> take_ident_like s = (t, false, r) -> (r = [] -> runs_on t v = false) ->
  take_ident_like (s ++ v) = (t, false, r ++ v).
Proof.
  intros s v t r H E R. unfold take_ident_like in *. destruct (take_name (length s) s) as [[a e] x] eqn:T.
  destruct (name_split s v a e x H T) as [-> Hx]. destruct x as [|c x].
  - injection E as <- -> <-. specialize (R eq_refl). cbn [app]. destruct v as [|c v]; [reflexivity|]. cbn [runs_on] in R.
    destruct (c =? 0x28); [discriminate R|reflexivity].
  - cbn [app]. destruct (c =? 0x28) eqn:C; [|injection E as <- -> <-; reflexivity].
    destruct (skip_white x) as [|d x'] eqn:K.
    + cbn [negb] in *. rewrite andb_true_r in E. destruct (is_url a) eqn:U.
      * exfalso. pose proof (url_nil (length x) []) as Z. destruct (take_url (length x) [] []) as [[t' e'] y]. cbn in Z. subst e'.
        rewrite orb_true_r in E. discriminate E.
      * cbn [andb]. injection E as <- -> <-. reflexivity.
    + rewrite (skip_white_more x v d x' K). destruct (is_url a && negb (quote d)); [|injection E as <- -> <-; reflexivity].
      destruct (take_url (length x) (d :: x') []) as [[t' e'] y] eqn:V. injection E as <- E <-. apply orb_false_iff in E. destruct E as [-> ->].
      change (d :: x' ++ v) with ((d :: x') ++ v).
      rewrite (url_ext (length x) (d :: x') [] v (length (x ++ v)) t' y V); [reflexivity|].
      rewrite !app_length. pose proof (skip_white_more x [] d x' K) as K2. rewrite !app_nil_r in K2.
      assert (Lx : (length (skip_white x) <= length x)%nat).
      { clear. induction x as [|c x IH]; [apply le_n|]. cbn [skip_white]. destruct (white c); cbn [length]; lia. }
      rewrite K in Lx. lia.
Qed.

Lemma number_parts : forall s, starts_number s = true -> snd (take_sign s) <> [].
Proof.
  intros [|c [|d s]] H; [discriminate H| |].
  - cbn [take_sign]. destruct ((c =? 0x2B) || (c =? 0x2D)) eqn:E; [|discriminate]. exfalso.
    unfold starts_number in H. cbn in H. rewrite E in H. cbn in H. unfold digit in H. lia.
  - cbn [take_sign]. destruct ((c =? 0x2B) || (c =? 0x2D)); discriminate.
Qed.

Lemma take_number_suffix : forall s, exists a, s = a ++ snd (take_number s).
Proof.
  intro s. unfold take_number. assert (S1 : exists a, s = a ++ snd (take_sign s)).
  { destruct s as [|c s]; [exists []; reflexivity|]. cbn [take_sign]. destruct ((c =? 0x2B) || (c =? 0x2D)); [exists [c]|exists []]; reflexivity. }
  destruct (take_sign s) as [a s1]. cbn [snd] in S1. destruct S1 as [a1 ->].
  destruct (take_digits_suffix s1) as [a2 E2]. destruct (take_digits s1) as [b s2]. cbn [snd] in E2. subst s1.
  assert (S3 : exists a, s2 = a ++ snd (take_fraction s2)).
  { unfold take_fraction. destruct (starts_dot_digit s2); [|exists []; reflexivity]. cbn [snd]. destruct s2 as [|x s2]; [exists []; reflexivity|].
    cbn [tl]. destruct (take_digits_suffix s2) as [k E]. exists (x :: k). cbn [app]. congruence. }
  destruct (take_fraction s2) as [c s3]. cbn [snd] in S3. destruct S3 as [a3 ->].
  assert (S4 : exists a, s3 = a ++ snd (take_exponent s3)).
  { destruct s3 as [|x s3]; [exists []; reflexivity|]. cbn [take_exponent].
    destruct (((x =? 0x65) || (x =? 0x45)) && starts_digit (snd (take_sign s3))); [|exists []; reflexivity]. cbn [snd].
    destruct (take_digits_suffix (snd (take_sign s3))) as [k E]. assert (exists h, s3 = h ++ snd (take_sign s3)) as [h Eh].
    { destruct s3 as [|y s3]; [exists []; reflexivity|]. cbn [take_sign]. destruct ((y =? 0x2B) || (y =? 0x2D)); [exists [y]|exists []]; reflexivity. }
    exists (x :: h ++ k). cbn [app]. rewrite <- app_assoc, <- E, <- Eh. reflexivity. }
  destruct (take_exponent s3) as [d s4]. cbn [snd] in *. destruct S4 as [a4 ->].
  exists (a1 ++ a2 ++ a3 ++ a4). rewrite <- !app_assoc. reflexivity.
Qed.

(** The digits, signs, dots and exponent of a number hold no punctuation but a sign before a digit. *)
Lemma number_rest : forall s v, ext s v -> starts_number s = true -> ext (snd (take_number s)) v.
Proof.
  intros s v H N. unfold take_number.
  assert (H1 : ext (snd (take_sign s)) v).
  { pose proof (number_parts s N) as G. destruct s as [|c s]; [exact H|]. cbn [take_sign] in *.
    destruct ((c =? 0x2B) || (c =? 0x2D)); cbn [snd] in *; [exact (ext_cons _ _ _ H G)|exact H]. }
  destruct (take_sign s) as [a s1]. cbn [snd] in H1. pose proof (digits_rest s1 v H1) as H2.
  destruct (take_digits s1) as [b s2]. cbn [snd] in H2. pose proof (fraction_rest s2 v H2) as H3.
  destruct (take_fraction s2) as [c s3]. cbn [snd] in H3.
  assert (H4 : ext (snd (take_exponent s3)) v).
  { destruct s3 as [|x s3]; [exact H3|]. cbn [take_exponent].
    destruct (((x =? 0x65) || (x =? 0x45)) && starts_digit (snd (take_sign s3))) eqn:E; [|exact H3]. cbn [snd].
    apply andb_true_iff in E. destruct E as [_ E]. apply digits_rest. destruct s3 as [|y s3]; [discriminate E|].
    assert (H5 : ext (y :: s3) v) by exact (ext_cons _ _ _ H3 ltac:(discriminate)).
    cbn [take_sign] in *. destruct ((y =? 0x2B) || (y =? 0x2D)); cbn [snd] in *; [|exact H5].
    destruct s3; [discriminate E|]. exact (ext_cons _ _ _ H5 ltac:(discriminate)). }
  destruct (take_exponent s3) as [d s4]. exact H4.
Qed.

Lemma numeric_ext : forall s v t r, ext s v -> starts_number s = true -> take_numeric s = (t, false, r) ->
  (r = [] -> runs_on t v = false) -> take_numeric (s ++ v) = (t, false, r ++ v).
Proof.
  intros s v t r H G E R. assert (N : s <> []) by (intros ->; discriminate G).
  assert (K : plus_digit v = false \/ (snd (take_number s) <> [0x65] /\ snd (take_number s) <> [0x45])).
  { destruct (plus_digit v) eqn:P; [right|now left].
    assert (Z : forall u, snd (take_number s) = [u] -> (u =? 0x65) || (u =? 0x45) = true -> False).
    { intros u Eu Uu. unfold take_numeric in E. destruct (take_number s) as [x y]. cbn [snd] in Eu. subst y.
      apply orb_true_iff in Uu. destruct Uu as [Uu|Uu]; apply N.eqb_eq in Uu; subst u; vm_compute in E;
        (injection E as <- <-; specialize (R eq_refl); destruct v as [|c v]; [discriminate P|]; cbn [plus_digit] in P;
         apply andb_true_iff in P; destruct P as [P _]; cbn [runs_on] in R; rewrite P in R; discriminate R). }
    split; intro Eu; eapply Z; eauto; reflexivity. }
  unfold take_numeric in *. rewrite (number_ext s v H N (number_parts s G) K).
  pose proof (number_rest s v H G) as Hr. destruct (take_number s) as [x y]. cbn [fst snd] in *.
  destruct y as [|c y].
  - cbn [starts_name] in E. injection E as <- <-. cbn [app]. pose proof (nil_stopped v Hr) as S. rewrite (stopped_starts v S).
    destruct v as [|c v]; [reflexivity|]. cbn [stopped] in S. rewrite (stop_not c 0x25 S eq_refl). reflexivity.
  - rewrite (starts_ext (c :: y) v Hr) by discriminate. destruct (starts_name (c :: y)).
    + destruct (take_name (length (c :: y)) (c :: y)) as [[u e] z] eqn:T. destruct (name_split _ v u e z Hr T) as [-> _].
      injection E as <- -> <-. reflexivity.
    + cbn [app]. destruct (c =? 0x25); injection E as <- <-; reflexivity.
Qed.

Lemma ext2_head : forall c v, ext2 [c] v -> punct_char c = true.
Proof. intros c v (s' & p & E & P & _). destruct s' as [|x [|y s']]; try discriminate E. injection E as <-. exact P. Qed.

(** The token at the start of a text stays when the text is continued. *)
Lemma consume_ext : forall s v t r, ext s v -> s <> [] -> consume s = (t, false, r) -> (r = [] -> runs_on t v = false) ->
  consume (s ++ v) = (t, false, r ++ v).
Proof.
  intros [|c s] v t r H N E R; [congruence|]. cbn [app]. unfold consume in *.
  destruct (white c) eqn:W.
  { injection E as <- <-. f_equal. apply skip_white_app. destruct (skip_white s) as [|x y] eqn:K; [right|left; discriminate].
    apply (ext_white (c :: s) v H). apply skip_white_all; [cbn [skip_white]; rewrite W; exact K|discriminate]. }
  destruct ((c =? 0x2F) && match s with d :: _ => d =? 0x2A | [] => false end) eqn:Co.
  { destruct s as [|d s]; [rewrite andb_false_r in Co; discriminate Co|]. cbn [app tl] in *. rewrite Co. now apply comment_ext. }
  assert (Co' : (c =? 0x2F) && match s ++ v with d :: _ => d =? 0x2A | [] => false end = false).
  { destruct s as [|d s]; [|exact Co]. cbn [app]. destruct (N.eqb_spec c 0x2F) as [->|C]; [|reflexivity]. cbn [andb].
    destruct v as [|x v]; [reflexivity|]. vm_compute in E. injection E as <- <-. specialize (R eq_refl). cbn [runs_on] in R.
    change (0x2F =? 0x2B) with false in R. change (0x2F =? 0x2F) with true in R. exact R. }
  rewrite Co'. clear Co Co'. destruct (quote c).
  { apply (string_ext (length s) _ _ _ _ _ _ _ E (le_n _)). }
  destruct (N.eqb_spec c 0x23) as [->|C1].
  { destruct s as [|d s].
    - injection E as <- <-. cbn [app]. destruct (ext_single _ _ H) as [[S _]|P]; [|discriminate P]. rewrite (stopped_escape v S).
      destruct v as [|x v]; [reflexivity|]. cbn [stopped] in S. rewrite (stop_name x S). reflexivity.
    - assert (H1 : ext (d :: s) v) by exact (ext_cons _ _ _ H ltac:(discriminate)).
      rewrite (escape_ext (d :: s) v H1), (starts_ext (d :: s) v H1) by discriminate. cbn [app]. change (d :: s ++ v) with ((d :: s) ++ v).
      destruct (name_char d || valid_escape (d :: s)); [|injection E as <- <-; reflexivity].
      destruct (take_name (length (d :: s)) (d :: s)) as [[u e] z] eqn:T. destruct (name_split _ v u e z H1 T) as [-> _].
      injection E as <- -> <-. reflexivity. }
  assert (Pl : c :: s = [0x2B] -> starts_digit v = false /\ starts_dot_digit v = false).
  { intro Z. injection Z as -> ->. vm_compute in E. injection E as <- <-. specialize (R eq_refl). destruct v as [|x v]; [split; reflexivity|].
    cbn [runs_on] in R. change (0x2B =? 0x2B) with true in R. cbv iota in R. apply orb_false_iff in R. exact R. }
  pose proof (number_start_ext (c :: s) v H N Pl) as Ns. cbn [app] in Ns.
  change (c :: s ++ v) with ((c :: s) ++ v) in *. rewrite Ns.
  destruct ((c =? 0x2B) || (c =? 0x2E)) eqn:C2.
  { destruct (starts_number (c :: s)) eqn:G; [now apply numeric_ext|injection E as <- <-; reflexivity]. }
  destruct (N.eqb_spec c 0x2D) as [->|C3].
  { destruct (starts_number (0x2D :: s)) eqn:G; [now apply numeric_ext|].
    rewrite (starts_ext _ v H N).
    destruct s as [|d [|f s]].
    - cbn [app] in *. destruct (ext_single _ _ H) as [[S _]|P]; [|discriminate P].
      cbn [starts_name valid_escape orb] in E. change (0x2D =? 0x2D) with true in *. cbv iota in *. injection E as <- <-.
      destruct v as [|x [|y v]]; [reflexivity|reflexivity|]. cbn [stopped] in S. rewrite (stop_not x 0x2D S eq_refl). reflexivity.
    - cbn [app] in *. assert (Z : match v with f :: _ => (d =? 0x2D) && (f =? 0x3E) | [] => false end = false).
      { destruct v as [|f v]; [reflexivity|]. destruct (N.eqb_spec d 0x2D) as [->|D]; [|reflexivity]. cbn [andb].
        vm_compute in E. injection E as <- <-. specialize (R eq_refl). cbn [runs_on] in R. destruct (f =? 0x3E); [|reflexivity].
        rewrite orb_true_r in R. discriminate R. }
      destruct v as [|f v]; [rewrite app_nil_r; exact E|]. rewrite Z. destruct (starts_name [0x2D; d]) eqn:K.
      + exact (ident_ext [0x2D; d] (f :: v) t r H E R).
      + injection E as <- <-. reflexivity.
    - cbn [app] in *. destruct ((d =? 0x2D) && (f =? 0x3E)); [injection E as <- <-; reflexivity|].
      destruct (starts_name (0x2D :: d :: f :: s)) eqn:K.
      + exact (ident_ext (0x2D :: d :: f :: s) v t r H E R).
      + injection E as <- <-. reflexivity. }
  destruct (N.eqb_spec c 0x3C) as [->|C4].
  { assert (Z : forall x y, ext (0x3C :: s) v -> (length s < 3)%nat ->
        match s ++ v with d :: f :: g :: _ => (d =? 0x21) && (f =? 0x2D) && (g =? 0x2D) | _ => x end = true -> x = false -> y = true).
    { intros x y _ L K Ex. exfalso. destruct H as [(S & _)|(s' & p & Ep & P & _)].
      - destruct s as [|d [|f [|g s]]]; cbn [app length] in *; try lia; destruct v as [|a1 [|a2 [|a3 v]]]; cbn [stopped] in S; try congruence;
          try (rewrite (stop_not a1 0x21 S eq_refl) in K; discriminate K);
          try (rewrite (stop_not a1 0x2D S eq_refl) in K; rewrite ?andb_false_r in K; discriminate K).
      - destruct (exists_last (l := 0x3C :: s)) as (s0 & q & Eq); [discriminate|]. rewrite Eq in Ep. apply app_inj_tail in Ep.
        destruct Ep as [_ ->]. apply punct_cases in P.
        destruct s as [|d [|f [|g s]]]; cbn [app length] in *; try lia.
        + destruct s0 as [|? [|? ?]]; try discriminate Eq. injection Eq as <-. revert P. clear. intro P. each P.
        + destruct s0 as [|? [|? [|? ?]]]; try discriminate Eq. injection Eq as _ <-. destruct v as [|a1 [|a2 v]]; try congruence.
          destruct (N.eqb_spec d 0x21) as [->|D]; [|discriminate K]. revert P. clear. intro P. each P.
        + destruct s0 as [|? [|? [|? [|? ?]]]]; try discriminate Eq. injection Eq as _ <- <-. destruct v as [|a1 v]; try congruence.
          destruct (N.eqb_spec f 0x2D) as [->|D]; [|rewrite andb_false_r in K; discriminate K]. revert P. clear. intro P. each P. }
    destruct s as [|d [|f [|g s]]].
    4: { cbn [app] in *. destruct ((d =? 0x21) && (f =? 0x2D) && (g =? 0x2D)); injection E as <- <-; reflexivity. }
    all: injection E as <- <-.
    all: match goal with |- context [if ?b then _ else _] => destruct b eqn:B end; [|reflexivity].
    all: exfalso; specialize (Z false false H ltac:(cbn; lia) B eq_refl); discriminate Z. }
  destruct (N.eqb_spec c 0x40) as [->|C5].
  { destruct s as [|d s].
    - injection E as <- <-. cbn [app]. destruct (ext_single _ _ H) as [[S _]|P]; [|discriminate P]. rewrite (stopped_starts v S). reflexivity.
    - assert (H1 : ext (d :: s) v) by exact (ext_cons _ _ _ H ltac:(discriminate)). rewrite (starts_ext (d :: s) v H1) by discriminate.
      destruct (starts_name (d :: s)); [|injection E as <- <-; reflexivity].
      destruct (take_name (length (d :: s)) (d :: s)) as [[u e] z] eqn:T. destruct (name_split _ v u e z H1 T) as [-> _].
      injection E as <- -> <-. reflexivity. }
  rewrite (escape_ext _ v H N). destruct (c =? 0x5C).
  { destruct (valid_escape (c :: s)); [|discriminate E]. now apply ident_ext. }
  destruct (digit c) eqn:Dc.
  { apply numeric_ext; try assumption. unfold starts_number. cbn [starts_digit]. rewrite Dc. reflexivity. }
  destruct (name_start c); [now apply ident_ext|]. injection E as <- <-. reflexivity.
Qed.
