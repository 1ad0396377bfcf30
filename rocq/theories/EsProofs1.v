(** The tokens of EsSpec are read locally: what follows a token only matters through its first
    character. *)
From Coq Require Import String Arith List NArith ZArith Bool Lia ZifyBool ZifyN.
From Verif Require Import Base JsModel JsUtilSpec EsSpec.
Import ListNotations.
Open Scope N_scope.

Lemma starts_app : forall f x y, x <> [] -> starts f (x ++ y) = starts f x.
Proof. intros f [|c x] y H; [congruence|reflexivity]. Qed.

(** ** The text of a token is the beginning of what was read *)

Lemma take_while_text : forall f s, s = fst (take_while f s) ++ snd (take_while f s).
Proof.
  intros f. induction s as [|c s IH]; [reflexivity|]. cbn [take_while]. destruct (f c); [|reflexivity].
  cbn [fst snd app]. f_equal. exact IH.
Qed.

Lemma take_digits_text : forall f s, s = fst (take_digits f s) ++ snd (take_digits f s).
Proof.
  intros f. induction s as [|c s IH]; [reflexivity|]. cbn [take_digits]. destruct (f c || (c =? 0x5F) && starts f s); [|reflexivity].
  cbn [fst snd app]. f_equal. exact IH.
Qed.

Lemma take_sign_text : forall s, s = fst (take_sign s) ++ snd (take_sign s).
Proof. intros [|c s]; [reflexivity|]. cbn [take_sign]. destruct (one_of (S_ "+-") c); reflexivity. Qed.

Lemma take_n_text : forall s, s = fst (take_n s) ++ snd (take_n s).
Proof. intros [|c s]; [reflexivity|]. cbn [take_n]. destruct (c =? 0x6E); reflexivity. Qed.

Lemma take_exponent_text : forall s, s = fst (take_exponent s) ++ snd (take_exponent s).
Proof.
  intros [|c s]; [reflexivity|]. cbn [take_exponent]. destruct (one_of (S_ "eE") c && starts digit (snd (take_sign s))); [|reflexivity].
  cbn [fst snd app]. f_equal. rewrite <- app_assoc, <- take_digits_text. apply take_sign_text.
Qed.

Lemma take_fraction_text : forall s, s = fst (take_fraction s) ++ snd (take_fraction s).
Proof.
  intros [|c s]; [reflexivity|]. cbn [take_fraction]. destruct (c =? 0x2E); [|reflexivity].
  destruct (starts digit s); [|reflexivity]. cbn [fst snd app]. f_equal. apply take_digits_text.
Qed.

Lemma take_tail_text : forall s, s = fst (take_tail s) ++ snd (take_tail s).
Proof.
  intros s. unfold take_tail. destruct (starts (N.eqb 0x6E) s); [apply take_n_text|].
  destruct (take_fraction s) as [f s1] eqn:F. destruct (take_exponent s1) as [e s2] eqn:E. cbn [fst snd].
  pose proof (take_fraction_text s) as TF. pose proof (take_exponent_text s1) as TE. rewrite F in TF. rewrite E in TE. cbn [fst snd] in *.
  rewrite <- app_assoc, <- TE. exact TF.
Qed.

Lemma take_decimal_text : forall s a x, take_decimal s = Some (a, x) -> s = a ++ x.
Proof.
  intros s a x H. unfold take_decimal in H. destruct (starts (N.eqb 0x2E) s).
  - destruct (take_fraction s) as [f s1] eqn:F. destruct (take_exponent s1) as [e s2] eqn:E. injection H as <- <-.
    pose proof (take_fraction_text s) as TF. pose proof (take_exponent_text s1) as TE. rewrite F in TF. rewrite E in TE. cbn [fst snd] in *.
    rewrite <- app_assoc, <- TE. exact TF.
  - destruct (take_digits digit s) as [i s1] eqn:I. destruct (_ && _); [discriminate H|]. destruct (take_tail s1) as [t s2] eqn:T. injection H as <- <-.
    pose proof (take_digits_text digit s) as TI. pose proof (take_tail_text s1) as TT. rewrite I in TI. rewrite T in TT. cbn [fst snd] in *.
    rewrite <- app_assoc, <- TT. exact TI.
Qed.

Lemma take_number_text : forall s a x, take_number s = Some (a, x) -> s = a ++ x.
Proof.
  intros s a x H. destruct s as [|c [|d r]]; [now apply take_decimal_text|now apply take_decimal_text|]. cbn [take_number] in H.
  destruct (if c =? 0x30 then radix d else None) as [f|]; [|now apply take_decimal_text].
  destruct (starts f r); [|discriminate H]. destruct (take_digits f r) as [h s1] eqn:Hh. destruct (take_n s1) as [n s2] eqn:Hn. injection H as <- <-.
  pose proof (take_digits_text f r) as TI. pose proof (take_n_text s1) as TT. rewrite Hh in TI. rewrite Hn in TT. cbn [fst snd] in *.
  cbn [app]. f_equal. f_equal. rewrite <- app_assoc, <- TT. exact TI.
Qed.

(** ** Names, digits, numbers *)

Lemma take_while_local : forall f a z0 z, take_while f (a ++ z0) = (a, z0) -> starts f z = false -> take_while f (a ++ z) = (a, z).
Proof.
  intros f. induction a as [|c a IH]; intros z0 z H S.
  - cbn [app]. destruct z as [|d z]; [reflexivity|]. cbn [take_while]. cbn [starts] in S. rewrite S. reflexivity.
  - cbn [app take_while] in *. destruct (f c); [|discriminate H].
    assert (K : take_while f (a ++ z0) = (a, z0)) by (rewrite (surjective_pairing (take_while f (a ++ z0))); injection H as -> ->; reflexivity).
    rewrite (IH z0 z K S). reflexivity.
Qed.

Lemma take_while_ends : forall f s, starts f (snd (take_while f s)) = false.
Proof.
  intros f. induction s as [|c s IH]; [reflexivity|]. cbn [take_while]. destruct (f c) eqn:E; [exact IH|]. cbn [snd starts]. exact E.
Qed.

Lemma take_digits_local : forall f a z0 z, take_digits f (a ++ z0) = (a, z0) -> starts f z = false -> starts (N.eqb 0x5F) z = false ->
  take_digits f (a ++ z) = (a, z).
Proof.
  intros f. induction a as [|c a IH]; intros z0 z H S U.
  - cbn [app]. destruct z as [|d z]; [reflexivity|]. cbn [take_digits]. cbn [starts] in *. rewrite S, N.eqb_sym, U. reflexivity.
  - cbn [app take_digits] in *. destruct (f c || (c =? 0x5F) && starts f (a ++ z0)) eqn:E; [|discriminate H].
    assert (K : take_digits f (a ++ z0) = (a, z0)) by (rewrite (surjective_pairing (take_digits f (a ++ z0))); injection H as -> ->; reflexivity).
    assert (E' : f c || (c =? 0x5F) && starts f (a ++ z) = true).
    { destruct (f c); [reflexivity|]. cbn [orb] in *. apply andb_true_iff in E. destruct E as [E1 E2]. rewrite E1. cbn [andb].
      destruct a as [|d a]; [|exact E2]. cbn [app] in *. destruct z0 as [|d z0]; [discriminate E2|]. cbn [starts] in E2.
      cbn [take_digits] in K. rewrite E2 in K. discriminate K. }
    rewrite E', (IH z0 z K S U). reflexivity.
Qed.

Section Engine.
Variables start_u part_u : N -> bool.
Notation id_start := (id_start start_u).
Notation id_part := (id_part start_u part_u).
Notation take_name := (take_name start_u part_u).

Lemma not_part : forall c, id_part c = false -> letter c = false /\ digit c = false /\ c <> 0x5F /\ c <> 0x24.
Proof.
  intros c H. unfold EsSpec.id_part, EsSpec.id_start in H.
  destruct (letter c); [discriminate H|]. destruct (one_of (S_ "$_") c) eqn:E; [discriminate H|]. destruct (digit c); [rewrite orb_true_r in H; discriminate H|].
  split; [reflexivity|]. split; [reflexivity|]. split; intros ->; discriminate E.
Qed.

Lemma not_part_starts : forall z, starts id_part z = false ->
  starts letter z = false /\ starts digit z = false /\ starts (N.eqb 0x5F) z = false.
Proof.
  intros [|c z] H; [repeat split|]. cbn [starts] in *. destruct (not_part c H) as (A & B & D & _). repeat split; try assumption.
  apply N.eqb_neq. congruence.
Qed.

Lemma letters : forall l z, forallb letter l = true -> starts letter z = false -> starts (one_of l) z = false.
Proof.
  intros l [|c z] F H; [reflexivity|]. cbn [starts] in *. destruct (one_of l c) eqn:E; [|reflexivity].
  unfold one_of in E. apply existsb_exists in E. destruct E as (d & I & Q). apply N.eqb_eq in Q. subst d. rewrite forallb_forall in F. rewrite (F c I) in H. discriminate.
Qed.

Lemma not_radix : forall f, (exists x, radix x = Some f) -> forall z, starts id_part z = false -> starts f z = false.
Proof.
  intros f (x & R) [|c z] H; [reflexivity|]. cbn [starts] in *. destruct (not_part c H) as (A & B & _ & _).
  unfold radix in R. unfold letter, digit in *.
  destruct (one_of (S_ "xX") x); [injection R as <-; unfold hex_digit, digit; lia|].
  destruct (one_of (S_ "oO") x); [injection R as <-; unfold octal_digit; lia|].
  destruct (one_of (S_ "bB") x); [injection R as <-; unfold binary_digit; lia|discriminate].
Qed.

Lemma take_n_local : forall a z0 z, take_n (a ++ z0) = (a, z0) -> starts id_part z = false -> take_n (a ++ z) = (a, z).
Proof.
  intros a z0 z H S. destruct a as [|c a].
  - cbn [app]. destruct z as [|d z]; [reflexivity|]. cbn [take_n]. cbn [starts] in S. destruct (not_part d S) as (A & _).
    destruct (d =? 0x6E) eqn:E; [|reflexivity]. apply N.eqb_eq in E. subst d. discriminate A.
  - cbn [app take_n] in *. destruct (c =? 0x6E); [|discriminate H]. injection H as E. destruct a; [reflexivity|discriminate E].
Qed.

Lemma take_sign_local : forall a z0 z, take_sign (a ++ z0) = (a, z0) -> (a = [] -> z0 <> [] -> z <> [] -> hd_error z = hd_error z0) ->
  (a = [] -> z <> [] /\ z0 <> []) -> take_sign (a ++ z) = (a, z).
Proof.
  intros a z0 z H E N. destruct a as [|c a].
  - destruct (N eq_refl) as [N1 N2]. destruct z as [|d z]; [congruence|]. destruct z0 as [|d0 z0]; [congruence|]. specialize (E eq_refl N2 N1).
    cbn [hd_error] in E. injection E as ->. cbn [app take_sign] in *. destruct (one_of (S_ "+-") d0); [discriminate H|reflexivity].
  - cbn [app take_sign] in *. destruct (one_of (S_ "+-") c); [|discriminate H]. injection H as E'. destruct a; [reflexivity|discriminate E'].
Qed.

Lemma take_digits_nonempty : forall f s, starts f s = true -> fst (take_digits f s) <> [].
Proof. intros f [|c s] H; [discriminate|]. cbn [starts] in H. cbn [take_digits]. rewrite H. discriminate. Qed.

Lemma take_exponent_local : forall a z0 z, take_exponent (a ++ z0) = (a, z0) -> starts id_part z = false -> take_exponent (a ++ z) = (a, z).
Proof.
  intros a z0 z H S. destruct (not_part_starts z S) as (SL & SD & SU). destruct a as [|c a].
  - cbn [app]. destruct z as [|d z]; [reflexivity|]. cbn [take_exponent].
    pose proof (letters (S_ "eE") (d :: z) eq_refl SL) as X. cbn [starts] in X. rewrite X. reflexivity.
  - cbn [app take_exponent] in *. destruct (one_of (S_ "eE") c && starts digit (snd (take_sign (a ++ z0)))) eqn:E; [|discriminate H].
    apply andb_true_iff in E. destruct E as [E1 E2]. rewrite E1. cbn [andb].
    remember (take_sign (a ++ z0)) as sg eqn:G. destruct sg as [sg s1]. cbn [fst snd] in *.
    remember (take_digits digit s1) as dg eqn:D. destruct dg as [dg s2]. cbn [fst snd] in *. injection H as H1 H2. subst s2.
    pose proof (take_digits_nonempty digit s1 E2) as ND. rewrite <- D in ND. cbn [fst] in ND.
    pose proof (take_digits_text digit s1) as TD. rewrite <- D in TD. cbn [fst snd] in TD. subst s1.
    assert (K : take_sign (a ++ z) = (sg, dg ++ z)).
    { rewrite <- H1, <- app_assoc. apply (take_sign_local sg (dg ++ z0) (dg ++ z)).
      - rewrite app_assoc, H1. symmetry. exact G.
      - intros _ _ _. destruct dg; [congruence|reflexivity].
      - intros _. destruct dg; [congruence|]. split; discriminate. }
    rewrite K. cbn [fst snd]. rewrite (starts_app digit dg z ND), <- (starts_app digit dg z0 ND), E2.
    rewrite (take_digits_local digit dg z0 z (eq_sym D) SD SU). cbn [fst snd]. rewrite H1. reflexivity.
Qed.

Definition int_text (a : str) : bool := forallb (fun d => digit d || (d =? 0x5F)) a.

(** [z] may stand behind [a] as [z0] does. *)
Definition fits (a z0 z : str) : Prop :=
  starts id_part z = false /\ (starts (N.eqb 0x2E) z = true -> starts (N.eqb 0x2E) z0 = true \/ int_text a = false).

Lemma take_fraction_local : forall a z0 z, take_fraction (a ++ z0) = (a, z0) -> starts digit z = false -> starts (N.eqb 0x5F) z = false ->
  (a = [] -> starts (N.eqb 0x2E) z = false) -> take_fraction (a ++ z) = (a, z).
Proof.
  intros a z0 z H SD SU N. destruct a as [|c a].
  - cbn [app]. destruct z as [|d z]; [reflexivity|]. specialize (N eq_refl). cbn [starts] in N. cbn [take_fraction]. rewrite N.eqb_sym, N. reflexivity.
  - cbn [app take_fraction] in *. destruct (c =? 0x2E); [|discriminate H]. destruct (starts digit (a ++ z0)) eqn:E.
    + assert (K : take_digits digit (a ++ z0) = (a, z0)) by (rewrite (surjective_pairing (take_digits digit (a ++ z0))); injection H as -> ->; reflexivity).
      assert (Na : a <> []). { intros ->. pose proof (take_digits_nonempty digit z0 E) as X. cbn [app] in K. rewrite K in X. now apply X. }
      rewrite (starts_app digit a z Na), <- (starts_app digit a z0 Na), E, (take_digits_local digit a z0 z K SD SU). reflexivity.
    + injection H as H. assert (a = []) by (destruct a; [reflexivity|discriminate H]). subst a. cbn [app]. rewrite SD. reflexivity.
Qed.

(** A fraction and an exponent. *)
Lemma fraction_exponent_local : forall f e s1 z0 z, take_fraction (f ++ e ++ z0) = (f, s1) -> take_exponent s1 = (e, z0) ->
  starts id_part z = false -> (f = [] -> e = [] -> starts (N.eqb 0x2E) z = false) ->
  take_fraction (f ++ e ++ z) = (f, e ++ z) /\ take_exponent (e ++ z) = (e, z).
Proof.
  intros f e s1 z0 z F E S N. destruct (not_part_starts z S) as (SL & SD & SU).
  pose proof (take_exponent_text s1) as T. rewrite E in T. cbn [fst snd] in T. subst s1.
  split; [|exact (take_exponent_local e z0 z E S)].
  assert (He : e = [] \/ exists c r, e = c :: r /\ one_of (S_ "eE") c = true).
  { destruct e as [|c r]; [now left|right]. exists c, r. split; [reflexivity|]. cbn [app take_exponent] in E. destruct (one_of (S_ "eE") c); [reflexivity|discriminate E]. }
  destruct He as [->|(c & r & -> & Hc)].
  - cbn [app] in *. apply (take_fraction_local f z0 z F SD SU). intro. now apply N.
  - assert (c = 0x65 \/ c = 0x45) by (cbn in Hc; lia). apply (take_fraction_local f ((c :: r) ++ z0) ((c :: r) ++ z) F); cbn [app starts]; [| |intros _]; destruct H as [->| ->]; reflexivity.
Qed.

Lemma take_tail_local : forall t z0 z, take_tail (t ++ z0) = (t, z0) -> starts id_part z = false ->
  (t = [] -> starts (N.eqb 0x2E) z = true -> starts (N.eqb 0x2E) z0 = true) -> take_tail (t ++ z) = (t, z).
Proof.
  intros t z0 z H S N. destruct (not_part_starts z S) as (SL & SD & SU). unfold take_tail in *.
  destruct (starts (N.eqb 0x6E) (t ++ z0)) eqn:E.
  - assert (Nt : t <> []). { intros ->. cbn [app] in *. destruct z0 as [|d z0]; [discriminate E|]. cbn [starts] in E. cbn [take_n] in H. rewrite N.eqb_sym, E in H. discriminate H. }
    rewrite (starts_app _ t z Nt), <- (starts_app _ t z0 Nt), E. exact (take_n_local t z0 z H S).
  - destruct (take_fraction (t ++ z0)) as [f s1] eqn:F. destruct (take_exponent s1) as [e s2] eqn:X. injection H as <- ->.
    assert (E' : starts (N.eqb 0x6E) ((f ++ e) ++ z) = false).
    { destruct (f ++ e) as [|d l] eqn:Q; [|exact E]. cbn [app]. pose proof (letters [0x6E] z eq_refl SL) as Y. destruct z as [|d z]; [reflexivity|].
      cbn [starts one_of existsb] in *. rewrite orb_false_r in Y. rewrite N.eqb_sym. exact Y. }
    rewrite E'. rewrite <- app_assoc in F. destruct (fraction_exponent_local f e s1 z0 z F X S) as [A B].
    + intros -> ->. cbn [app] in *. destruct (starts (N.eqb 0x2E) z) eqn:Z; [|reflexivity]. specialize (N eq_refl eq_refl).
      destruct z0 as [|d z0]; [discriminate N|]. cbn [starts] in N. cbn [take_fraction] in F. rewrite N.eqb_sym, N in F.
      destruct (starts digit z0); discriminate F.
    + rewrite <- app_assoc, A, B. reflexivity.
Qed.

Lemma take_decimal_local : forall a z0 z, take_decimal (a ++ z0) = Some (a, z0) -> a <> [] -> fits a z0 z ->
  take_decimal (a ++ z) = Some (a, z).
Proof.
  intros a z0 z H Na [S FD]. destruct (not_part_starts z S) as (SL & SD & SU). unfold take_decimal in *.
  rewrite (starts_app _ a z Na). rewrite (starts_app _ a z0 Na) in H. destruct (starts (N.eqb 0x2E) a) eqn:E.
  - destruct (take_fraction (a ++ z0)) as [f s1] eqn:F. destruct (take_exponent s1) as [e s2] eqn:X. injection H as <- ->.
    rewrite <- app_assoc in F |- *. destruct (fraction_exponent_local f e s1 z0 z F X S) as [A B].
    + intros -> ->. exfalso. now apply Na.
    + rewrite A, B. reflexivity.
  - destruct (take_digits digit (a ++ z0)) as [i s1] eqn:I. destruct (starts (N.eqb 0x30) i && negb (length i =? 1)%nat) eqn:L; [discriminate H|].
    destruct (take_tail s1) as [t s2] eqn:T. injection H as <- ->.
    pose proof (take_tail_text s1) as TT. rewrite T in TT. cbn [fst snd] in TT. subst s1. rewrite <- app_assoc in I |- *.
    assert (Ht : t = [] \/ exists c r, t = c :: r /\ one_of [0x6E; 0x2E; 0x65; 0x45] c = true).
    { destruct t as [|c r]; [now left|right]. exists c, r. split; [reflexivity|]. unfold take_tail in T. cbn [app starts] in T.
      destruct (0x6E =? c) eqn:C; [apply N.eqb_eq in C; subst c; reflexivity|]. cbn [take_fraction] in T. destruct (c =? 0x2E) eqn:C2; [apply N.eqb_eq in C2; subst c; reflexivity|].
      cbn [take_exponent] in T. destruct (one_of (S_ "eE") c) eqn:C3; [|discriminate T]. cbn in *. lia. }
    assert (K : take_digits digit (i ++ t ++ z) = (i, t ++ z)).
    { apply (take_digits_local digit i (t ++ z0) (t ++ z) I); destruct Ht as [->|(c & r & -> & Hc)]; try assumption; cbn [app starts].
      - assert (c = 0x6E \/ c = 0x2E \/ c = 0x65 \/ c = 0x45) by (cbn in Hc; lia). unfold digit. lia.
      - assert (c = 0x6E \/ c = 0x2E \/ c = 0x65 \/ c = 0x45) by (cbn in Hc; lia). lia. }
    rewrite K, L, (take_tail_local t z0 z T S); [reflexivity|].
    intros -> D. destruct (FD D) as [D0|D0]; [exact D0|]. exfalso. rewrite app_nil_r in D0.
    assert (Q : int_text i = true); [|congruence]. clear - I. cbn [app] in I. revert z0 I. induction i as [|c i IH]; intros z0 I; [reflexivity|]. cbn [app take_digits] in I.
    destruct (digit c || (c =? 0x5F) && starts digit (i ++ z0)) eqn:E; [|discriminate I].
    assert (K : take_digits digit (i ++ z0) = (i, z0)) by (rewrite (surjective_pairing (take_digits digit (i ++ z0))); injection I as -> ->; reflexivity).
    cbn [int_text forallb]. fold (int_text i). rewrite (IH z0 K), andb_true_r. destruct (digit c); [reflexivity|]. cbn [orb] in *. now apply andb_true_iff in E.
Qed.

Lemma take_number_local : forall a z0 z, take_number (a ++ z0) = Some (a, z0) -> a <> [] -> starts id_part z0 = false -> fits a z0 z ->
  take_number (a ++ z) = Some (a, z).
Proof.
  intros a z0 z H Na S0 F. destruct a as [|c [|d a]]; [congruence| |].
  - assert (D0 : take_decimal ([c] ++ z0) = Some ([c], z0)).
    { cbn [app] in *. destruct z0 as [|e z0]; [exact H|]. cbn [take_number] in H.
      destruct (if c =? 0x30 then radix e else None) as [f|]; [|exact H]. destruct (starts f z0); [|discriminate H].
      destruct (take_digits f z0) as [h s1]. destruct (take_n s1). discriminate H. }
    pose proof (take_decimal_local [c] z0 z D0 Na F) as D. destruct F as [S _]. cbn [app] in *. destruct z as [|e z]; [exact D|]. cbn [take_number].
    destruct (if c =? 0x30 then radix e else None) as [f|] eqn:R; [|exact D]. exfalso. destruct (c =? 0x30); [|discriminate R].
    destruct (not_part_starts (e :: z) S) as (SL & _). unfold radix in R.
    pose proof (letters (S_ "xX") _ eq_refl SL) as X1. pose proof (letters (S_ "oO") _ eq_refl SL) as X2. pose proof (letters (S_ "bB") _ eq_refl SL) as X3.
    cbn [starts] in X1, X2, X3. rewrite X1, X2, X3 in R. discriminate R.
  - cbn [app take_number] in *. destruct (if c =? 0x30 then radix d else None) as [f|] eqn:R; [|exact (take_decimal_local (c :: d :: a) z0 z H Na F)].
    destruct (starts f (a ++ z0)) eqn:E; [|discriminate H]. destruct (take_digits f (a ++ z0)) as [h s1] eqn:D. destruct (take_n s1) as [n s2] eqn:K.
    injection H as <- ->. destruct F as [S _]. destruct (not_part_starts z S) as (SL & SD & SU).
    assert (RR : exists x, radix x = Some f) by (exists d; destruct (c =? 0x30); [exact R|discriminate R]).
    pose proof (take_n_text s1) as TN. rewrite K in TN. cbn [fst snd] in TN. subst s1.
    pose proof (take_digits_nonempty f _ E) as Nh. rewrite D in Nh. cbn [fst] in Nh.
    rewrite <- app_assoc in E, D |- *. rewrite (starts_app f h _ Nh) in E. rewrite (starts_app f h _ Nh), E.
    assert (Hn : n = [] \/ n = [0x6E]).
    { destruct n as [|c' n]; [now left|right]. cbn [app take_n] in K. destruct (c' =? 0x6E) eqn:Q; [|discriminate K]. injection K as K. destruct n; [|discriminate K]. apply N.eqb_eq in Q. subst. reflexivity. }
    assert (K2 : take_digits f (h ++ n ++ z) = (h, n ++ z)).
    { apply (take_digits_local f h (n ++ z0) (n ++ z) D); destruct Hn as [->| ->].
      - now apply not_radix.
      - cbn [app starts]. destruct RR as (x & RR). unfold radix in RR. destruct (one_of (S_ "xX") x); [injection RR as <-; reflexivity|].
        destruct (one_of (S_ "oO") x); [injection RR as <-; reflexivity|]. destruct (one_of (S_ "bB") x); [injection RR as <-; reflexivity|discriminate].
      - exact SU.
      - reflexivity. }
    rewrite K2, (take_n_local n z0 z K S). reflexivity.
Qed.

(** ** Literals and comments *)

Lemma take_comment_app : forall x r y, take_comment x = Some r -> take_comment (x ++ y) = Some (r ++ y).
Proof.
  induction x as [|c x IH]; intros r y H; [discriminate|]. destruct x as [|d x]; [discriminate H|]. cbn [app take_comment] in *.
  destruct ((c =? 0x2A) && (d =? 0x2F)); [injection H as <-; reflexivity|]. exact (IH r y H).
Qed.

Lemma add_some : forall p o a r, add p o = Some (a, r) -> exists a', o = Some (a', r) /\ a = p ++ a'.
Proof. intros p [[a' r']|] a r H; [|discriminate H]. injection H as <- <-. eauto. Qed.

Lemma take_string_app : forall q n x a r y, (length x <= n)%nat -> take_string q x = Some (a, r) -> take_string q (x ++ y) = Some (a, r ++ y).
Proof.
  intros q. induction n as [|n IH]; intros x a r y L H; (destruct x as [|c x]; [discriminate H|]); cbn [length] in L; [lia|].
  cbn [app take_string] in *. destruct (c =? q); [injection H as <- <-; reflexivity|]. destruct ((c =? 0xA) || (c =? 0xD)); [discriminate H|].
  destruct (c =? 0x5C).
  - destruct x as [|d x]; [discriminate H|]. cbn [app]. destruct x as [|e x]; [discriminate H|]. cbn [app]. cbn [length] in L. destruct ((d =? 0xD) && (e =? 0xA)).
    + apply add_some in H. destruct H as (a' & H & ->). rewrite (IH x a' r y); [reflexivity|lia|exact H].
    + apply add_some in H. destruct H as (a' & H & ->). change (e :: x ++ y) with ((e :: x) ++ y). rewrite (IH (e :: x) a' r y); [reflexivity|cbn [length]; lia|exact H].
  - apply add_some in H. destruct H as (a' & H & ->). rewrite (IH x a' r y); [reflexivity|lia|exact H].
Qed.

Lemma take_template_app : forall n x a r y, (length x <= n)%nat -> take_template x = Some (a, r) -> take_template (x ++ y) = Some (a, r ++ y).
Proof.
  induction n as [|n IH]; intros x a r y L H; (destruct x as [|c x]; [discriminate H|]); cbn [length] in L; [lia|].
  cbn [app take_template] in *. destruct (c =? 0x60); [injection H as <- <-; reflexivity|]. destruct (c =? 0x5C).
  - destruct x as [|d x]; [discriminate H|]. cbn [app]. cbn [length] in L. apply add_some in H. destruct H as (a' & H & ->). rewrite (IH x a' r y); [reflexivity|lia|exact H].
  - destruct x as [|d x].
    + rewrite andb_false_r in H. discriminate H.
    + rewrite (starts_app _ (d :: x) y) by discriminate. destruct ((c =? 0x24) && starts (N.eqb 0x7B) (d :: x)).
      * injection H as <- <-. reflexivity.
      * apply add_some in H. destruct H as (a' & H & ->). rewrite (IH (d :: x) a' r y); [reflexivity|lia|exact H].
Qed.

Lemma take_regex_app : forall n cls x a r y, (length x <= n)%nat -> take_regex cls x = Some (a, r) -> take_regex cls (x ++ y) = Some (a, r ++ y).
Proof.
  induction n as [|n IH]; intros cls x a r y L H; (destruct x as [|c x]; [discriminate H|]); cbn [length] in L; [lia|].
  cbn [app take_regex] in *. destruct (line_end c); [discriminate H|]. destruct (c =? 0x5C).
  - destruct x as [|d x]; [discriminate H|]. cbn [app]. cbn [length] in L. destruct (line_end d); [discriminate H|]. apply add_some in H. destruct H as (a' & H & ->).
    rewrite (IH cls x a' r y); [reflexivity|lia|exact H].
  - destruct cls.
    + apply add_some in H. destruct H as (a' & H & ->). rewrite (IH _ x a' r y); [reflexivity|lia|exact H].
    + destruct (c =? 0x2F); [injection H as <- <-; reflexivity|]. apply add_some in H. destruct H as (a' & H & ->). rewrite (IH _ x a' r y); [reflexivity|lia|exact H].
Qed.

(** ** Punctuators *)

Lemma take_punct_spec : forall k s p r, take_punct k s = Some (p, r) ->
  exists m, (m <= k)%nat /\ (0 < m)%nat /\ punct_at m s = true /\ p = firstn m s /\ r = skipn m s /\ forall j, (m < j <= k)%nat -> punct_at j s = false.
Proof.
  induction k as [|k IH]; intros s p r H; [discriminate H|]. cbn [take_punct] in H. destruct (punct_at (S k) s) eqn:E.
  - injection H as <- <-. exists (S k). repeat split; try lia; try assumption. 
  - destruct (IH s p r H) as (m & A & B & C & D & F & G). exists m. repeat split; try lia; try assumption.
    intros j J. destruct (Nat.eq_dec j (S k)) as [->|Q]; [exact E|]. apply G. lia.
Qed.

Lemma take_punct_intro : forall k s m, (m <= k)%nat -> (0 < m)%nat -> punct_at m s = true -> (forall j, (m < j <= k)%nat -> punct_at j s = false) ->
  take_punct k s = Some (firstn m s, skipn m s).
Proof.
  induction k as [|k IH]; intros s m A B C D; [lia|]. cbn [take_punct]. destruct (Nat.eq_dec m (S k)) as [->|Q]; [rewrite C; reflexivity|].
  rewrite (D (S k)) by lia. apply IH; try lia; try assumption. intros j J. apply D. lia.
Qed.

(** The only beginning of a punctuator that is none is two dots. *)
Definition begins (x : str) : bool := existsb (fun p => str_eqb (firstn (length x) p) x) puncts.

Lemma begins_punct : forall x, begins x = true -> x <> [] -> is_punct x = true \/ x = S_ "..".
Proof.
  intros x B N. unfold begins in B. apply existsb_exists in B. destruct B as (p & I & E). apply str_eqb_eq in E.
  assert (F : forallb (fun p => forallb (fun k => is_punct (firstn k p) || str_eqb (firstn k p) (S_ "..") || str_eqb (firstn k p) []) (seq 0 5)) puncts = true) by (vm_compute; reflexivity).
  assert (L : forallb (fun p => Nat.leb (length p) 4) puncts = true) by (vm_compute; reflexivity).
  rewrite forallb_forall in F, L. specialize (F p I). specialize (L p I). apply Nat.leb_le in L. rewrite forallb_forall in F.
  assert (Lx : (length x <= 4)%nat) by (rewrite <- E, firstn_length; lia).
  specialize (F (length x)). rewrite E in F. assert (J : In (length x) (seq 0 5)) by (apply in_seq; lia). specialize (F J).
  apply orb_true_iff in F. destruct F as [F|F]; [|apply str_eqb_eq in F; congruence].
  apply orb_true_iff in F. destruct F as [F|F]; [now left|right; now apply str_eqb_eq].
Qed.

Lemma is_punct_length : forall p, is_punct p = true -> (0 < length p <= 4)%nat.
Proof.
  intros p H. unfold is_punct in H. apply existsb_exists in H. destruct H as (q & I & E). apply str_eqb_eq in E. subst q.
  assert (L : forallb (fun p => Nat.leb 1 (length p) && Nat.leb (length p) 4) puncts = true) by (vm_compute; reflexivity).
  rewrite forallb_forall in L. specialize (L p I). apply andb_true_iff in L. destruct L as [L1 L2]. apply Nat.leb_le in L1, L2. lia.
Qed.

Lemma begins_prefix : forall x y, is_punct (x ++ y) = true -> begins x = true.
Proof.
  intros x y H. unfold is_punct in H. apply existsb_exists in H. destruct H as (q & I & E). apply str_eqb_eq in E. subst q.
  unfold begins. apply existsb_exists. exists (x ++ y). split; [exact I|]. rewrite firstn_app, firstn_all, Nat.sub_diag, firstn_O, app_nil_r. apply str_eqb_refl.
Qed.

Lemma punct_at_app : forall k x y, (k <= length x)%nat -> (k < length x \/ starts digit y = false)%nat -> punct_at k (x ++ y) = punct_at k x.
Proof.
  intros k x y L C. unfold punct_at. rewrite firstn_app. replace (k - length x)%nat with 0%nat by lia. rewrite firstn_O, app_nil_r, skipn_app.
  replace (k - length x)%nat with 0%nat by lia. cbn [skipn]. f_equal. f_equal. f_equal. destruct C as [C|C].
  - apply starts_app. intro Z. apply (f_equal (@length N)) in Z. rewrite skipn_length in Z. cbn [length] in Z. lia.
  - destruct (skipn k x) as [|d z]; [cbn [app starts]; rewrite C; reflexivity|reflexivity].
Qed.

Lemma take_punct_app : forall x p r y, take_punct 4 x = Some (p, r) ->
  (r = [] -> begins (p ++ firstn 1 y) = false \/ y = []) -> (r = [] -> str_eqb p (S_ "?.") = true -> starts digit y = false) ->
  (p = S_ "." -> r = S_ "." -> starts (N.eqb 0x2E) y = false) -> take_punct 4 (x ++ y) = Some (p, r ++ y).
Proof.
  intros x p r y H B Q D. destruct (take_punct_spec 4 x p r H) as (m & M4 & M0 & P & Ep & Er & Mx).
  assert (Hx : x = p ++ r) by (subst p r; symmetry; apply firstn_skipn).
  assert (Lm : (length p = m)%nat).
  { unfold punct_at in P. apply andb_true_iff in P. destruct P as [P _]. apply andb_true_iff in P. destruct P as [_ P]. apply Nat.eqb_eq in P. rewrite Ep. exact P. }
  assert (Lx : (m <= length x)%nat) by (rewrite Hx, app_length; lia).
  assert (Pp : is_punct p = true).
  { unfold punct_at in P. apply andb_true_iff in P. destruct P as [P _]. apply andb_true_iff in P. destruct P as [P _]. rewrite Ep. exact P. }
  assert (K : firstn m (x ++ y) = p /\ skipn m (x ++ y) = r ++ y).
  { rewrite firstn_app, skipn_app. replace (m - length x)%nat with 0%nat by lia. rewrite firstn_O, app_nil_r. cbn [skipn]. now rewrite <- Ep, <- Er. }
  destruct K as [K1 K2]. rewrite <- K1 at 1. rewrite <- K2. apply take_punct_intro; try assumption.
  - unfold punct_at in P |- *. rewrite K1, K2. rewrite <- Ep, <- Er in P. apply andb_true_iff in P. destruct P as [P1 P2]. rewrite P1. cbn [andb].
    apply negb_true_iff. apply negb_true_iff in P2. destruct (str_eqb p (S_ "?.")) eqn:E; [|reflexivity]. cbn [andb] in *. destruct r as [|d r]; [|exact P2].
    cbn [app]. now apply Q.
  - intros j J. destruct (punct_at j (x ++ y)) eqn:PJ; [exfalso|reflexivity].
    assert (PP : is_punct (firstn j (x ++ y)) = true /\ length (firstn j (x ++ y)) = j).
    { unfold punct_at in PJ. apply andb_true_iff in PJ. destruct PJ as [PJ _]. apply andb_true_iff in PJ. destruct PJ as [P1 P2]. apply Nat.eqb_eq in P2. now split. }
    destruct PP as [PP LJ]. destruct (le_lt_dec j (length x)) as [LE|LT].
    + (* inside x *)
      assert (PX : punct_at j x = true).
      { destruct (Nat.eq_dec j (length x)) as [EJ|NJ]; [|rewrite <- PJ; symmetry; apply punct_at_app; [exact LE|left; lia]].
        unfold punct_at in PJ |- *. rewrite firstn_app in PJ. replace (j - length x)%nat with 0%nat in PJ by lia. rewrite firstn_O, app_nil_r in PJ.
        apply andb_true_iff in PJ. destruct PJ as [PJ _]. rewrite PJ. cbn [andb]. rewrite EJ, skipn_all. cbn [starts]. rewrite andb_false_r. reflexivity. }
      rewrite (Mx j J) in PX. discriminate PX.
    + (* beyond x *)
      assert (FJ : firstn j (x ++ y) = x ++ firstn (j - length x) y) by (rewrite firstn_app, firstn_all2 by lia; reflexivity).
      destruct y as [|c y].
      { rewrite FJ, firstn_nil, app_nil_r in LJ. lia. }
      rewrite FJ in PP. destruct r as [|d r].
      * destruct (B eq_refl) as [B1|B1]; [|discriminate B1]. rewrite app_nil_r in Hx. subst x.
        destruct (j - length p)%nat as [|i] eqn:EI; [lia|]. cbn [firstn] in PP, B1. change (c :: firstn i y) with ([c] ++ firstn i y) in PP. rewrite app_assoc in PP.
        rewrite (begins_prefix _ _ PP) in B1. discriminate B1.
      * assert (BX : begins x = true) by exact (begins_prefix _ _ PP).
        assert (NX : x <> []) by (rewrite Hx; destruct p; discriminate).
        destruct (begins_punct x BX NX) as [PX|PX].
        -- (* x itself would be longer *)
           pose proof (is_punct_length _ PX) as LX. specialize (Mx (length x)). rewrite Hx, app_length in Mx at 1. cbn [length] in Mx.
           assert (J' : (m < length x <= 4)%nat) by (split; [rewrite Hx, app_length; cbn [length]; lia|lia]).
           rewrite <- Lm in J'. assert (X : punct_at (length x) x = false) by (apply Mx; rewrite Hx, app_length in J'; cbn [length] in J'; lia).
           unfold punct_at in X. rewrite firstn_all, skipn_all, PX, Nat.eqb_refl in X. cbn [starts andb] in X. rewrite andb_false_r in X. discriminate X.
        -- assert (Ep' : p = S_ "." /\ d :: r = S_ ".").
           { rewrite PX in Hx. destruct p as [|a p]; [cbn in Pp; discriminate Pp|]. cbn [app] in Hx. injection Hx as <- Hx.
             destruct p as [|b p]; [cbn [app] in Hx; split; [reflexivity|rewrite <- Hx; reflexivity]|]. cbn [app] in Hx. injection Hx as _ Hx. destruct p; discriminate Hx. }
           destruct Ep' as [E1 E2]. specialize (D E1 E2). cbn [starts] in D.
           assert (Q2 : begins (S_ ".." ++ [c]) = true).
           { destruct (j - length x)%nat as [|i] eqn:EI; [lia|]. cbn [firstn] in PP. rewrite PX in PP. change (c :: firstn i y) with ([c] ++ firstn i y) in PP. rewrite app_assoc in PP. exact (begins_prefix _ _ PP). }
           destruct (begins_punct _ Q2) as [Q3|Q3]; [discriminate| |discriminate Q3].
           unfold is_punct in Q3. apply existsb_exists in Q3. destruct Q3 as (q & I & E). apply str_eqb_eq in E. subst q.
           assert (Z : forallb (fun q => match q with [a; b; e] => negb ((a =? 0x2E) && (b =? 0x2E)) || (e =? 0x2E) | _ => true end) puncts = true) by (vm_compute; reflexivity).
           rewrite forallb_forall in Z. specialize (Z _ I). change (S_ ".." ++ [c]) with [0x2E; 0x2E; c] in Z. cbn beta iota in Z. rewrite N.eqb_sym in D. rewrite D in Z. discriminate Z.
Qed.

(** ** One token *)

Lemma first_or_nil : forall (y : str), y = [] \/ exists c r, y = c :: r.
Proof. intros [|c r]; eauto. Qed.

Lemma scan_slash_app : forall re x e r y, scan_slash start_u part_u re x = Some (e, r) -> (r = [] -> runs_on start_u part_u e y = false) ->
  scan_slash start_u part_u re (x ++ y) = Some (e, r ++ y).
Proof.
  intros re x e r y H R. destruct x as [|d x].
  - cbn [scan_slash] in H. destruct re; [discriminate H|]. injection H as <- <-. specialize (R eq_refl). cbn [app]. destruct y as [|c y]; [reflexivity|].
    cbn [runs_on fst snd] in R. apply orb_false_iff in R. destruct R as [R1 R2]. cbn [scan_slash].
    apply orb_false_iff in R1. destruct R1 as [R1 _]. change (str_eqb [0x2F] (S_ "/")) with true in R2. cbn [andb] in R2.
    destruct (c =? 0x2F) eqn:E1; [apply N.eqb_eq in E1; subst c; discriminate R2|]. destruct (c =? 0x2A) eqn:E2; [apply N.eqb_eq in E2; subst c; discriminate R2|].
    destruct (c =? 0x3D) eqn:E3; [apply N.eqb_eq in E3; subst c; vm_compute in R1; discriminate R1|]. reflexivity.
  - cbn [app scan_slash] in *. destruct (d =? 0x2F) eqn:E1.
    + injection H as <- <-. destruct (snd (take_while (fun c => negb (line_end c)) x)) as [|c s] eqn:T.
      * specialize (R eq_refl). destruct y as [|c y]; [|discriminate R]. rewrite app_nil_r, T. reflexivity.
      * pose proof (take_while_text (fun c => negb (line_end c)) x) as X. rewrite T in X. pose proof (take_while_ends (fun c => negb (line_end c)) x) as En. rewrite T in En.
        set (a := fst (take_while (fun c => negb (line_end c)) x)) in *.
        assert (Q : take_while (fun c => negb (line_end c)) (a ++ (c :: s)) = (a, c :: s)) by (rewrite <- X, (surjective_pairing (take_while _ x)), T; reflexivity).
        rewrite X, <- app_assoc, (take_while_local _ a _ ((c :: s) ++ y) Q); [reflexivity|exact En].
    + destruct (d =? 0x2A).
      * destruct (take_comment x) as [z|] eqn:T; [|discriminate H]. injection H as <- <-. rewrite (take_comment_app x z y T). reflexivity.
      * destruct re.
        -- change (d :: x ++ y) with ((d :: x) ++ y). destruct (take_regex false (d :: x)) as [[b z]|] eqn:T; [|discriminate H]. rewrite (take_regex_app _ false _ b z y (le_n _) T).
           destruct (flags_ok (fst (take_name z))) eqn:F; [|discriminate H]. injection H as <- <-.
           pose proof (take_while_text id_part z) as X. pose proof (take_while_ends id_part z) as En. unfold EsSpec.take_name in *.
           set (a := fst (take_while id_part z)) in *. remember (snd (take_while id_part z)) as t eqn:Et.
           assert (Q : take_while id_part (a ++ t) = (a, t)) by (rewrite <- X, (surjective_pairing (take_while _ z)), <- Et; reflexivity).
           assert (K : take_while id_part (z ++ y) = (a, t ++ y)).
           { rewrite X, <- app_assoc. apply (take_while_local _ a t (t ++ y) Q). destruct t as [|c t]; [|exact En]. cbn [app]. specialize (R eq_refl). destruct y as [|c y]; [reflexivity|]. cbn [runs_on fst] in R. exact R. }
           rewrite K. cbn [fst snd]. rewrite F. reflexivity.
        -- destruct (d =? 0x3D); injection H as <- <-; reflexivity.
Qed.

Lemma runs_on_punct : forall p y, runs_on start_u part_u (Punct, p) y = false ->
  (begins (p ++ firstn 1 y) = false \/ y = []) /\ (str_eqb p (S_ "?.") = true -> starts digit y = false) /\ (p = S_ "." -> starts digit y = false).
Proof.
  intros p [|c y] H; [repeat split; auto|]. cbn [runs_on fst snd] in H. apply orb_false_iff in H. destruct H as [H _]. apply orb_false_iff in H. destruct H as [H1 H2].
  split; [left|split].
  - unfold begins. cbn [firstn]. rewrite app_length. cbn [length]. rewrite Nat.add_1_r. exact H1.
  - intros E. rewrite E, orb_true_r in H2. exact H2.
  - intros ->. exact H2.
Qed.

Lemma scan_app : forall re sub x e r y, scan start_u part_u re sub x = Some (e, r) -> (r = [] -> runs_on start_u part_u e y = false) ->
  (e = (Punct, S_ ".") -> r = S_ "." -> starts (N.eqb 0x2E) y = false) -> scan start_u part_u re sub (x ++ y) = Some (e, r ++ y).
Proof.
  intros re sub x e r y H R D. destruct x as [|c x]; [discriminate H|]. cbn [app scan] in *.
  destruct (white c || line_end c); [injection H as <- <-; reflexivity|].
  destruct (c =? 0x2F); [exact (scan_slash_app re x e r y H R)|].
  destruct (one_of [0x22; 0x27] c).
  { destruct (take_string c x) as [[a z]|] eqn:T; [|discriminate H]. injection H as <- <-. rewrite (take_string_app c _ x a z y (le_n _) T). reflexivity. }
  destruct ((c =? 0x60) || (c =? 0x7D) && sub).
  { destruct (take_template x) as [[a z]|] eqn:T; [|discriminate H]. injection H as <- <-. rewrite (take_template_app _ x a z y (le_n _) T). reflexivity. }
  assert (NM : forall s, starts id_part y = false \/ snd (take_name s) <> [] -> take_name (s ++ y) = (fst (take_name s), snd (take_name s) ++ y)).
  { intros s C. unfold EsSpec.take_name in *. pose proof (take_while_text id_part s) as X. pose proof (take_while_ends id_part s) as En.
    set (a := fst (take_while id_part s)) in *. remember (snd (take_while id_part s)) as t eqn:Et.
    assert (Q : take_while id_part (a ++ t) = (a, t)) by (rewrite <- X, (surjective_pairing (take_while _ s)), <- Et; reflexivity).
    rewrite X at 1. rewrite <- app_assoc. apply (take_while_local _ a t (t ++ y) Q). destruct t as [|b t]; [|exact En]. cbn [app]. destruct C as [C|C]; [exact C|congruence]. }
  destruct (c =? 0x23).
  { destruct x as [|d x]; [discriminate H|]. rewrite (starts_app _ (d :: x) y) by discriminate. destruct (starts id_start (d :: x)); [|discriminate H].
    injection H as <- <-. rewrite NM; [reflexivity|]. destruct (snd (take_name (d :: x))) as [|b t] eqn:E; [left|right; discriminate]. specialize (R eq_refl). destruct y; [reflexivity|exact R]. }
  assert (DD : digit c || (c =? 0x2E) && starts digit x = digit c || (c =? 0x2E) && starts digit (x ++ y) \/ (x = [] /\ c = 0x2E /\ starts digit y = true)).
  { destruct x as [|d x]; [|left; reflexivity]. cbn [app starts]. destruct (c =? 0x2E) eqn:E; [|left; reflexivity]. apply N.eqb_eq in E. destruct (starts digit y) eqn:Z; [right; auto|left; reflexivity]. }
  destruct DD as [DD|(-> & -> & Z)].
  - rewrite <- DD. destruct (digit c || (c =? 0x2E) && starts digit x) eqn:NU.
    + unfold scan_number in *. destruct (take_number (c :: x)) as [[a z]|] eqn:T; [|discriminate H]. destruct (starts id_part z) eqn:SZ; [discriminate H|]. injection H as <- <-.
      pose proof (take_number_text _ _ _ T) as X. assert (Na : a <> []).
      { intros ->. cbn [app] in X. subst z. cbn [starts] in SZ. destruct (not_part c SZ) as (_ & B & _). rewrite B in NU. cbn [orb] in NU. apply andb_true_iff in NU. destruct NU as [N1 N2].
        apply N.eqb_eq in N1. subst c. destruct x as [|d x]; [discriminate N2|]. cbn [starts] in N2. cbn [take_number] in T. change (0x2E =? 0x30) with false in T. cbn iota in T.
        unfold take_decimal in T. cbn [starts] in T. change (0x2E =? 0x2E) with true in T. cbn [take_fraction] in T. change (0x2E =? 0x2E) with true in T. cbn [starts] in T. rewrite N2 in T.
        destruct (take_exponent (snd (take_digits digit (d :: x)))) as [e2 s2]. injection T as T _. discriminate T. }
      assert (T' : take_number (a ++ z) = Some (a, z)) by (rewrite <- X; exact T).
      assert (F : fits a z (z ++ y)).
      { destruct z as [|b z]; [|split; [exact SZ|intro; left; assumption]]. cbn [app]. specialize (R eq_refl). destruct y as [|b y]; [split; [reflexivity|discriminate]|].
        cbn [runs_on fst snd] in R. apply orb_false_iff in R. destruct R as [R1 R2]. split; [exact R1|]. cbn [starts]. intro Q. right. rewrite N.eqb_sym, Q in R2. exact R2. }
      change (c :: x ++ y) with ((c :: x) ++ y). rewrite X, <- app_assoc. rewrite (take_number_local a z (z ++ y) T' Na SZ F).
      destruct F as [F _]. rewrite F. reflexivity.
    + destruct (id_start c).
      * change (c :: x ++ y) with ((c :: x) ++ y). injection H as <- <-. rewrite NM; [reflexivity|]. destruct (snd (take_name (c :: x))) as [|b t] eqn:E; [left|right; discriminate].
        specialize (R eq_refl). destruct y; [reflexivity|exact R].
      * change (c :: x ++ y) with ((c :: x) ++ y). destruct (take_punct 4 (c :: x)) as [[p z]|] eqn:T; [|discriminate H]. injection H as <- <-.
        rewrite (take_punct_app (c :: x) p z y T); [reflexivity| | |].
        -- intros Q. now apply runs_on_punct, R.
        -- intros Q. now apply runs_on_punct, R.
        -- intros -> ->. now apply D.
  - exfalso. change (digit 0x2E) with false in H. cbn [starts] in H. rewrite andb_false_r in H. cbn [orb] in H.
    change (id_start 0x2E) with ((0x80 <=? 0x2E) && start_u 0x2E && negb (white 0x2E || line_end 0x2E)) in H. change (0x80 <=? 0x2E) with false in H. cbn [andb] in H.
    change (take_punct 4 [0x2E]) with (Some ([0x2E], @nil N)) in H. injection H as <- <-. destruct (runs_on_punct _ _ (R eq_refl)) as (_ & _ & K). rewrite (K eq_refl) in Z. discriminate Z.
Qed.

End Engine.
