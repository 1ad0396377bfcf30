(** Words: numbers and the other kinds. *)
From Coq Require Import String List NArith ZArith Bool Lia ZifyBool ZifyN Arith.
From Coq Require Decimal DecimalFacts DecimalN.
From Verif Require Import Base JsModel JsUtilModel JsUtilSpec JsUtilProofs JsUtilProofs2 JsLexSpec
  JsLexProofs1 JsLexProofs2.
Import ListNotations.
Open Scope N_scope.

Lemma is_digit_iff : forall c, is_digit c = true <-> 0x30 <= c <= 0x39.
Proof. intro c. unfold is_digit. lia. Qed.

Definition val_from (n : N) (s : str) : N := fold_left (fun n c => 10 * n + (c - 0x30)) s n.

Lemma of_uint_acc_val : forall d p, Npos (Pos.of_uint_acc d p) = val_from (Npos p) (uint_show d).
Proof.
  induction d as [|d IH|d IH|d IH|d IH|d IH|d IH|d IH|d IH|d IH|d IH]; intro p; [reflexivity| ..];
    cbn [Pos.of_uint_acc uint_show]; unfold val_from in *; cbn [fold_left]; rewrite IH; f_equal; lia.
Qed.

Lemma of_uint_val : forall d, N.of_uint d = val_from 0 (uint_show d).
Proof.
  unfold N.of_uint. induction d as [|d IH|d IH|d IH|d IH|d IH|d IH|d IH|d IH|d IH|d IH];
    [reflexivity|cbn [Pos.of_uint uint_show]; rewrite IH; reflexivity| ..];
    cbn [Pos.of_uint uint_show]; rewrite of_uint_acc_val; unfold val_from; cbn [fold_left]; f_equal.
Qed.

Lemma uint_of_sound : forall s d, uint_of s = Some d -> uint_show d = s /\ digits s.
Proof.
  induction s as [|c s IH]; intros d H; cbn [uint_of] in H.
  - injection H as <-. split; [reflexivity|constructor].
  - destruct (uint_of s) as [d'|]; [|discriminate]. destruct (IH d' eq_refl) as [E D].
    repeat match type of H with (if ?c =? ?k then _ else _) = _ =>
      let F := fresh "F" in destruct (c =? k) eqn:F;
      [apply N.eqb_eq in F; subst c; injection H as <-; cbn [uint_show]; rewrite E;
       split; [reflexivity|constructor; [lia|exact D]]|clear F] end.
    discriminate.
Qed.

Lemma uint_of_complete : forall s, digits s -> exists d, uint_of s = Some d.
Proof.
  induction s as [|c s IH]; intro D; [eexists; reflexivity|]. inversion D as [|? ? C D']; subst.
  destruct (IH D') as (d & E). cbn [uint_of]. rewrite E.
  assert (H : c = 48 \/ c = 49 \/ c = 50 \/ c = 51 \/ c = 52 \/ c = 53 \/ c = 54 \/ c = 55 \/ c = 56 \/ c = 57) by lia.
  repeat (destruct H as [H|H]; [subst c; eexists; reflexivity|]). subst c. eexists. reflexivity.
Qed.

Lemma u64_of_spec : forall w n, Forall (fun c => c <> 0x2B) w ->
  (u64_of w = Some n <-> small_integer w /\ n = value w).
Proof.
  intros w n F. unfold u64_of, small_integer. cbv zeta.
  destruct w as [|c w]; [split; [discriminate|intros [[H _] _]; congruence]|].
  inversion F; subst. replace (c =? 0x2B) with false by lia.
  destruct (uint_of (c :: w)) as [d|] eqn:U.
  - destruct (uint_of_sound _ _ U) as [E D]. cbv zeta. rewrite (of_uint_val d), E.
    change (val_from 0 (c :: w)) with (value (c :: w)).
    destruct (N.ltb_spec (value (c :: w)) (2 ^ 64)) as [L|L].
    + split; [intro H; injection H as <-|intros [_ ->]; reflexivity]. repeat split; auto. discriminate.
    + split; [discriminate|]. intros [(_ & _ & H) _]. exfalso. apply (N.lt_irrefl (2^64)). 
      eapply N.le_lt_trans; eauto.
  - split; [discriminate|]. intros [(_ & D & _) _]. destruct (uint_of_complete _ D) as (d & E). congruence.
Qed.

Lemma u64_none : forall w, Forall (fun c => c <> 0x2B) w -> (u64_of w = None <-> ~ small_integer w).
Proof.
  intros w F. destruct (u64_of w) as [n|] eqn:U.
  - apply u64_of_spec in U; [|exact F]. split; [discriminate|]. intro H. destruct U; contradiction.
  - split; [|reflexivity]. intros _ S. assert (X : u64_of w = Some (value w)) by (apply u64_of_spec; auto).
    congruence.
Qed.

(** ** Floating point numbers *)

Lemma skip_digits_spec : forall s n t, skip_digits s = (n, t) ->
  exists i, s = i ++ t /\ digits i /\ length i = n /\ (forall c r, t = c :: r -> is_digit c = false).
Proof.
  induction s as [|c s IH]; intros n t H; cbn [skip_digits] in H.
  - injection H as <- <-. exists []. repeat split; [constructor|discriminate].
  - destruct (is_digit c) eqn:D.
    + destruct (skip_digits s) as [m u]. injection H as <- <-. destruct (IH m u eq_refl) as (i & -> & Di & <- & T).
      exists (c :: i). repeat split; [|exact T]. constructor; [now apply is_digit_iff|exact Di].
    + injection H as <- <-. exists []. repeat split; [constructor|]. intros d r E. injection E as <- _. exact D.
Qed.

Lemma skip_digits_app : forall i t, digits i -> (forall c r, t = c :: r -> is_digit c = false) ->
  skip_digits (i ++ t) = (length i, t).
Proof.
  induction i as [|c i IH]; intros t D T.
  - cbn [app length]. destruct t as [|c r]; [reflexivity|]. pose proof (T c r eq_refl) as Tc. cbn [skip_digits]. destruct (is_digit c); [discriminate|reflexivity].
  - inversion D as [|? ? C D']; subst. cbn [app skip_digits length].
    rewrite (proj2 (is_digit_iff c) C), (IH t D' T). reflexivity.
Qed.

Definition unsigned (w : str) : Prop := Forall (fun c => c <> 0x2B /\ c <> 0x2D) w.

Lemma drop_sign_unsigned : forall w, unsigned w -> drop_sign w = w.
Proof.
  intros [|c w] H; [reflexivity|]. inversion H as [|? ? [A B] _]; subst. cbn.
  replace ((c =? 0x2B) || (c =? 0x2D)) with false by lia. reflexivity.
Qed.

Lemma lower_e : forall c, ascii_lower c = 0x65 <-> (c = 0x65 \/ c = 0x45).
Proof. intro c. unfold ascii_lower. destruct ((0x41 <=? c) && (c <=? 0x5A)) eqn:E; lia. Qed.

Lemma float_exponent_spec : forall e, unsigned e -> (float_exponent e = true <-> exponent e).
Proof.
  intros [|c r] U; [split; [constructor|reflexivity]|]. inversion U as [|? ? _ U']; subst.
  cbn [float_exponent]. rewrite (drop_sign_unsigned r U').
  destruct (skip_digits r) as [n t] eqn:Sk.
  split.
  - intro H. apply andb_prop in H. destruct H as [C H]. apply N.eqb_eq, lower_e in C.
    apply andb_prop in H. destruct H as [Hn Ht]. destruct t; [|discriminate].
    destruct (skip_digits_spec _ _ _ Sk) as (i & -> & Di & Li & _). rewrite app_nil_r.
    constructor; auto. intros ->. subst n. discriminate.
  - intro H. inversion H as [|? ? C Ne D]; subst.
    rewrite <- (app_nil_r r) in Sk. rewrite (skip_digits_app r [] D) in Sk by discriminate.
    injection Sk as <- <-. apply lower_e in C. rewrite C. destruct r; [congruence|]. reflexivity.
Qed.

Lemma exponent_no_digit : forall e c r, exponent e -> e = c :: r -> is_digit c = false.
Proof.
  intros e c r H E. destruct H as [|x d C _ _]; [discriminate|]. injection E as -> _.
  destruct C; subst c; reflexivity.
Qed.

Lemma exponent_no_dot : forall e c r, exponent e -> e = c :: r -> (c =? 0x2E) = false.
Proof.
  intros e c r H E. destruct H as [|x d C _ _]; [discriminate|]. injection E as -> _.
  destruct C; subst c; reflexivity.
Qed.

Lemma unsigned_app : forall a b, unsigned (a ++ b) <-> unsigned a /\ unsigned b.
Proof. intros. apply Forall_app. Qed.

Lemma float_number_spec : forall w, unsigned w -> (float_number w = true <->
  (exists i e, w = i ++ e /\ i <> [] /\ digits i /\ exponent e)
  \/ (exists i f e, w = i ++ 0x2E :: f ++ e /\ i ++ f <> [] /\ digits i /\ digits f /\ exponent e)).
Proof.
  intros w U. split.
  - unfold float_number. destruct (skip_digits w) as [n t] eqn:Sk. intro H.
    destruct (skip_digits_spec _ _ _ Sk) as (i & -> & Di & <- & T).
    apply unsigned_app in U. destruct U as [_ U].
    destruct t as [|c r].
    + left. exists i, []. repeat split; [|exact Di|constructor]. intros ->. discriminate.
    + destruct (c =? 0x2E) eqn:C.
      * apply N.eqb_eq in C. subst c. destruct (skip_digits r) as [m u] eqn:Sr.
        destruct (skip_digits_spec _ _ _ Sr) as (f & -> & Df & <- & T2).
        apply andb_prop in H. destruct H as [Hn He].
        inversion U as [|? ? _ U']; subst. apply unsigned_app in U'. destruct U' as [_ U'].
        apply float_exponent_spec in He; [|exact U'].
        right. exists i, f, u. repeat split; auto. intro E. apply app_eq_nil in E. destruct E; subst. discriminate.
      * apply andb_prop in H. destruct H as [Hn He]. apply float_exponent_spec in He; [|exact U].
        left. exists i, (c :: r). repeat split; auto. intros ->. discriminate.
  - intros [(i & e & -> & Ne & Di & Ex)|(i & f & e & -> & Ne & Di & Df & Ex)].
    + unfold float_number. rewrite (skip_digits_app i e Di).
      2:{ intros c r E. eapply exponent_no_digit; eauto. }
      assert (N0 : negb (Nat.eqb (length i) 0) = true) by (destruct i; [congruence|reflexivity]).
      apply unsigned_app in U. destruct U as [_ U]. pose proof (proj2 (float_exponent_spec e U) Ex) as Fe.
      destruct e as [|c r]; [exact N0|]. rewrite (exponent_no_dot _ c r Ex eq_refl), N0, Fe. reflexivity.
    + unfold float_number. rewrite (skip_digits_app i (0x2E :: f ++ e) Di).
      2:{ intros c r E. injection E as <- _. reflexivity. }
      change (0x2E =? 0x2E) with true. cbv iota.
      rewrite (skip_digits_app f e Df).
      2:{ intros c r E. eapply exponent_no_digit; eauto. }
      apply unsigned_app in U. destruct U as [_ U]. inversion U as [|? ? _ U']; subst.
      apply unsigned_app in U'. destruct U' as [_ U'].
      rewrite (proj2 (float_exponent_spec e U') Ex), andb_true_r.
      destruct i; [destruct f; [exfalso; apply Ne; reflexivity|reflexivity]|reflexivity].
Qed.

Lemma f64_ok_spec : forall w, unsigned w -> (f64_ok w = true <-> float_text w).
Proof.
  intros w U. unfold f64_ok. rewrite (drop_sign_unsigned w U).
  rewrite !orb_true_iff, !str_eqb_eq, (float_number_spec w U). split.
  - intros [[[E|E]|E]|[(i & e & -> & A & B & C)|(i & f & e & -> & A & B & C & D)]].
    + apply ft_name. cbn [In]. auto.
    + apply ft_name. cbn [In]. auto.
    + apply ft_name. cbn [In]. auto.
    + apply ft_integer; assumption.
    + apply ft_point; assumption.
  - intros [i e A B C|i f e A B C D|s H].
    + right. left. exists i, e. auto.
    + right. right. exists i, f, e. auto.
    + left. cbn [In] in H. destruct H as [H|[H|[H|[]]]]; auto.
Qed.

(** ** The classification *)

Lemma keyword_not_number : forall k, ~ small_integer (keyword_show k) /\ ~ float_text (keyword_show k).
Proof.
  intro k.
  assert (U : unsigned (keyword_show k)).
  { destruct k; repeat constructor; discriminate. }
  split.
  - apply u64_none; [eapply Forall_impl; [|exact U]; intros c [A _]; exact A|]. destruct k; reflexivity.
  - rewrite <- (f64_ok_spec _ U). destruct k; discriminate.
Qed.

Theorem word_token_classified : forall w t, unsigned w -> (word_token w = t <-> classified w t).
Proof.
  intros w t U.
  assert (F : Forall (fun c => c <> 0x2B) w) by (eapply Forall_impl; [|exact U]; intros c [A _]; exact A).
  unfold word_token. split.
  - intros <-. destruct (keyword_of w) as [k|] eqn:K.
    + apply cl_keyword. now apply keyword_of_sound.
    + destruct (u64_of w) as [n|] eqn:N.
      * apply u64_of_spec in N; [|exact F]. destruct N as [S ->]. now apply cl_number.
      * apply u64_none in N; [|exact F]. destruct (f64_ok w) eqn:Fo.
        -- apply cl_float; [exact N|]. now apply f64_ok_spec.
        -- apply cl_other; [|exact N|].
           ++ intros k ->. rewrite keyword_of_show in K. discriminate.
           ++ rewrite <- (f64_ok_spec w U), Fo. discriminate.
  - assert (NK : (small_integer w \/ float_text w \/ (forall k, w <> keyword_show k)) -> keyword_of w = None).
    { intro H. destruct (keyword_of w) as [k|] eqn:K; [|reflexivity]. apply keyword_of_sound in K. subst w.
      destruct (keyword_not_number k). destruct H as [H|[H|H]]; [contradiction|contradiction|]. specialize (H k). congruence. }
    intros [k ->|S|S Ft|K S Ft].
    + rewrite keyword_of_show. reflexivity.
    + rewrite NK by auto. rewrite (proj2 (u64_of_spec w (value w) F)) by auto. reflexivity.
    + rewrite NK by auto. rewrite (proj2 (u64_none w F) S), (proj2 (f64_ok_spec w U) Ft). reflexivity.
    + rewrite NK by auto. rewrite (proj2 (u64_none w F) S).
      destruct (f64_ok w) eqn:Fo; [apply (f64_ok_spec w U) in Fo; contradiction|reflexivity].
Qed.

(** ** Printing numbers *)

Lemma uint_show_nzhead : forall d, exists z, uint_show d = z ++ uint_show (Decimal.nzhead d)
  /\ Forall (fun c => c = 0x30) z.
Proof.
  induction d as [|d IH|d IH|d IH|d IH|d IH|d IH|d IH|d IH|d IH|d IH];
    try (exists []; split; [reflexivity|constructor]).
  destruct IH as (z & E & F). exists (0x30 :: z). split; [cbn; rewrite E; reflexivity|]. constructor; auto.
Qed.

(** A decimal integer is printed without its leading zeros. *)
Lemma number_show_value : forall w, w <> [] -> digits w ->
  exists z, w = z ++ number_show (value w) /\ Forall (fun c => c = 0x30) z.
Proof.
  intros w Ne D. destruct (uint_of_complete w D) as (d & U). destruct (uint_of_sound _ _ U) as [E _].
  assert (V : value w = N.of_uint d) by (rewrite of_uint_val, E; reflexivity).
  unfold number_show. rewrite V, DecimalN.Unsigned.to_of.
  destruct (uint_show_nzhead d) as (z & Ez & Fz). rewrite E in Ez.
  unfold Decimal.unorm. destruct (Decimal.nzhead d) eqn:Nz; cbn [uint_show] in Ez |- *; try (exists z; split; assumption).
  (* all zeros *)
  rewrite app_nil_r in Ez. subst z.
  destruct (@exists_last _ w Ne) as (y & c & ->). apply Forall_app in Fz. destruct Fz as [Fy Fc].
  inversion Fc; subst. exists y. auto.
Qed.

Lemma number_show_digits : forall n, digits (number_show n) /\ value (number_show n) = n /\ number_show n <> [].
Proof.
  intro n. unfold number_show.
  assert (D : forall d, digits (uint_show d)).
  { induction d; cbn [uint_show]; constructor; try assumption; lia. }
  split; [apply D|]. split.
  - change (value (uint_show (N.to_uint n))) with (val_from 0 (uint_show (N.to_uint n))).
    rewrite <- of_uint_val. apply DecimalN.Unsigned.of_to.
  - intro E. assert (X : N.to_uint n = Decimal.Nil) by (destruct (N.to_uint n); [reflexivity|discriminate..]).
    destruct n as [|p]; [discriminate|]. cbn in X. revert X.
    unfold Pos.to_uint. intro X.
    assert (Y : N.of_uint (N.to_uint (Npos p)) = Npos p) by apply DecimalN.Unsigned.of_to.
    cbn in Y. unfold Pos.to_uint in Y. rewrite X in Y. discriminate.
Qed.
