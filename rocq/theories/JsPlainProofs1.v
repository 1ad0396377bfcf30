(** How the tokenizer reads and the printer prints the tokens of plain programs. *)
From Coq Require Import String List NArith ZArith Bool Lia ZifyBool ZifyN Arith.
From Verif Require Import Base JsModel JsUtilModel JsUtilSpec JsUtilProofs JsUtilProofs2 JsLexSpec
  JsLexProofs1 JsLexProofs2 JsLexProofs3 JsWords JsLexProofs4 JsLexProofs6 JsRoundSpec JsRoundProofs1 JsRoundProofs2 JsRoundProofs3 JsLayoutSpec
  JsLayoutProofs EsSpec EsProofs1 JsPlainSpec.
Import ListNotations.
Open Scope N_scope.

Lemma kind_eqb_eq : forall a b, kind_eqb a b = true <-> a = b.
Proof. intros a b. split; [destruct a; destruct b; (reflexivity || discriminate)|intros ->; destruct b; reflexivity]. Qed.

Lemma is_text_in : forall l t, is_text l t = true <-> In t (map S_ l).
Proof.
  intros l t. unfold is_text. rewrite existsb_exists. split.
  - intros (x & I & E). apply str_eqb_eq in E. subst x. exact I.
  - intro I. exists t. split; [exact I|apply str_eqb_refl].
Qed.

Lemma word_char_iff : forall c, word_char c = negb (existsb (N.eqb c)
  [44; 40; 41; 123; 125; 91; 93; 58; 59; 46; 39; 33; 63; 47; 37; 42; 45; 43; 61; 92; 32; 60; 62; 124; 38; 96; 34; 9; 10; 13]).
Proof. intro c. reflexivity. Qed.

Lemma id_start_first : forall su pu c, id_start su c = true -> id_part su pu c = true /\ is_digit c = false /\ c <> 0x2E.
Proof.
  intros su pu c H. split; [unfold id_part; rewrite H; reflexivity|]. unfold id_start in H.
  change (S_ "$_") with [36; 95] in H. unfold one_of, letter, is_digit in *. cbn [existsb] in H.
  destruct (N.ltb_spec c 128) as [L|L]; [|split; [lia|lia]].
  destruct (0x80 <=? c) eqn:E; [lia|]. cbn [andb] in H. split; lia.
Qed.

Lemma id_part_word : forall su pu c, id_part su pu c = true -> word_char c = true.
Proof.
  intros su pu c H. rewrite word_char_iff. unfold id_part, id_start in H. change (S_ "$_") with [36; 95] in H. unfold one_of, letter, digit in *. cbn [existsb] in *.
  destruct (N.ltb_spec c 128) as [L|L]; [|lia]. destruct (0x80 <=? c) eqn:E; [lia|]. cbn [andb] in H. lia.
Qed.

Section P.
Variables start_u part_u : N -> bool.
Notation id_start := (id_start start_u).
Notation id_part := (id_part start_u part_u).
Notation scan := (EsSpec.scan start_u part_u).
Notation take_name := (take_name start_u part_u).
Notation runs_on := (EsSpec.runs_on start_u part_u).
Notation alone := (alone start_u part_u).
Notation plain_piece := (plain_piece start_u part_u).
Notation direct_ok := (direct_ok start_u part_u).
Notation plain := (JsPlainSpec.plain start_u part_u).

(** ** What an engine has read *)

Lemma take_while_all : forall f s, forallb f (fst (take_while f s)) = true.
Proof. intros f. induction s as [|c s IH]; [reflexivity|]. cbn [take_while]. destruct (f c) eqn:E; [|reflexivity]. cbn [fst forallb]. rewrite E. exact IH. Qed.

Definition shape (re sub : bool) (s : str) (e : element) (r : str) : Prop :=
  exists c s', s = c :: s' /\
  match fst e with
  | Name => id_start c = true /\ snd e = fst (take_name s) /\ r = snd (take_name s)
  | Private => c = 0x23 /\ snd e = c :: fst (take_name s') /\ r = snd (take_name s')
  | Number => digit c = true \/ c = 0x2E
  | Text => (c = 0x22 \/ c = 0x27) /\ exists a, take_string c s' = Some (a, r) /\ snd e = c :: a
  | Template => (c = 0x60 \/ sub = true) /\ exists a, take_template s' = Some (a, r) /\ snd e = c :: a
  | Regex => c = 0x2F /\ re = true /\ starts (one_of (S_ "/*")) s' = false
      /\ exists b x, take_regex false s' = Some (b, x) /\ snd e = 0x2F :: b ++ fst (take_name x) /\ r = snd (take_name x)
  | Punct => is_punct (snd e) = true /\ (starts (N.eqb 0x2F) (snd e) = true -> re = false)
  | _ => True
  end.

Lemma scan_shape : forall re sub s e r, scan re sub s = Some (e, r) -> shape re sub s e r.
Proof.
  intros re sub s e r H. destruct s as [|c s]; [discriminate H|]. exists c, s. split; [reflexivity|]. cbn [EsSpec.scan] in H.
  destruct (white c || line_end c); [injection H as <- <-; exact I|].
  destruct (c =? 0x2F) eqn:C2.
  { apply N.eqb_eq in C2. subst c. unfold scan_slash in H. destruct s as [|d s].
    - destruct re; [discriminate H|]. injection H as <- <-. cbn [fst snd]. split; reflexivity.
    - destruct (d =? 0x2F) eqn:D1; [injection H as <- <-; exact I|]. destruct (d =? 0x2A) eqn:D2.
      + destruct (take_comment s); [|discriminate H]. injection H as <- <-. exact I.
      + destruct re.
        * destruct (take_regex false (d :: s)) as [[b x]|] eqn:T; [|discriminate H].
          match goal with H : (if ?b then _ else _) = _ |- _ => destruct b; [|discriminate H] end. injection H as <- <-. cbn [fst snd].
          split; [reflexivity|]. split; [reflexivity|]. split.
          { cbn [starts]. unfold one_of. change (S_ "/*") with [0x2F; 0x2A]. cbn [existsb]. rewrite D1, D2. reflexivity. }
          exists b, x. auto.
        * destruct (d =? 0x3D); injection H as <- <-; cbn [fst snd]; split; reflexivity. }
  destruct (one_of [0x22; 0x27] c) eqn:Q.
  { destruct (take_string c s) as [[a x]|] eqn:T; [|discriminate H]. injection H as <- <-. cbn [fst snd]. split; [unfold one_of in Q; cbn [existsb] in Q; lia|]. eauto. }
  destruct ((c =? 0x60) || (c =? 0x7D) && sub) eqn:B.
  { destruct (take_template s) as [[a x]|] eqn:T; [|discriminate H]. injection H as <- <-. cbn [fst snd]. split; [destruct sub; lia|]. eauto. }
  destruct (c =? 0x23) eqn:P.
  { apply N.eqb_eq in P. destruct (starts id_start s); [|discriminate H]. injection H as <- <-. cbn [fst snd]. auto. }
  destruct (digit c || (c =? 0x2E) && starts digit s) eqn:D.
  { unfold scan_number in H. destruct (take_number (c :: s)) as [[a x]|]; [|discriminate H].
    match goal with H : (if ?b then _ else _) = _ |- _ => destruct b; [discriminate H|] end. injection H as <- <-. cbn [fst snd]. lia. }
  destruct (id_start c) eqn:I.
  { injection H as <- <-. cbn [fst snd]. auto. }
  destruct (take_punct 4 (c :: s)) as [[p x]|] eqn:T; [|discriminate H]. injection H as <- <-. cbn [fst snd].
  destruct (take_punct_spec _ _ _ _ T) as (m & M4 & M0 & A & -> & -> & _). unfold punct_at in A. split.
  - destruct (is_punct (firstn m (c :: s))); [reflexivity|discriminate A].
  - destruct m as [|m]; [lia|]. cbn [firstn starts]. rewrite N.eqb_sym, C2. discriminate.
Qed.

Lemma alone_scan : forall e, alone e = true -> scan (kind_eqb (fst e) Regex) false (snd e) = Some (e, []).
Proof.
  intros e H. unfold JsPlainSpec.alone in H. destruct (scan (kind_eqb (fst e) Regex) false (snd e)) as [[e' [|x r]]|]; [|discriminate H|discriminate H].
  apply andb_true_iff in H. destruct H as [A B]. apply kind_eqb_eq in A. apply str_eqb_eq in B. destruct e, e'. cbn [fst snd] in *. subst. reflexivity.
Qed.

Lemma piece_alone : forall e, plain_piece e = true -> alone e = true.
Proof. intros e H. unfold JsPlainSpec.plain_piece in H. apply andb_true_iff in H. exact (proj1 H). Qed.

Lemma piece_shape : forall e, plain_piece e = true -> shape (kind_eqb (fst e) Regex) false (snd e) e [].
Proof. intros e H. exact (scan_shape _ _ _ _ _ (alone_scan e (piece_alone e H))). Qed.

Lemma piece_nonempty : forall e, plain_piece e = true -> snd e <> [].
Proof. intros e H. destruct (piece_shape e H) as (c & s & E & _). rewrite E. discriminate. Qed.

(** A token that starts with a digit is a number. *)
Lemma piece_digit : forall e, plain_piece e = true -> starts digit (snd e) = true -> fst e = Number.
Proof.
  intros e H D. destruct (piece_shape e H) as (c & s & E & M). rewrite E in *. cbn [starts] in D. destruct e as [k t]. cbn [fst snd] in *. subst t.
  destruct k; try reflexivity; exfalso.
  1-3: unfold JsPlainSpec.plain_piece in H; cbn [fst] in H; rewrite andb_false_r in H; discriminate.
  - destruct M as (M & _). destruct (id_start_first _ part_u _ M) as (_ & X & _). unfold digit, is_digit in *. lia.
  - destruct M as (-> & _). discriminate.
  - destruct M as (M & _). unfold is_punct in M. apply existsb_exists in M. destruct M as (q & I & Q). apply str_eqb_eq in Q. subst q.
    assert (F : forallb (fun p => negb (starts digit p)) puncts = true) by (vm_compute; reflexivity).
    rewrite forallb_forall in F. specialize (F _ I). cbn [starts] in F. rewrite D in F. discriminate.
  - destruct M as ([->| ->] & _); discriminate.
  - destruct M as ([->|M] & _); discriminate.
  - destruct M as (-> & _). discriminate.
Qed.

(** ** Words *)

Lemma forallb_word : forall t, forallb id_part t = true -> Forall (fun c => word_char c = true) t.
Proof. intros t H. rewrite forallb_forall in H. apply Forall_forall. intros c I. exact (id_part_word _ _ _ (H c I)). Qed.

Lemma not_float : forall t c r, t = c :: r -> is_digit c = false -> c <> 0x2E ->
  is_text ["inf"; "infinity"; "nan"]%string (map lower t) = false -> ~ small_integer t /\ ~ float_text t.
Proof.
  intros t c r E D P M. split.
  - intros (_ & F & _). subst t. inversion F; subst. unfold is_digit in D. lia.
  - intro F. destruct F as [i e Ni Di X|i f e Ne Di Df X|s I].
    + destruct i as [|d i]; [congruence|]. injection E as -> _. inversion Di; subst. unfold is_digit in D. lia.
    + destruct i as [|d i]; [injection E as <- _; congruence|]. injection E as -> _. inversion Di; subst. unfold is_digit in D. lia.
    + change (map lower s) with (map ascii_lower s) in M.
      assert (T : is_text ["inf"; "infinity"; "nan"]%string (map ascii_lower s) = true) by (apply is_text_in; exact I). congruence.
Qed.

(** The token of a word of letters, or of a number. *)
Definition named_token (t : str) (k : token) : Prop :=
  (exists w, k = TKeyword w /\ t = keyword_show w) \/ (k = TOther t /\ forall w, t <> keyword_show w).
Definition number_token (t : str) (k : token) : Prop :=
  (exists n, k = TNumber n /\ number_show n = t) \/ k = TFloatingNumber t.

Lemma word_named : forall t, unsigned t -> ~ small_integer t -> ~ float_text t -> named_token t (word_token t).
Proof.
  intros t U A B. pose proof (proj1 (word_token_classified t _ U) eq_refl) as C. remember (word_token t) as k eqn:K. clear K.
  destruct C as [w E|S|S F|K S F]; [left; eauto|contradiction|contradiction|right; auto].
Qed.

Lemma take_while_split : forall f s i r, take_while f s = (i, r) -> s = i ++ r /\ forallb f i = true.
Proof. intros f s i r H. pose proof (take_while_text f s) as A. pose proof (take_while_all f s) as B. rewrite H in A, B. auto. Qed.

Lemma decimal_cases : forall t, decimal t = true -> exists i, forallb digit i = true
  /\ ((t = i /\ i <> []) \/ exists f, t = i ++ 0x2E :: f /\ f <> [] /\ forallb digit f = true).
Proof.
  intros t H. unfold decimal in H. destruct (take_while digit t) as [i r] eqn:T. destruct (take_while_split _ _ _ _ T) as [E F]. cbn [snd] in H.
  exists i. split; [exact F|]. destruct r as [|c f].
  - rewrite app_nil_r in E. left. split; [exact E|]. subst t. destruct i; [discriminate H|discriminate].
  - right. apply andb_true_iff in H. destruct H as [C G]. apply N.eqb_eq in C. subst c. exists f. destruct f; [discriminate G|]. split; [exact E|]. split; [discriminate|exact G].
Qed.

Lemma forallb_digits : forall i, forallb digit i = true -> digits i.
Proof. intros i H. rewrite forallb_forall in H. apply Forall_forall. intros c I. specialize (H c I). unfold digit in H. lia. Qed.

Lemma digits_word : forall i, digits i -> Forall (fun c => word_char c = true) i.
Proof. intros i H. eapply Forall_impl; [|exact H]. cbv beta. intros c D. rewrite word_char_iff. cbn [existsb]. lia. Qed.

(** A plain number has no superfluous zero at its beginning. *)
Lemma take_digits_all : forall i, forallb digit i = true -> take_digits digit i = (i, []).
Proof. induction i as [|c i IH]; intro H; [reflexivity|]. cbn [forallb] in H. apply andb_true_iff in H. destruct H as [A B]. cbn [take_digits]. rewrite A, (IH B). reflexivity. Qed.

Lemma integer_zero : forall e, plain_piece e = true -> fst e = Number -> forallb digit (snd e) = true ->
  starts (N.eqb 0x30) (snd e) = true -> length (snd e) = 1%nat.
Proof.
  intros [k t] H K F Z. cbn [fst snd] in *. subst k. pose proof (alone_scan _ (piece_alone _ H)) as S. cbn [fst snd kind_eqb] in S.
  destruct t as [|c t]; [discriminate Z|]. cbn [starts] in Z. apply N.eqb_eq in Z. subst c. cbn [EsSpec.scan] in S.
  change (white 0x30 || line_end 0x30) with false in S. change (0x30 =? 0x2F) with false in S. change (one_of [0x22; 0x27] 0x30) with false in S.
  change ((0x30 =? 0x60) || (0x30 =? 0x7D) && false) with false in S. change (0x30 =? 0x23) with false in S. change (digit 0x30) with true in S. cbn [orb] in S.
  cbv iota in S. unfold scan_number in S.
  assert (T : take_number (0x30 :: t) = take_decimal (0x30 :: t)).
  { destruct t as [|x t]; [reflexivity|]. cbn [take_number]. change (0x30 =? 0x30) with true. cbv iota. cbn [forallb] in F.
    assert (R : radix x = None); [|rewrite R; reflexivity].
    assert (D : digit x = true) by (destruct (digit x); [reflexivity|rewrite andb_false_r in F; discriminate]).
    unfold radix, one_of. change (S_ "xX") with [120; 88]. change (S_ "oO") with [111; 79]. change (S_ "bB") with [98; 66]. cbn [existsb]. unfold digit in D.
    repeat match goal with |- context [x =? ?n] => replace (x =? n) with false by lia end. reflexivity. }
  rewrite T in S. unfold take_decimal in S. change (starts (N.eqb 0x2E) (0x30 :: t)) with false in S. cbv iota in S. rewrite (take_digits_all _ F) in S.
  match type of S with context [negb ?b] => destruct b eqn:L; [apply Nat.eqb_eq in L; exact L|] end. cbn [starts] in S. change (0x30 =? 0x30) with true in S. cbn [negb andb] in S. discriminate S.
Qed.

Lemma zeros_none : forall z r, Forall (fun c => c = 0x30) z -> r <> [] ->
  (starts (N.eqb 0x30) (z ++ r) = true -> length (z ++ r) = 1%nat) -> z = [].
Proof.
  intros z r F Ne H. destruct z as [|c z]; [reflexivity|]. inversion F; subst. specialize (H eq_refl). cbn [app length] in H. rewrite app_length in H.
  destruct r; [congruence|]. cbn [length] in H. lia.
Qed.

Lemma decimal_token : forall e, plain_piece e = true -> fst e = Number -> decimal (snd e) = true -> number_token (snd e) (word_token (snd e)).
Proof.
  intros e H K D. destruct (decimal_cases _ D) as (i & Fi & [[E Ne]|(f & E & Nf & Ff)]).
  - assert (Di : digits (snd e)) by (rewrite E; apply forallb_digits; exact Fi).
    assert (U : unsigned (snd e)) by (eapply Forall_impl; [|exact Di]; cbv beta; intros; lia).
    assert (Nn : snd e <> []) by (rewrite E; exact Ne).
    pose proof (proj1 (word_token_classified _ _ U) eq_refl) as C. remember (word_token (snd e)) as k eqn:Q. clear Q.
    destruct C as [w W|S|S F|W S F].
    + exfalso. destruct (keyword_not_number w) as [_ X]. rewrite <- W in X. apply X. rewrite <- (app_nil_r (snd e)). apply ft_integer; [exact Nn|exact Di|constructor].
    + left. exists (value (snd e)). split; [reflexivity|]. destruct (number_show_value _ Nn Di) as (z & Z & Fz).
      destruct (number_show_digits (value (snd e))) as (_ & _ & Nv).
      assert (Z0 : z = []).
      { apply (zeros_none z (number_show (value (snd e))) Fz Nv). rewrite <- Z. apply integer_zero; [exact H|exact K|rewrite E; exact Fi]. }
      subst z. symmetry. exact Z.
    + right. reflexivity.
    + exfalso. apply F. rewrite <- (app_nil_r (snd e)). apply ft_integer; [exact Nn|exact Di|constructor].
  - right. apply forallb_digits in Fi, Ff.
    assert (U : unsigned (snd e)).
    { rewrite E. apply Forall_app. split; [eapply Forall_impl; [|exact Fi]; cbv beta; intros; lia|]. constructor; [split; discriminate|]. eapply Forall_impl; [|exact Ff]; cbv beta; intros; lia. }
    apply word_token_classified; [exact U|]. apply cl_float.
    + intros (_ & X & _). rewrite E in X. apply Forall_app in X. destruct X as [_ X]. inversion X; subst. lia.
    + rewrite E, <- (app_nil_r f). apply ft_point; [|exact Fi|exact Ff|constructor]. destruct i; [|discriminate]. exact Nf.
Qed.

Lemma radixed_chars : forall t, radixed t = true -> exists x r, t = 0x30 :: x :: r /\ (letter x = true /\ ascii_lower x <> 0x65)
  /\ forallb (fun d => letter d || digit d || (d =? 0x5F)) r = true.
Proof.
  intros [|c [|x r]] H; [discriminate H|discriminate H|]. cbn [radixed] in H. apply andb_true_iff in H. destruct H as [H F]. apply andb_true_iff in H. destruct H as [C R].
  apply N.eqb_eq in C. subst c. exists x, r. split; [reflexivity|]. split; [|exact F].
  rewrite lower_e. unfold radix in R. unfold one_of, letter in *. change (S_ "xX") with [120; 88] in R. change (S_ "oO") with [111; 79] in R. change (S_ "bB") with [98; 66] in R. cbn [existsb] in R.
  destruct ((x =? 120) || ((x =? 88) || false)) eqn:A; [lia|]. destruct ((x =? 111) || ((x =? 79) || false)) eqn:B; [lia|]. destruct ((x =? 98) || ((x =? 66) || false)) eqn:D; [lia|discriminate R].
Qed.

Lemma radixed_word : forall t, radixed t = true -> Forall (fun c => word_char c = true) t.
Proof.
  intros t H. destruct (radixed_chars t H) as (x & r & -> & (X & _) & F). constructor; [reflexivity|]. constructor.
  - rewrite word_char_iff. unfold letter in X. cbn [existsb]. lia.
  - apply Forall_forall. intros d I. rewrite forallb_forall in F. specialize (F d I). rewrite word_char_iff. unfold letter, digit in F. cbn [existsb]. lia.
Qed.

Lemma word_unsigned : forall t, Forall (fun c => word_char c = true) t -> unsigned t.
Proof. intros t H. eapply Forall_impl; [|exact H]. cbv beta. intros c C. split; intros ->; discriminate. Qed.

Lemma radixed_token : forall t, radixed t = true -> named_token t (word_token t).
Proof.
  intros t H. pose proof (word_unsigned _ (radixed_word t H)) as W.
  destruct (radixed_chars t H) as (x & r & E & (X & Y) & F).
  assert (Dx : is_digit x = false) by (unfold letter, is_digit in *; lia).
  assert (Px : x <> 0x2E) by (unfold letter in X; lia).
  apply word_named; [exact W| |].
  - intros (_ & D & _). subst t. inversion D as [|? ? _ D2]; subst. inversion D2; subst. unfold letter in X. lia.
  - rewrite <- (f64_ok_spec t W). subst t. unfold f64_ok. cbn [drop_sign]. change ((0x30 =? 0x2B) || (0x30 =? 0x2D)) with false. cbv iota. cbn [map].
    change (ascii_lower 0x30) with 0x30. change (S_ "inf") with [105; 110; 102]. change (S_ "infinity") with [105; 110; 102; 105; 110; 105; 116; 121]. change (S_ "nan") with [110; 97; 110].
    cbn [str_eqb orb]. change (0x30 =? 105) with false. change (0x30 =? 110) with false. cbn [andb orb].
    unfold float_number. cbn [skip_digits]. change (is_digit 0x30) with true. cbv iota. rewrite Dx. cbv iota beta.
    apply N.eqb_neq in Px. rewrite Px. cbn [float_exponent]. apply N.eqb_neq in Y. rewrite Y. rewrite andb_false_r. discriminate.
Qed.

Lemma name_chars : forall e, plain_piece e = true -> fst e = Name -> exists c r, snd e = c :: r /\ id_start c = true /\ forallb id_part (snd e) = true.
Proof.
  intros e H K. destruct (piece_shape e H) as (c & s & E & M). rewrite K in M. destruct M as (A & B & _).
  exists c, s. split; [exact E|]. split; [exact A|]. rewrite B. apply take_while_all.
Qed.

Lemma private_chars : forall e, plain_piece e = true -> fst e = Private -> exists r, snd e = 0x23 :: r /\ forallb id_part r = true.
Proof.
  intros e H K. destruct (piece_shape e H) as (c & s & E & M). rewrite K in M. destruct M as (A & B & _). subst c.
  exists (fst (take_name s)). split; [exact B|]. apply take_while_all.
Qed.

Lemma name_token : forall e, plain_piece e = true -> fst e = Name -> named_token (snd e) (word_token (snd e)).
Proof.
  intros e H K. destruct (name_chars e H K) as (c & r & E & A & F).
  assert (M : is_text ["inf"; "infinity"; "nan"]%string (map lower (snd e)) = false).
  { unfold JsPlainSpec.plain_piece in H. rewrite K in H. apply andb_true_iff in H. destruct H as [_ H]. apply negb_true_iff in H. exact H. }
  destruct (id_start_first _ part_u _ A) as (_ & D & P). destruct (not_float _ _ _ E D P M) as [X Y].
  apply word_named; [apply word_unsigned, forallb_word; exact F|exact X|exact Y].
Qed.

Lemma private_token : forall e, plain_piece e = true -> fst e = Private -> named_token (snd e) (word_token (snd e)).
Proof.
  intros e H K. destruct (private_chars e H K) as (r & E & F).
  assert (M : is_text ["inf"; "infinity"; "nan"]%string (map lower (snd e)) = false).
  { destruct (is_text _ (map lower (snd e))) eqn:T; [|reflexivity]. apply is_text_in in T. rewrite E in T. cbn in T. destruct T as [T|[T|[T|[]]]]; discriminate. }
  destruct (not_float _ _ _ E eq_refl ltac:(discriminate) M) as [X Y].
  apply word_named; [|exact X|exact Y]. apply word_unsigned. rewrite E. constructor; [reflexivity|]. apply forallb_word. exact F.
Qed.

(** Reading a word. *)
Lemma reads_word : forall t v w s, Forall (fun c => word_char c = true) t -> reads v w (t ++ s) v (w ++ t) s.
Proof.
  induction t as [|c t IH]; intros v w s F; [rewrite app_nil_r; constructor|]. inversion F; subst. cbn [app].
  eapply reads_more; [apply rd_word; assumption|]. replace (w ++ c :: t) with ((w ++ [c]) ++ t) by (rewrite <- app_assoc; reflexivity). apply IH. assumption.
Qed.

Lemma reads_piece_word : forall e v s, plain_piece e = true -> word e = true -> reads v [] (snd e ++ s) v (snd e) s.
Proof.
  intros e v s H K. unfold word in K. destruct (fst e) eqn:Q; try discriminate K.
  - destruct (name_chars e H Q) as (c & r & E & _ & F). exact (reads_word _ v [] s (forallb_word _ F)).
  - destruct (private_chars e H Q) as (r & E & F). apply (reads_word _ v [] s). rewrite E. constructor; [reflexivity|apply forallb_word; exact F].
  - assert (D : decimal (snd e) || radixed (snd e) = true).
    { unfold JsPlainSpec.plain_piece in H. rewrite Q in H. apply andb_true_iff in H. exact (proj2 H). }
    apply orb_true_iff in D. destruct D as [D|D]; [|exact (reads_word _ v [] s (radixed_word _ D))].
    destruct (decimal_cases _ D) as (i & Fi & [[E Ne]|(f & E & Nf & Ff)]); rewrite E.
    + exact (reads_word _ v [] s (digits_word _ (forallb_digits _ Fi))).
    + rewrite <- app_assoc. eapply reads_trans; [exact (reads_word _ v [] _ (digits_word _ (forallb_digits _ Fi)))|]. cbn [app].
      eapply reads_more.
      * apply rd_word_dot. unfold dot_joins. destruct f as [|d f]; [congruence|]. cbn [app forallb] in *. apply andb_true_iff in Ff. destruct Ff as [Fd _].
        replace (is_digit d) with true by (unfold is_digit, digit in *; lia). rewrite orb_true_l, andb_true_r. apply negb_true_iff.
        destruct (mem_char 0x2E i) eqn:M; [|reflexivity]. unfold mem_char in M. apply existsb_exists in M. destruct M as (x & I & X). apply N.eqb_eq in X. subst x.
        rewrite forallb_forall in Fi. specialize (Fi _ I). discriminate Fi.
      * replace (i ++ 0x2E :: f) with ((i ++ [0x2E]) ++ f) by (rewrite <- app_assoc; reflexivity). apply reads_word. apply digits_word, forallb_digits. exact Ff.
Qed.

(** ** Literals *)

Lemma string_taken : forall q n x a r, (q = 0x22 \/ q = 0x27) -> (length x <= n)%nat -> take_string q x = Some (a, r) ->
  exists b, a = b ++ [q] /\ string_body q b.
Proof.
  intros q n. induction n as [|n IH]; intros x a r Q L H; (destruct x as [|c x]; [discriminate H|]); cbn [length] in L; [lia|].
  cbn [take_string] in H. destruct (c =? q) eqn:C.
  { injection H as <- <-. apply N.eqb_eq in C. subst c. exists []. split; [reflexivity|constructor]. }
  destruct ((c =? 0xA) || (c =? 0xD)); [discriminate H|]. destruct (c =? 0x5C) eqn:B.
  - apply N.eqb_eq in B. subst c. destruct x as [|d x]; [discriminate H|]. destruct x as [|e x]; [discriminate H|]. cbn [length] in L.
    destruct ((d =? 0xD) && (e =? 0xA)) eqn:W; apply add_some in H; destruct H as (a' & H & ->).
    + destruct (IH x a' r Q ltac:(lia) H) as (b & -> & S).
      exists (0x5C :: d :: e :: b). split; [reflexivity|]. apply sb_escape. apply sb_char; [lia|lia|exact S].
    + destruct (IH (e :: x) a' r Q ltac:(cbn [length]; lia) H) as (b & -> & S). exists (0x5C :: d :: b). split; [reflexivity|]. apply sb_escape. exact S.
  - apply add_some in H. destruct H as (a' & H & ->). destruct (IH x a' r Q ltac:(lia) H) as (b & -> & S).
    exists (c :: b). split; [reflexivity|]. apply sb_char; [lia|lia|exact S].
Qed.

Lemma template_taken : forall n x a r, (length x <= n)%nat -> take_template x = Some (a, r) ->
  x = a ++ r /\ ((exists b, a = b ++ [0x60] /\ template_body 0 b) \/ exists b, a = b ++ [0x24; 0x7B]).
Proof.
  intros n. induction n as [|n IH]; intros x a r L H; (destruct x as [|c x]; [discriminate H|]); cbn [length] in L; [lia|].
  cbn [take_template] in H. destruct (c =? 0x60) eqn:C.
  { injection H as <- <-. apply N.eqb_eq in C. subst c. split; [reflexivity|]. left. exists []. split; [reflexivity|constructor]. }
  destruct (c =? 0x5C) eqn:B.
  { apply N.eqb_eq in B. subst c. destruct x as [|d x]; [discriminate H|]. cbn [length] in L. apply add_some in H. destruct H as (a' & H & ->).
    destruct (IH x a' r ltac:(lia) H) as (-> & [(b & -> & S)|(b & ->)]); (split; [reflexivity|]).
    - left. exists (0x5C :: d :: b). split; [reflexivity|]. apply tb_escape. exact S.
    - right. exists (0x5C :: d :: b). reflexivity. }
  destruct ((c =? 0x24) && starts (N.eqb 0x7B) x) eqn:D.
  { apply andb_true_iff in D. destruct D as [D1 D2]. apply N.eqb_eq in D1. subst c. destruct x as [|d x]; [discriminate D2|]. cbn [starts] in D2. apply N.eqb_eq in D2. subst d.
    injection H as <- <-. split; [reflexivity|]. right. exists []. reflexivity. }
  apply add_some in H. destruct H as (a' & H & ->). destruct (IH x a' r ltac:(lia) H) as (E & [(b & -> & S)|(b & ->)]); (split; [rewrite E; reflexivity|]).
  - left. exists (c :: b). split; [reflexivity|]. destruct (N.eq_dec c 0x24) as [->|N].
    + apply tb_dollar; [|exact S]. intro Hb. destruct b as [|d b]; [discriminate Hb|]. injection Hb as ->. subst x. discriminate D.
    + apply tb_char; [lia|lia|exact N|exact S].
  - right. exists (c :: b). reflexivity.
Qed.

Lemma text_chars : forall e, plain_piece e = true -> fst e = Text -> exists q b, snd e = q :: b ++ [q] /\ (q = 0x22 \/ q = 0x27) /\ string_body q b.
Proof.
  intros e H K. destruct (piece_shape e H) as (c & s & E & M). rewrite K in M. destruct M as (Q & a & T & S).
  destruct (string_taken c (length s) s a [] Q (le_n _) T) as (b & -> & B). exists c, b. auto.
Qed.

Lemma template_chars : forall e, plain_piece e = true -> fst e = Template -> exists b, snd e = 0x60 :: b ++ [0x60] /\ template_body 0 b.
Proof.
  intros e H K. destruct (piece_shape e H) as (c & s & E & M). rewrite K in M. destruct M as ([Q|Q] & a & T & S); [|discriminate Q]. subst c.
  destruct (template_taken (length s) s a [] (le_n _) T) as (_ & [(b & -> & B)|(b & ->)]); [exists b; auto|].
  exfalso. unfold JsPlainSpec.plain_piece in H. rewrite K, S in H. apply andb_true_iff in H. destruct H as [_ H]. unfold opens_sub in H.
  change (0x60 :: b ++ [0x24; 0x7B]) with ((0x60 :: b) ++ [0x24; 0x7B]) in H. rewrite rev_app_distr in H. discriminate H.
Qed.

Lemma regex_taken : forall n cls x b r, (length x <= n)%nat -> take_regex cls x = Some (b, r) ->
  x = b ++ r /\ exists b', b = b' ++ [0x2F] /\ Forall (fun c => line_end c = false) b'.
Proof.
  induction n as [|n IH]; intros cls x b r L H; (destruct x as [|c x]; [discriminate H|]); cbn [length] in L; [lia|].
  cbn [take_regex] in H. destruct (line_end c) eqn:E; [discriminate H|]. destruct (c =? 0x5C) eqn:B.
  { destruct x as [|d x]; [discriminate H|]. cbn [length] in L. destruct (line_end d) eqn:D; [discriminate H|]. apply add_some in H. destruct H as (a' & H & ->).
    destruct (IH cls x a' r ltac:(lia) H) as (-> & b' & -> & F). split; [reflexivity|]. exists (c :: d :: b'). split; [reflexivity|]. auto. }
  destruct cls.
  { apply add_some in H. destruct H as (a' & H & ->). destruct (IH _ x a' r ltac:(lia) H) as (-> & b' & -> & F). split; [reflexivity|]. exists (c :: b'). split; [reflexivity|]. auto. }
  destruct (c =? 0x2F) eqn:S.
  { injection H as <- <-. apply N.eqb_eq in S. subst c. split; [reflexivity|]. exists []. auto. }
  apply add_some in H. destruct H as (a' & H & ->). destruct (IH _ x a' r ltac:(lia) H) as (-> & b' & -> & F). split; [reflexivity|]. exists (c :: b'). split; [reflexivity|]. auto.
Qed.

Lemma id_part_line : forall c, id_part c = true -> line_end c = false.
Proof.
  intros c H. unfold EsSpec.id_part, EsSpec.id_start in H. change (S_ "$_") with [36; 95] in H. unfold one_of, letter, digit in H. cbn [existsb] in H.
  destruct (line_end c) eqn:L; [|reflexivity]. rewrite orb_true_r, andb_false_r, andb_false_r in H. unfold line_end in L. lia.
Qed.

Lemma behind_slash_body : forall n s f, (length s <= n)%nat -> behind_slash s = Some f -> exists b, s = b ++ 0x2F :: f
  /\ (Forall (fun c => line_end c = false) b -> regex_body b).
Proof.
  induction n as [|n IH]; intros s f L H; (destruct s as [|c s]; [discriminate H|]); cbn [length] in L; [lia|].
  cbn [behind_slash] in H. destruct (c =? 0x2F) eqn:S.
  { injection H as <-. apply N.eqb_eq in S. subst c. exists []. split; [reflexivity|]. constructor. }
  destruct (c =? 0x5C) eqn:B.
  - apply N.eqb_eq in B. subst c. destruct s as [|d s]; [discriminate H|]. cbn [length] in L. destruct (IH s f ltac:(lia) H) as (b & -> & R).
    exists (0x5C :: d :: b). split; [reflexivity|]. intro F. inversion F as [|? ? _ F2]; subst. inversion F2; subst. apply rb_escape. auto.
  - destruct (IH s f ltac:(lia) H) as (b & -> & R). exists (c :: b). split; [reflexivity|]. intro F. inversion F; subst.
    apply rb_char; [lia|lia|unfold line_end, newline in *; lia|auto].
Qed.

(** The flags of a regular expression, and what is printed for them. *)
Lemma regex_chars : forall e, plain_piece e = true -> fst e = Regex -> exists b f,
  snd e = 0x2F :: b ++ 0x2F :: f /\ regex_body b /\ (exists c, hd_error b = Some c /\ mem_char c (S_ "/*") = false)
  /\ Forall (fun c => flag c = true) f /\ token_show (TRegex b (mem_char 0x67 f) (mem_char 0x69 f)) = snd e.
Proof.
  intros e H K. destruct (piece_shape e H) as (c & s & E & M). rewrite K in M. destruct M as (-> & _ & Hs & b0 & x & T & S & Z).
  assert (P : plain_regex (snd e) = true).
  { unfold JsPlainSpec.plain_piece in H. rewrite K in H. apply andb_true_iff in H. exact (proj2 H). }
  rewrite E in P. cbn [plain_regex] in P. destruct (behind_slash s) as [f|] eqn:B; [|discriminate P].
  destruct (behind_slash_body (length s) s f (le_n _) B) as (b & Eb & R).
  destruct (regex_taken (length s) false s b0 x (le_n _) T) as (Ex & b' & -> & F). apply is_text_in in P.
  assert (Ff : Forall (fun c => flag c = true) f).
  { cbn in P. destruct P as [<-|[<-|[<-|[<-|[]]]]]; repeat constructor. }
  assert (Ln : forall c, flag c = true -> line_end c = false) by (intros d; unfold flag, line_end; lia).
  assert (Fb : Forall (fun c => line_end c = false) b).
  { (* all of s but perhaps its flags is on one line *)
    assert (Fs : Forall (fun c => line_end c = false) s).
    { rewrite Ex. apply Forall_app. split; [apply Forall_app; split; [exact F|repeat constructor]|].
      rewrite E, Ex, <- !app_assoc in S. injection S as S. apply app_inv_head in S. injection S as S. rewrite S.
      apply Forall_forall. intros d I. pose proof (take_while_all id_part x) as A. rewrite forallb_forall in A. specialize (A d I).
      exact (id_part_line _ A). }
    rewrite Eb in Fs. apply Forall_app in Fs. exact (proj1 Fs). }
  exists b, f. split; [rewrite E, Eb; reflexivity|]. split; [exact (R Fb)|]. split; [|split; [exact Ff|]].
  - subst s. destruct b as [|d b]; [discriminate Hs|]. exists d. split; [reflexivity|]. exact Hs.
  - rewrite E, Eb. cbn in P. destruct P as [<-|[<-|[<-|[<-|[]]]]]; cbn; rewrite <- ?app_assoc; reflexivity.
Qed.

(** ** Signs *)

(** The operators and characters that the tokenizer finds in a punctuator. *)
Definition cut : list (str * list (str * token)) :=
  [ (S_ "{", [(S_ "{", TChar OpenCurlyBrace)]);
    (S_ "}", [(S_ "}", TChar CloseCurlyBrace)]);
    (S_ "(", [(S_ "(", TChar OpenParenthese)]);
    (S_ ")", [(S_ ")", TChar CloseParenthese)]);
    (S_ "[", [(S_ "[", TChar OpenBracket)]);
    (S_ "]", [(S_ "]", TChar CloseBracket)]);
    (S_ ";", [(S_ ";", TChar SemiColon)]);
    (S_ ",", [(S_ ",", TChar Comma)]);
    (S_ "<", [(S_ "<", TCondition InferiorThan)]);
    (S_ ">", [(S_ ">", TCondition CSuperiorThan)]);
    (S_ "<=", [(S_ "<=", TCondition InferiorOrEqualTo)]);
    (S_ ">=", [(S_ ">=", TCondition SuperiorOrEqualTo)]);
    (S_ "==", [(S_ "==", TCondition EqualTo)]);
    (S_ "!=", [(S_ "!=", TCondition DifferentThan)]);
    (S_ "===", [(S_ "===", TCondition SuperEqualTo)]);
    (S_ "!==", [(S_ "!==", TCondition SuperDifferentThan)]);
    (S_ "+", [(S_ "+", TOperation Addition)]);
    (S_ "-", [(S_ "-", TOperation Subtract)]);
    (S_ "*", [(S_ "*", TOperation Multiply)]);
    (S_ "%", [(S_ "%", TOperation OModulo)]);
    (S_ "**", [(S_ "*", TOperation Multiply); (S_ "*", TOperation Multiply)]);
    (S_ "++", [(S_ "+", TOperation Addition); (S_ "+", TOperation Addition)]);
    (S_ "--", [(S_ "-", TOperation Subtract); (S_ "-", TOperation Subtract)]);
    (S_ "<<", [(S_ "<", TCondition InferiorThan); (S_ "<", TCondition InferiorThan)]);
    (S_ ">>", [(S_ ">", TCondition CSuperiorThan); (S_ ">", TCondition CSuperiorThan)]);
    (S_ ">>>", [(S_ ">", TCondition CSuperiorThan); (S_ ">", TCondition CSuperiorThan); (S_ ">", TCondition CSuperiorThan)]);
    (S_ "&", [(S_ "&", TChar Ampersand)]);
    (S_ "|", [(S_ "|", TChar Pipe)]);
    (S_ "!", [(S_ "!", TChar ExclamationMark)]);
    (S_ "&&", [(S_ "&&", TCondition And)]);
    (S_ "||", [(S_ "||", TCondition Or)]);
    (S_ "??", [(S_ "?", TChar QuestionMark); (S_ "?", TChar QuestionMark)]);
    (S_ "?", [(S_ "?", TChar QuestionMark)]);
    (S_ ":", [(S_ ":", TChar Colon)]);
    (S_ "=", [(S_ "=", TOperation Equal)]);
    (S_ "+=", [(S_ "+=", TOperation AdditionEqual)]);
    (S_ "-=", [(S_ "-=", TOperation SubtractEqual)]);
    (S_ "*=", [(S_ "*=", TOperation MultiplyEqual)]);
    (S_ "%=", [(S_ "%=", TOperation ModuloEqual)]);
    (S_ "**=", [(S_ "*", TOperation Multiply); (S_ "*=", TOperation MultiplyEqual)]);
    (S_ "<<=", [(S_ "<", TCondition InferiorThan); (S_ "<=", TCondition InferiorOrEqualTo)]);
    (S_ ">>=", [(S_ ">", TCondition CSuperiorThan); (S_ ">=", TCondition SuperiorOrEqualTo)]);
    (S_ ">>>=", [(S_ ">", TCondition CSuperiorThan); (S_ ">", TCondition CSuperiorThan); (S_ ">=", TCondition SuperiorOrEqualTo)]);
    (S_ "&=", [(S_ "&", TChar Ampersand); (S_ "=", TOperation Equal)]);
    (S_ "|=", [(S_ "|", TChar Pipe); (S_ "=", TOperation Equal)]);
    (S_ "&&=", [(S_ "&&", TCondition And); (S_ "=", TOperation Equal)]);
    (S_ "||=", [(S_ "||", TCondition Or); (S_ "=", TOperation Equal)]);
    (S_ "??=", [(S_ "?", TChar QuestionMark); (S_ "?", TChar QuestionMark); (S_ "=", TOperation Equal)]);
    (S_ "=>", [(S_ "=", TOperation Equal); (S_ ">", TCondition CSuperiorThan)]) ].

(** Can [o] be continued with [c]? *)
Definition ext (o : str) (c : N) : bool := existsb (fun q => prefix (o ++ [c]) (fst q)) operators.

Definition simple (o : str) (t : token) : bool :=
  match o with [c] => match simple_punct c with Some t' => token_eqb t' t | None => false end | _ => false end.
Definition operator (o : str) (t : token) : bool := existsb (fun q => str_eqb (fst q) o && token_eqb (snd q) t) operators.

Definition stops (o : str) (t : token) (s : str) : bool :=
  simple o t || (operator o t && match s with [] => true | c :: _ => negb (ext o c) end).

Fixpoint cut_ok (l : list (str * token)) : bool :=
  match l with
  | [] => false
  | (o, t) :: r =>
      match r with [] => simple o t || operator o t | _ => stops o t (flat_map fst r) && cut_ok r end
  end.

Lemma prefix_first : forall o q c s, prefix q (o ++ c :: s) = true -> (length o < length q)%nat -> prefix (o ++ [c]) q = true.
Proof.
  induction o as [|a o IH]; intros q c s H L; (destruct q as [|b q]; [cbn [length] in L; lia|]); cbn [app prefix length] in *.
  - apply andb_true_iff in H. destruct H as [H _]. rewrite N.eqb_sym, H. reflexivity.
  - apply andb_true_iff in H. destruct H as [H K]. rewrite N.eqb_sym, H. exact (IH q c s K ltac:(lia)).
Qed.

Lemma prefix_len : forall q o, prefix q o = true -> (length q <= length o)%nat.
Proof.
  induction q as [|a q IH]; intros [|b o] H; cbn [length]; try lia; [discriminate H|]. cbn [prefix] in H. apply andb_true_iff in H. destruct H as [_ H]. specialize (IH o H). lia.
Qed.

Lemma stops_longest : forall o s, match s with [] => true | c :: _ => negb (ext o c) end = true -> longest o s = true.
Proof.
  intros o s H. unfold longest. rewrite forallb_forall. intros q I. apply negb_true_iff. destruct (prefix (fst q) (o ++ s)) eqn:P; [|reflexivity]. cbn [andb].
  destruct (Nat.ltb (length o) (length (fst q))) eqn:L; [|reflexivity]. exfalso. apply Nat.ltb_lt in L. destruct s as [|c s].
  - rewrite app_nil_r in P. apply prefix_len in P. lia.
  - apply negb_true_iff in H. unfold ext in H. pose proof (prefix_first _ _ _ _ P L) as X.
    assert (Y : existsb (fun q => prefix (o ++ [c]) (fst q)) operators = true) by (apply existsb_exists; exists q; auto). congruence.
Qed.

Lemma reads_stop : forall o t v w s, stops o t s = true -> reads_token v w (o ++ s) (t :: flush w v) [] s.
Proof.
  intros o t v w s H. unfold stops in H. apply orb_true_iff in H. destruct H as [H|H].
  - unfold simple in H. destruct o as [|c [|d o]]; [discriminate H| |discriminate H]. destruct (simple_punct c) as [t'|] eqn:S; [|discriminate H].
    apply token_eqb_eq in H. subst t'. apply rd_punct. exact S.
  - apply andb_true_iff in H. destruct H as [A B]. apply rd_operator; [|apply stops_longest; exact B].
    unfold operator in A. apply existsb_exists in A. destruct A as (q & I & E). apply andb_true_iff in E. destruct E as [E1 E2].
    apply str_eqb_eq in E1. apply token_eqb_eq in E2. destruct q as [o' t']. cbn [fst snd] in *. subst. exact I.
Qed.

Lemma stops_app : forall o t a s, a <> [] -> stops o t (a ++ s) = stops o t a.
Proof. intros o t [|c a] s H; [congruence|reflexivity]. Qed.

Lemma cut_nonempty : forall l, cut_ok l = true -> flat_map fst l <> [].
Proof.
  intros [|[o t] r] H; [discriminate H|]. cbn [flat_map fst].
  assert (X : simple o t || operator o t = true).
  { cbn [cut_ok] in H. destruct r; [exact H|]. apply andb_true_iff in H. destruct H as [H _]. unfold stops in H. apply orb_true_iff in H. destruct H as [H|H]; [rewrite H; reflexivity|].
    apply andb_true_iff in H. rewrite (proj1 H). apply orb_true_r. }
  destruct o as [|c o]; [|discriminate]. unfold simple, operator in X. cbn [orb] in X. vm_compute in X. discriminate X.
Qed.

Lemma reads_cut : forall l v w s, cut_ok l = true -> stops (fst (last l ([], TChar Space))) (snd (last l ([], TChar Space))) s = true ->
  reads v w (flat_map fst l ++ s) (rev (map snd l) ++ flush w v) [] s.
Proof.
  induction l as [|[o t] l IH]; intros v w s H S; [discriminate H|]. destruct l as [|q l].
  - cbn [flat_map fst rev map snd app]. rewrite app_nil_r. eapply reads_more; [apply reads_stop; exact S|constructor].
  - change (cut_ok ((o, t) :: q :: l)) with (stops o t (flat_map fst (q :: l)) && cut_ok (q :: l)) in H. apply andb_true_iff in H. destruct H as [H1 H2].
    change (flat_map fst ((o, t) :: q :: l)) with (o ++ flat_map fst (q :: l)). rewrite <- app_assoc.
    eapply reads_more; [apply reads_stop; rewrite (stops_app _ _ _ _ (cut_nonempty _ H2)); exact H1|].
    change (rev (map snd ((o, t) :: q :: l)) ++ flush w v) with ((rev (map snd (q :: l)) ++ [t]) ++ flush w v). rewrite <- app_assoc.
    exact (IH (t :: flush w v) [] s H2 S).
Qed.

Definition sign_tokens (p : str) : list token :=
  match find (fun q => str_eqb (fst q) p) cut with
  | Some q => map snd (snd q)
  | None =>
      if str_eqb p (S_ ".") then [TChar Dot]
      else if str_eqb p (S_ "...") then [TChar Dot; TChar Dot; TChar Dot]
      else if str_eqb p (S_ "?.") then [TChar QuestionMark; TChar Dot]
      else if str_eqb p (S_ "/") then [TOperation Divide] else [TOperation DivideEqual]
  end.

(** The tokens that the minifier has for one token of the program. *)
Definition mins (e : element) (ts : list token) : Prop :=
  match fst e with
  | Name | Private | Number => ts = [word_token (snd e)]
  | Text | Template => ts = [TString (snd e)]
  | Regex => exists b g i, ts = [TRegex b g i] /\ token_show (TRegex b g i) = snd e
  | Punct => ts = sign_tokens (snd e)
  | _ => False
  end.

Notation dflt := (TChar Space).
Definition after_sign (e : element) : bool :=
  kind_eqb (fst e) Punct && negb (is_text [")"; "]"; "}"; "."; "..."; "?."]%string (snd e)).

Record fits (e : element) (ts : list token) : Prop := {
  f_some : ts <> [];
  f_useful : forallb (fun t => negb (useless t) && negb (insignificant t)) ts = true;
  f_text : joined ts = snd e;
  f_left : word_left (last ts dflt) = sticky e;
  f_soft : char_or_string (last ts dflt) = soft e;
  f_right : word_right (hd dflt ts) = word e;
  f_in : is_in (hd dflt ts) = named ["in"; "instanceof"]%string e;
  f_semi : if str_eqb (snd e) (S_ ";") then ts = [TChar SemiColon] else eq_char SemiColon (hd dflt ts) = false;
  f_regex : regex_after (last ts dflt) = after_sign e }.

Lemma semi_punct : forall e, plain_piece e = true -> snd e = S_ ";" -> fst e = Punct.
Proof.
  intros e H E. pose proof (alone_scan e (piece_alone e H)) as S. rewrite E in S. destruct e as [k t]. cbn [fst snd] in *.
  destruct k; try reflexivity; vm_compute in S; discriminate S.
Qed.

Lemma not_semi : forall e, plain_piece e = true -> fst e <> Punct -> str_eqb (snd e) (S_ ";") = false.
Proof. intros e H K. destruct (str_eqb (snd e) (S_ ";")) eqn:E; [|reflexivity]. apply str_eqb_eq in E. apply semi_punct in E; [contradiction|exact H]. Qed.

Lemma fits_named : forall e, plain_piece e = true -> word e = true -> sticky e = true -> named_token (snd e) (word_token (snd e)) ->
  (fst e <> Name -> forall k, snd e <> keyword_show k) -> fits e [word_token (snd e)].
Proof.
  intros e H W S T N. assert (Q : fst e <> Punct) by (intro Q; unfold word in W; rewrite Q in W; discriminate W).
  assert (SF : soft e = false) by (unfold soft, word in *; destruct (fst e); (reflexivity || discriminate W)).
  assert (RG : after_sign e = false) by (unfold after_sign, word in *; destruct (fst e); (reflexivity || discriminate W)).
  destruct T as [(k & T & E)|(T & E)]; rewrite T.
  - constructor; cbn [joined last hd word_left word_right char_or_string eq_char regex_after forallb]; rewrite ?S, ?W, ?SF, ?RG; try reflexivity; try discriminate.
    + rewrite app_nil_r, E. cbn. apply app_nil_r.
    + unfold named. destruct (fst e) eqn:F.
      all: try (exfalso; apply (N ltac:(discriminate) k); exact E).
      rewrite E. clear. destruct k; vm_compute; reflexivity.
    + rewrite (not_semi e H Q). reflexivity.
  - constructor; cbn [joined last hd word_left word_right char_or_string eq_char regex_after forallb]; rewrite ?S, ?W, ?SF, ?RG; try reflexivity; try discriminate.
    + cbn. rewrite !app_nil_r. reflexivity.
    + unfold named. destruct (is_text ["in"; "instanceof"]%string (snd e)) eqn:I; [|rewrite andb_false_r; reflexivity].
      exfalso. apply is_text_in in I. destruct I as [I|[I|[]]]; [apply (E KIn)|apply (E KInstanceOf)]; symmetry; exact I.
    + rewrite (not_semi e H Q). reflexivity.
Qed.

Lemma keyword_first : forall k c r, keyword_show k = c :: r -> letter c = true.
Proof. intros k c r H. destruct k; vm_compute in H; injection H as <- _; reflexivity. Qed.

Lemma fits_word : forall e, plain_piece e = true -> word e = true -> fits e [word_token (snd e)].
Proof.
  intros e H W. pose proof W as K. unfold word in K. destruct (fst e) eqn:Q; try discriminate K.
  - apply fits_named; try assumption; [unfold sticky; rewrite Q; reflexivity|exact (name_token e H Q)|congruence].
  - destruct (private_chars e H Q) as (r & E & _).
    apply fits_named; try assumption; [unfold sticky; rewrite Q; reflexivity|exact (private_token e H Q)|].
    intros _ k X. rewrite E in X. symmetry in X. apply keyword_first in X. discriminate X.
  - destruct (decimal (snd e)) eqn:D.
    + assert (SF : soft e = false) by (unfold soft; rewrite Q; reflexivity). assert (RG : after_sign e = false) by (unfold after_sign; rewrite Q; reflexivity).
      assert (ST : sticky e = false) by (unfold sticky; rewrite Q, D; reflexivity). assert (NM : named ["in"; "instanceof"]%string e = false) by (unfold named; rewrite Q; reflexivity).
      assert (NS : str_eqb (snd e) (S_ ";") = false) by (apply not_semi; [exact H|rewrite Q; discriminate]).
      destruct (decimal_token e H Q D) as [(n & T & E)|T]; rewrite T;
        (constructor; cbn [joined last hd word_left word_right char_or_string eq_char regex_after forallb]; rewrite ?ST, ?W, ?SF, ?RG, ?NM, ?NS; try reflexivity; try discriminate).
      * rewrite app_nil_r. rewrite <- E. cbn. apply app_nil_r.
      * cbn. rewrite !app_nil_r. reflexivity.
    + assert (R : radixed (snd e) = true).
      { unfold JsPlainSpec.plain_piece in H. rewrite Q, D in H. apply andb_true_iff in H. exact (proj2 H). }
      apply fits_named; try assumption; [unfold sticky; rewrite Q, D; reflexivity|exact (radixed_token _ R)|].
      intros _ k X. destruct (radixed_chars _ R) as (x & r & E & _). rewrite E in X. symmetry in X. apply keyword_first in X. discriminate X.
Qed.

Definition sign_check (p : str) : bool :=
  match sign_tokens p with
  | [] => false
  | t :: r =>
      forallb (fun t => negb (useless t) && negb (insignificant t)) (t :: r)
      && str_eqb (joined (t :: r)) p
      && negb (word_left (last (t :: r) dflt))
      && Bool.eqb (char_or_string (last (t :: r) dflt)) (soft (Punct, p))
      && negb (word_right t) && negb (is_in t)
      && (if str_eqb p (S_ ";") then token_eqb t (TChar SemiColon) && (match r with [] => true | _ => false end) else negb (eq_char SemiColon t))
      && Bool.eqb (regex_after (last (t :: r) dflt)) (after_sign (Punct, p))
  end.

Lemma signs_checked : forallb (fun p => is_text ["^"; "^="; "~"]%string p || sign_check p) puncts = true.
Proof. vm_compute. reflexivity. Qed.

Lemma fits_sign : forall e, plain_piece e = true -> fst e = Punct -> fits e (sign_tokens (snd e)).
Proof.
  intros e H Q. destruct (piece_shape e H) as (c & s & E & M). rewrite Q in M. destruct M as (P & _).
  unfold is_punct in P. apply existsb_exists in P. destruct P as (p & I & X). apply str_eqb_eq in X. subst p.
  pose proof signs_checked as C. rewrite forallb_forall in C. specialize (C _ I).
  assert (NT : is_text ["^"; "^="; "~"]%string (snd e) = false).
  { unfold JsPlainSpec.plain_piece in H. rewrite Q in H. apply andb_true_iff in H. destruct H as [_ H]. apply negb_true_iff in H. exact H. }
  rewrite NT in C. cbn [orb] in C. unfold sign_check in C. destruct e as [k t]. cbn [fst snd] in *. subst k.
  destruct (sign_tokens t) as [|a r] eqn:T; [discriminate C|].
  apply andb_true_iff in C. destruct C as [C C8]. apply andb_true_iff in C. destruct C as [C C7]. apply andb_true_iff in C. destruct C as [C C6].
  apply andb_true_iff in C. destruct C as [C C5]. apply andb_true_iff in C. destruct C as [C C4]. apply andb_true_iff in C. destruct C as [C C3].
  apply andb_true_iff in C. destruct C as [C1 C2].
  apply eqb_prop in C4, C8. apply negb_true_iff in C3, C5, C6. apply str_eqb_eq in C2.
  constructor; try assumption; try discriminate.
  cbn [snd hd]. destruct (str_eqb t (S_ ";")).
  - apply andb_true_iff in C7. destruct C7 as [C7 C9]. apply token_eqb_eq in C7. subst a. destruct r; [reflexivity|discriminate C9].
  - apply negb_true_iff in C7. exact C7.
Qed.

Lemma mins_fits : forall e ts, plain_piece e = true -> mins e ts -> fits e ts.
Proof.
  intros e ts H M. unfold mins in M. destruct (fst e) eqn:Q; try contradiction.
  - subst ts. apply fits_word; [exact H|unfold word; rewrite Q; reflexivity].
  - subst ts. apply fits_word; [exact H|unfold word; rewrite Q; reflexivity].
  - subst ts. apply fits_sign; assumption.
  - subst ts. apply fits_word; [exact H|unfold word; rewrite Q; reflexivity].
  - subst ts. constructor; unfold sticky, soft, word, named, after_sign; rewrite ?Q; try reflexivity; try discriminate; [cbn; rewrite !app_nil_r; reflexivity|].
    rewrite (not_semi e H) by congruence. reflexivity.
  - subst ts. constructor; unfold sticky, soft, word, named, after_sign; rewrite ?Q; try reflexivity; try discriminate; [cbn; rewrite !app_nil_r; reflexivity|].
    rewrite (not_semi e H) by congruence. reflexivity.
  - destruct M as (b & g & i & -> & S). constructor; unfold sticky, soft, word, named, after_sign; rewrite ?Q; try reflexivity; try discriminate.
    + cbn [joined]. rewrite app_nil_r. exact S.
    + rewrite (not_semi e H) by congruence. reflexivity.
Qed.

(** ** What may follow *)

Definition next_ok (p : element) (s : str) : Prop :=
  forall c r, s = c :: r -> runs_on p [c] = false
    /\ (sign ["++"; "--"; "=>"; "&="; "|="; "&&="; "||="; "??="]%string p = true -> c <> 0x3D)
    /\ (sign ["..."]%string p = true -> digit c = false).

Lemma runs_on_head : forall p c r, runs_on p (c :: r) = runs_on p [c].
Proof. reflexivity. Qed.

Lemma plain_next : forall p r, plain (Some p) true r = true -> next_ok p (text r).
Proof.
  intros p r H c s E. destruct r as [|[g|e] r]; [discriminate E| |]; cbn [JsPlainSpec.plain] in H.
  - destruct g as [|d g]; [rewrite andb_false_r in H; discriminate H|].
    cbn [text flat_map item_text app] in E. injection E as -> _.
    apply andb_true_iff in H. destruct H as [H _]. apply andb_true_iff in H. destruct H as [H R]. apply andb_true_iff in H. destruct H as [B _].
    apply negb_true_iff in R. split; [exact R|]. cbn [between] in B. unfold one_of in B. cbn [existsb] in B.
    destruct ((c =? 9) || ((c =? 10) || ((c =? 13) || ((c =? 32) || false)))) eqn:W; [split; intros _; unfold digit; lia|].
    destruct (c =? 0x2F) eqn:S; [|discriminate B]. split; intros _; unfold digit; lia.
  - apply andb_true_iff in H. destruct H as [H _]. apply andb_true_iff in H. destruct H as [H D]. apply andb_true_iff in H. destruct H as [P _].
    pose proof (piece_nonempty e P) as Ne. cbn [text flat_map item_text] in E. destruct (snd e) as [|d t] eqn:T; [congruence|]. cbn [app] in E. injection E as -> _.
    unfold JsPlainSpec.direct_ok in D. rewrite T in D. apply andb_true_iff in D. destruct D as [D D4]. apply andb_true_iff in D. destruct D as [D D3]. apply andb_true_iff in D. destruct D as [D1 _].
    apply negb_true_iff in D1, D3, D4. split; [exact D1|]. split.
    + intros S Q. rewrite S in D4. cbn [starts andb] in D4. subst c. discriminate D4.
    + intros S. rewrite S in D3. cbn [andb] in D3. destruct (digit c) eqn:Dg; [|reflexivity].
      assert (K : fst e = Number) by (apply piece_digit; [exact P|rewrite T; exact Dg]). rewrite K in D3. discriminate D3.
Qed.

Lemma prefix_last : forall o c q, prefix (o ++ [c]) q = true -> o <> [] -> In c (tl q).
Proof.
  intros o c q H N. destruct o as [|a o]; [congruence|]. clear N. destruct q as [|b q]; [discriminate H|]. cbn [app prefix tl] in *.
  apply andb_true_iff in H. destruct H as [_ H]. revert q H. induction o as [|a' o IH]; intros [|d q] H; try discriminate H; cbn [app prefix] in H; apply andb_true_iff in H; destruct H as [A B].
  - apply N.eqb_eq in A. left. congruence.
  - right. exact (IH q B).
Qed.

Lemma ext_chars : forall o c, o <> [] -> ext o c = true -> In c [0x3D; 0x26; 0x7C].
Proof.
  intros o c N H. unfold ext in H. apply existsb_exists in H. destruct H as (q & I & P). pose proof (prefix_last _ _ _ P N) as L.
  assert (F : forallb (fun q => forallb (fun d => one_of [0x3D; 0x26; 0x7C] d) (tl (fst q))) operators = true) by (vm_compute; reflexivity).
  rewrite forallb_forall in F. specialize (F q I). rewrite forallb_forall in F. specialize (F c L).
  unfold one_of in F. apply existsb_exists in F. destruct F as (x & I2 & X). apply N.eqb_eq in X. subst x. exact I2.
Qed.

Definition cut_check (q : str * list (str * token)) : bool :=
  let o := fst (last (snd q) ([], dflt)) in let t := snd (last (snd q) ([], dflt)) in
  str_eqb (flat_map fst (snd q)) (fst q) && cut_ok (snd q)
  && negb (str_eqb o []) && (simple o t || operator o t)
  && forallb (fun c => simple o t || negb (ext o c) || runs_on (Punct, fst q) [c]
       || (sign ["++"; "--"; "=>"; "&="; "|="; "&&="; "||="; "??="]%string (Punct, fst q) && (c =? 0x3D))) [0x3D; 0x26; 0x7C].

Lemma cuts_checked : forallb cut_check cut = true.
Proof. vm_compute. reflexivity. Qed.

Lemma reads_cut_sign : forall p l v w s, find (fun q => str_eqb (fst q) p) cut = Some l -> next_ok (Punct, p) s ->
  reads v w (p ++ s) (rev (sign_tokens p) ++ flush w v) [] s.
Proof.
  intros p l v w s F N. pose proof cuts_checked as C. rewrite forallb_forall in C.
  assert (ST : sign_tokens p = map snd (snd l)) by (unfold sign_tokens; rewrite F; reflexivity).
  apply find_some in F. destruct F as [I E]. apply str_eqb_eq in E. specialize (C l I). unfold cut_check in C. rewrite E in C.
  apply andb_true_iff in C. destruct C as [C C5]. apply andb_true_iff in C. destruct C as [C C4]. apply andb_true_iff in C. destruct C as [C C3].
  apply andb_true_iff in C. destruct C as [C1 C2]. apply str_eqb_eq in C1. rewrite ST. rewrite <- C1 at 1. apply reads_cut; [exact C2|].
  set (o := fst (last (snd l) ([], dflt))) in *. set (t := snd (last (snd l) ([], dflt))) in *. unfold stops.
  destruct (simple o t) eqn:Si; [reflexivity|]. cbn [orb] in C4 |- *. rewrite C4. cbn [andb]. destruct s as [|c s]; [reflexivity|]. apply negb_true_iff.
  destruct (ext o c) eqn:X; [|reflexivity]. assert (On : o <> []) by (intros Z; rewrite Z in C3; discriminate C3).
  pose proof (ext_chars o c On X) as Ic. rewrite forallb_forall in C5. specialize (C5 c Ic). rewrite X in C5. cbn [orb negb] in C5.
  destruct (N c s eq_refl) as (R & Q & _). rewrite R in C5. cbn [orb] in C5. apply andb_true_iff in C5. destruct C5 as [A B]. apply N.eqb_eq in B. contradiction (Q A B).
Qed.

(** ** The state of the tokenizer between two tokens *)

Definition state_ok (prev : option element) (direct : bool) (v : list token) (w : str) : Prop :=
  (w = [] \/ exists p, prev = Some p /\ direct = true /\ word p = true /\ w = snd p)
  /\ match prev with
     | None => significant (flush w v) = None
     | Some p => plain_piece p = true /\ exists ts, mins p ts /\ significant (flush w v) = Some (last ts dflt)
     end.

(** No dot continues the word before it. *)
Lemma no_integer : forall p c, plain_piece p = true -> word p = true -> c = 0x2E -> runs_on p [c] = false -> integer (snd p) = false.
Proof.
  intros p c H W -> R. destruct (integer (snd p)) eqn:I; [|reflexivity]. exfalso. unfold integer in I. destruct (u64_of (snd p)) as [n|] eqn:U; [|discriminate I].
  destruct (Forall_dec (fun c => c <> 0x2B) (fun c => match N.eq_dec c 0x2B with left e => right (fun k => k e) | right n => left n end) (snd p)) as [Fp|Fp].
  2:{ exfalso. apply Fp. unfold word in W. destruct (fst p) eqn:Q; try discriminate W.
      - destruct (name_chars p H Q) as (a & r & E & _ & F). eapply Forall_impl; [|exact (forallb_word _ F)]. cbv beta. intros d D ->. discriminate D.
      - destruct (private_chars p H Q) as (r & E & F). rewrite E. constructor; [discriminate|]. eapply Forall_impl; [|exact (forallb_word _ F)]. cbv beta. intros d D ->. discriminate D.
      - pose proof H as H'. unfold JsPlainSpec.plain_piece in H'. rewrite Q in H'. apply andb_true_iff in H'. destruct H' as [_ H']. apply orb_true_iff in H'. destruct H' as [D|D].
        + destruct (decimal_cases _ D) as (i & Fi & [[E Ne]|(f & E & Nf & Ff)]); rewrite E.
          * eapply Forall_impl; [|exact (forallb_digits _ Fi)]. cbv beta. intros; lia.
          * apply Forall_app. split; [eapply Forall_impl; [|exact (forallb_digits _ Fi)]; cbv beta; intros; lia|]. constructor; [discriminate|]. eapply Forall_impl; [|exact (forallb_digits _ Ff)]. cbv beta. intros; lia.
        + eapply Forall_impl; [|exact (radixed_word _ D)]. cbv beta. intros d X ->. discriminate X. }
  apply (u64_of_spec _ _ Fp) in U. destruct U as [(Ne & D & _) _].
  assert (K : fst p = Number).
  { apply piece_digit; [exact H|]. destruct (snd p) as [|d t]; [congruence|]. inversion D; subst. cbn [starts]. unfold digit. lia. }
  unfold EsSpec.runs_on in R. rewrite K in R. apply orb_false_iff in R. destruct R as [_ R]. cbn [N.eqb] in R.
  assert (A : forallb (fun d => digit d || (d =? 0x5F)) (snd p) = true).
  { apply forallb_forall. intros d I2. unfold digits in D. rewrite Forall_forall in D. specialize (D d I2). unfold digit. lia. }
  rewrite A in R. discriminate R.
Qed.

Lemma no_join : forall prev direct v w s (e : element), state_ok prev direct v w -> (direct = true -> forall p, prev = Some p -> runs_on p (snd e) = false) ->
  starts (N.eqb 0x2E) (snd e) = true -> starts digit s = false -> dot_joins w s = false.
Proof.
  intros prev direct v w s e (A & B) D E S. assert (I : integer w = false).
  { destruct A as [->|(p & -> & -> & W & ->)]; [reflexivity|]. destruct B as [P _]. specialize (D eq_refl p eq_refl).
    destruct (snd e) as [|c t]; [discriminate E|]. cbn [starts] in E. apply N.eqb_eq in E. rewrite runs_on_head in D. apply (no_integer p c P W); [congruence|exact D]. }
  unfold dot_joins. rewrite I. destruct s as [|c s]; [apply andb_false_r|]. cbn [starts] in S.
  replace (is_digit c) with false by (unfold is_digit, digit in *; lia). apply andb_false_r.
Qed.

Lemma flush_nil : forall v, flush [] v = v.
Proof. reflexivity. Qed.

Lemma significant_last : forall ts v, ts <> [] -> forallb (fun t => negb (useless t) && negb (insignificant t)) ts = true ->
  significant (rev ts ++ v) = Some (last ts dflt).
Proof.
  intros ts v N F. destruct (@exists_last _ ts N) as (a & t & ->). rewrite rev_app_distr, last_last. cbn [rev app significant].
  rewrite forallb_app in F. apply andb_true_iff in F. destruct F as [_ F]. cbn [forallb] in F. destruct (insignificant t); [rewrite andb_false_r in F; discriminate F|reflexivity].
Qed.

Lemma sign_slash : forall e l, plain_piece e = true -> fst e = Punct -> find (fun q => str_eqb (fst q) (snd e)) cut = l ->
  l <> None \/ In (snd e) (map S_ ["."; "..."; "?."; "/"; "/="]%string).
Proof.
  intros e l H Q L. destruct l; [left; discriminate|]. right. destruct (piece_shape e H) as (c & s & E & M). rewrite Q in M. destruct M as (P & _).
  unfold is_punct in P. apply existsb_exists in P. destruct P as (p & I & X). apply str_eqb_eq in X. subst p.
  assert (NT : is_text ["^"; "^="; "~"]%string (snd e) = false).
  { unfold JsPlainSpec.plain_piece in H. rewrite Q in H. apply andb_true_iff in H. destruct H as [_ H]. apply negb_true_iff in H. exact H. }
  assert (F : forallb (fun p => is_text ["^"; "^="; "~"]%string p || is_text ["."; "..."; "?."; "/"; "/="]%string p
    || match find (fun q => str_eqb (fst q) p) cut with Some _ => true | None => false end) puncts = true) by (vm_compute; reflexivity).
  rewrite forallb_forall in F. specialize (F _ I). rewrite NT, L in F. cbn [orb] in F. rewrite orb_false_r in F. apply is_text_in. exact F.
Qed.

Lemma text_cons : forall i r, text (i :: r) = item_text i ++ text r.
Proof. reflexivity. Qed.

Lemma not_digit_next : forall p s, next_ok p s -> sign ["."; "?."]%string p = true \/ sign ["..."]%string p = true -> starts digit s = false.
Proof.
  intros p s N C. destruct s as [|c s]; [reflexivity|]. destruct (N c s eq_refl) as (R & _ & D). cbn [starts]. destruct C as [C|C]; [|exact (D C)].
  unfold sign in C. apply andb_true_iff in C. destruct C as [K T]. apply kind_eqb_eq in K. unfold EsSpec.runs_on in R. rewrite K in R.
  apply orb_false_iff in R. destruct R as [R _]. apply orb_false_iff in R. destruct R as [_ R]. apply is_text_in in T.
  assert (X : str_eqb (snd p) (S_ ".") || str_eqb (snd p) (S_ "?.") = true).
  { destruct T as [T|[T|[]]]; rewrite <- T; reflexivity. }
  rewrite X in R. exact R.
Qed.

Lemma step : forall prev direct e r v w, plain prev direct (Piece e :: r) = true -> state_ok prev direct v w ->
  exists v' w' ts, reads v w (snd e ++ text r) v' w' (text r) /\ mins e ts /\ flush w' v' = rev ts ++ flush w v /\ state_ok (Some e) true v' w'.
Proof.
  intros prev direct e r v w H OK. cbn [JsPlainSpec.plain] in H.
  apply andb_true_iff in H. destruct H as [H PL]. apply andb_true_iff in H. destruct H as [H D]. apply andb_true_iff in H. destruct H as [P PC].
  pose proof (plain_next e r PL) as NX.
  assert (FIN : forall ts, mins e ts -> reads v w (snd e ++ text r) (rev ts ++ flush w v) [] (text r) ->
    exists v' w' ts, reads v w (snd e ++ text r) v' w' (text r) /\ mins e ts /\ flush w' v' = rev ts ++ flush w v /\ state_ok (Some e) true v' w').
  { intros ts M R. exists (rev ts ++ flush w v), [], ts. split; [exact R|]. split; [exact M|]. split; [reflexivity|].
    split; [left; reflexivity|]. split; [exact P|]. exists ts. split; [exact M|]. destruct (mins_fits e ts P M). cbn [flush]. apply significant_last; assumption. }
  assert (RH : match prev with None => regex_here (flush w v) = true | Some p => regex_here (flush w v) = after_sign p end).
  { destruct OK as [_ B]. unfold regex_here. destruct prev as [p|].
    - destruct B as (Pp & ts & M & S). rewrite S. destruct (mins_fits p ts Pp M). assumption.
    - rewrite B. reflexivity. }
  assert (DR : direct = true -> forall p, prev = Some p -> runs_on p (snd e) = false).
  { intros -> p ->. unfold JsPlainSpec.direct_ok in D. apply andb_true_iff in D. destruct D as [D _]. apply andb_true_iff in D. destruct D as [D _]. apply andb_true_iff in D. destruct D as [D _].
    apply negb_true_iff in D. exact D. }
  destruct (word e) eqn:W.
  - assert (w = []).
    { destruct OK as [[->|(p & -> & -> & Wp & ->)] _]; [reflexivity|]. unfold JsPlainSpec.direct_ok in D. rewrite Wp, W in D. cbn [andb negb] in D.
      rewrite andb_false_r in D. discriminate D. }
    subst w. exists v, (snd e), [word_token (snd e)].
    assert (M : mins e [word_token (snd e)]) by (unfold mins; unfold word in W; destruct (fst e); (reflexivity || discriminate W)).
    pose proof (piece_nonempty e P) as Ne.
    assert (FL : flush (snd e) v = word_token (snd e) :: v) by (destruct (snd e); [congruence|reflexivity]).
    split; [apply reads_piece_word; assumption|]. split; [exact M|]. split; [exact FL|].
    split; [right; exists e; auto|]. split; [exact P|]. exists [word_token (snd e)]. split; [exact M|]. rewrite FL.
    destruct (mins_fits e _ P M) as [FS FU _ _ _ _ _ _ _]. exact (significant_last [word_token (snd e)] v FS FU).
  - unfold word in W. destruct (fst e) eqn:Q; try discriminate W.
    1-3: unfold JsPlainSpec.plain_piece in P; rewrite Q, andb_false_r in P; discriminate P.
    + (* signs *)
      apply (FIN (sign_tokens (snd e))); [unfold mins; rewrite Q; reflexivity|].
      assert (EE : e = (Punct, snd e)) by (destruct e; cbn [fst snd] in *; congruence).
      destruct (find (fun q => str_eqb (fst q) (snd e)) cut) as [l|] eqn:F.
      { apply (reads_cut_sign _ l); [exact F|]. rewrite <- EE. exact NX. }
      destruct (sign_slash e _ P Q F) as [X|X]; [congruence|].
      assert (SG : forall l, is_text l (snd e) = true -> sign l e = true) by (intros l Hl; unfold sign; rewrite Q; exact Hl).
      destruct X as [X|[X|[X|[X|[X|[]]]]]].
      * assert (T : starts digit (text r) = false) by (apply (not_digit_next e); [exact NX|]; left; apply SG; rewrite <- X; reflexivity).
        assert (J : dot_joins w (text r) = false) by (apply (no_join prev direct v w _ e OK DR); [rewrite <- X; reflexivity|exact T]).
        rewrite <- X. eapply reads_more; [apply rd_dot; exact J|constructor].
      * assert (T : starts digit (text r) = false) by (apply (not_digit_next e); [exact NX|]; right; apply SG; rewrite <- X; reflexivity).
        assert (J : dot_joins w (0x2E :: 0x2E :: text r) = false) by (apply (no_join prev direct v w _ e OK DR); [rewrite <- X; reflexivity|reflexivity]).
        assert (J2 : dot_joins [] (text r) = false).
        { unfold dot_joins. destruct (text r) as [|c s]; [reflexivity|]. cbn [starts] in T. replace (is_digit c) with false by (unfold is_digit, digit in *; lia). reflexivity. }
        rewrite <- X. change (S_ "...") with [0x2E; 0x2E; 0x2E]. cbn [app].
        eapply reads_more; [apply rd_dot; exact J|]. eapply reads_more; [apply rd_dot; reflexivity|]. eapply reads_more; [apply rd_dot; exact J2|constructor].
      * assert (T : starts digit (text r) = false) by (apply (not_digit_next e); [exact NX|]; left; apply SG; rewrite <- X; reflexivity).
        assert (J2 : dot_joins [] (text r) = false).
        { unfold dot_joins. destruct (text r) as [|c s]; [reflexivity|]. cbn [starts] in T. replace (is_digit c) with false by (unfold is_digit, digit in *; lia). reflexivity. }
        rewrite <- X. change (S_ "?.") with [0x3F; 0x2E]. cbn [app].
        eapply reads_more; [apply rd_punct; reflexivity|]. eapply reads_more; [apply rd_dot; exact J2|constructor].
      * assert (RF : regex_here (flush w v) = false).
        { unfold placed in PC. rewrite (SG ["/"; "/="]%string) in PC by (rewrite <- X; reflexivity). destruct prev as [p|]; [|discriminate PC]. rewrite RH. unfold after_sign.
          destruct (fst p); try reflexivity. cbn [kind_eqb andb]. apply is_text_in in PC. destruct PC as [Y|[Y|[Y|[]]]]; rewrite <- Y; reflexivity. }
        rewrite <- X. change (S_ "/") with [0x2F]. cbn [app]. eapply reads_more; [apply rd_divide; [right; exact RF|]|constructor].
        intros c Hc. destruct (text r) as [|d s]; [discriminate Hc|]. injection Hc as ->. destruct (NX c s eq_refl) as (R & _). rewrite EE, <- X in R.
        change (mem_char c (S_ "/*=")) with ((c =? 47) || ((c =? 42) || ((c =? 61) || false))).
        destruct (N.eqb_spec c 47) as [->|]; [discriminate R|]. destruct (N.eqb_spec c 42) as [->|]; [discriminate R|]. destruct (N.eqb_spec c 61) as [->|]; [discriminate R|]. reflexivity.
      * assert (RF : regex_here (flush w v) = false).
        { unfold placed in PC. rewrite (SG ["/"; "/="]%string) in PC by (rewrite <- X; reflexivity). destruct prev as [p|]; [|discriminate PC]. rewrite RH. unfold after_sign.
          destruct (fst p); try reflexivity. cbn [kind_eqb andb]. apply is_text_in in PC. destruct PC as [Y|[Y|[Y|[]]]]; rewrite <- Y; reflexivity. }
        rewrite <- X. change (S_ "/=") with [0x2F; 0x3D]. cbn [app]. eapply reads_more; [apply rd_divide_equal; exact RF|constructor].
    + (* strings *)
      destruct (text_chars e P Q) as (q & b & E & Hq & Hb). apply (FIN [TString (snd e)]); [unfold mins; rewrite Q; reflexivity|].
      rewrite E. cbn [app]. rewrite <- app_assoc. eapply reads_more; [apply rd_string; eassumption|constructor].
    + destruct (template_chars e P Q) as (b & E & Hb). apply (FIN [TString (snd e)]); [unfold mins; rewrite Q; reflexivity|].
      rewrite E. cbn [app]. rewrite <- app_assoc. eapply reads_more; [apply rd_template; eassumption|constructor].
    + destruct (regex_chars e P Q) as (b & f & E & Hb & Hh & Hf & Hs). apply (FIN [TRegex b (mem_char 0x67 f) (mem_char 0x69 f)]); [unfold mins; rewrite Q; eauto|].
      rewrite E. cbn [app]. rewrite <- app_assoc. cbn [app]. eapply reads_more; [apply rd_regex; try eassumption|constructor].
      * unfold placed in PC. replace (sign ["/"; "/="]%string e) with false in PC by (unfold sign; rewrite Q; reflexivity). rewrite Q in PC. cbn [kind_eqb] in PC.
        destruct prev as [p|]; [|exact RH]. rewrite RH. exact PC.
      * intros c Hc. destruct (text r) as [|d s]; [discriminate Hc|]. injection Hc as ->. destruct (NX c s eq_refl) as (R & _). unfold EsSpec.runs_on in R. rewrite Q in R.
        destruct (not_part _ _ _ R) as (Le & _). unfold letter, flag in *. lia.
Qed.
End P.
