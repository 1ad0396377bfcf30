(** Proofs about the single-token functions, the variable search and the name generator. *)
From Coq Require Import String List NArith ZArith Bool Lia ZifyBool ZifyN Arith.
From Verif Require Import Base JsModel JsUtilModel JsUtilSpec JsUtilProofs.
Import ListNotations.
Open Scope N_scope.

(** ** Single tokens *)

Lemma clean_token_spec : forall t nx,
  clean_token t nx = false
  <-> (useless t = true \/ (t = TChar SemiColon /\ nx = Some (TChar CloseCurlyBrace))).
Proof.
  intros t nx. unfold clean_token.
  assert (N : forall b, (match nx with Some n => token_eqb n (TChar CloseCurlyBrace) | None => false end) = b
              -> (b = true <-> nx = Some (TChar CloseCurlyBrace))).
  { intros b <-. destruct nx as [n|]; [|split; discriminate]. rewrite token_eqb_eq. split; congruence. }
  destruct (match nx with Some n => token_eqb n (TChar CloseCurlyBrace) | None => false end) as [|];
    [specialize (N true eq_refl)|specialize (N false eq_refl)].
  - assert (nx = Some (TChar CloseCurlyBrace)) by (now apply N).
    destruct t; cbn; try (split; intuition congruence).
    destruct c; cbn; split; intuition congruence.
  - assert (X : nx <> Some (TChar CloseCurlyBrace)) by (intro Y; apply N in Y; discriminate).
    destruct t; cbn; try (split; intuition congruence).
    destruct c; cbn; split; intuition congruence.
Qed.

Lemma clean_token_except_spec : forall t nx f,
  clean_token_except t nx f = true <-> (clean_token t nx = true \/ f t = false).
Proof.
  intros t nx f. unfold clean_token_except. destruct (clean_token t nx), (f t); cbn; intuition congruence.
Qed.

Lemma replace_nth : forall ts cb i,
  nth_error (replace_tokens_with ts cb) i =
  match nth_error ts i with
  | Some t => Some (match cb t with Some u => u | None => t end)
  | None => None
  end.
Proof.
  intros ts cb. unfold replace_tokens_with. induction ts as [|t r IH]; intros [|i]; cbn; auto.
Qed.

(** ** The variable search *)

Lemma index_in : forall (ts : list token) i, (i < length ts)%nat -> exists t, nth_error ts i = Some t /\ index ts i = Ok t.
Proof.
  intros ts i H. unfold index. destruct (nth_error ts i) as [t|] eqn:E; [eauto|].
  apply nth_error_None in E. lia.
Qed.

Lemma back_loop_spec : forall ts pos, (pos < length ts)%nat ->
  exists b, back_loop ts pos = Ok b /\
  (b = true <->
   exists q, (q <= pos)%nat
     /\ (forall k t, (q < k)%nat -> (k <= pos)%nat -> nth_error ts k = Some t -> useless t = true)
     /\ (q = 0%nat \/ nth_error ts q = Some (TChar Comma)
         \/ nth_error ts q = Some (TKeyword KLet) \/ nth_error ts q = Some (TKeyword KVar))).
Proof.
  intros ts. induction pos as [|p IH]; intro H.
  - exists true. split; [reflexivity|]. split; [intros _|reflexivity].
    exists 0%nat. split; [lia|]. split; [intros; lia|]. left. reflexivity.
  - cbn [back_loop]. destruct (index_in ts (S p) H) as (t & Et & ->). cbn [obind].
    rewrite is_blank_useless. destruct (useless t) eqn:U.
    + destruct IH as (b & -> & Hb); [lia|]. exists b. split; [reflexivity|]. rewrite Hb. split.
      * intros (q & Q1 & Q2 & Q3). exists q. split; [lia|]. split; [|exact Q3].
        intros k u K1 K2 K3. destruct (Nat.eq_dec k (S p)) as [->|]; [congruence|].
        apply (Q2 k); auto; lia.
      * intros (q & Q1 & Q2 & Q3). destruct (Nat.eq_dec q (S p)) as [->|].
        -- exfalso. destruct Q3 as [Q|[Q|[Q|Q]]]; [discriminate| | |]; rewrite Et in Q;
             injection Q as ->; discriminate U.
        -- exists q. split; [lia|]. split; [|exact Q3]. intros k u K1 K2 K3. apply (Q2 k); auto; lia.
    + eexists. split; [reflexivity|]. split.
      * intro E. exists (S p). split; [lia|]. split; [intros; lia|]. right.
        apply orb_true_iff in E. destruct E as [E|E]; [apply orb_true_iff in E; destruct E as [E|E]|];
          apply token_eqb_eq in E; subst t; auto.
      * intros (q & Q1 & Q2 & Q3). destruct (Nat.eq_dec q (S p)) as [->|].
        -- destruct Q3 as [Q|[Q|[Q|Q]]]; [discriminate| | |]; rewrite Et in Q; injection Q as ->;
             reflexivity.
        -- exfalso. assert (useless t = true) by (apply (Q2 (S p)); auto; lia). congruence.
Qed.

Definition value_at (ts : list token) (e : nat) (v : nat) : Prop :=
  (e < v)%nat /\ (exists t, nth_error ts v = Some t /\ is_value t = true) /\ between useless ts e v.

Lemma is_value_eq : forall t,
  is_string t || is_other t || is_regex t || is_number t || is_floating_number t = is_value t.
Proof. destruct t; reflexivity. Qed.

Lemma useless_eq : forall t, negb (is_comment t) && negb (is_white_character t) = negb (useless t).
Proof. intro t. rewrite <- is_blank_useless. unfold is_blank. rewrite negb_orb. reflexivity. Qed.

Lemma value_loop_spec : forall n ts e i,
  (e < i)%nat -> between useless ts e i -> (length ts < n + i)%nat -> (0 < n)%nat ->
  exists o, value_loop n ts i = Ok o /\
  match o with
  | Some v => value_at ts e v
  | None => forall v, ~ value_at ts e v
  end.
Proof.
  induction n as [|n IH]; intros ts e i He Hb Hn H0; [lia|].
  cbn [value_loop]. destruct (Nat.ltb i (length ts)) eqn:L.
  - apply Nat.ltb_lt in L. destruct (index_in ts i L) as (t & Et & ->). cbn [obind].
    rewrite is_value_eq, useless_eq. destruct (is_value t) eqn:V.
    + exists (Some i). split; [reflexivity|]. split; [exact He|]. split; [eauto|exact Hb].
    + destruct (useless t) eqn:U; cbn [negb].
      * apply IH; [lia| |lia|lia]. intros k u K1 K2 K3.
        destruct (Nat.eq_dec k i) as [->|]; [congruence|]. apply (Hb k); auto; lia.
      * exists None. split; [reflexivity|]. intros v (A & (u & B & C) & D).
        destruct (lt_eq_lt_dec v i) as [[X|X]|X].
        -- specialize (Hb v u A X B). destruct u; try discriminate.
        -- subst v. congruence.
        -- assert (useless t = true) by (apply (D i); auto). congruence.
  - apply Nat.ltb_ge in L. exists None. split; [reflexivity|]. intros v (A & (u & B & C) & D).
    assert (v < length ts)%nat by (apply nth_error_Some; congruence).
    specialize (Hb v u A ltac:(lia) B). destruct u; discriminate.
Qed.

Definition decl_rest (ts : list token) (n : nat) (r : option nat) : Prop :=
  match r with
  | Some v =>
      exists e t,
        (n < e)%nat /\ (e < v)%nat
        /\ nth_error ts e = Some (TOperation Equal)
        /\ nth_error ts v = Some t /\ is_value t = true
        /\ between same_line_blank ts n e /\ between useless ts e v
  | None =>
      exists e t,
        (n < e)%nat /\ nth_error ts e = Some t
        /\ (t = TChar Comma \/ t = TChar SemiColon)
        /\ between same_line_blank ts n e
  end.

Lemma same_line_eq : forall t,
  is_comment t || (is_white_character t && negb (eq_char Backline t)) = same_line_blank t.
Proof. intro t. destruct t; try reflexivity. destruct c; reflexivity. Qed.

Lemma stop_unique : forall ts n i t,
  between same_line_blank ts n i -> nth_error ts i = Some t -> same_line_blank t = false ->
  (n < i)%nat ->
  forall r, decl_rest ts n r ->
  exists t', nth_error ts i = Some t'
    /\ match r with
       | Some v => t' = TOperation Equal /\ value_at ts i v
       | None => t' = TChar Comma \/ t' = TChar SemiColon
       end.
Proof.
  intros ts n i t Hb Hi Hs Hn r D. exists t. split; [exact Hi|].
  destruct r as [v|]; cbn [decl_rest] in D.
  - destruct D as (e & u & A & B & C & E & F & G & H).
    destruct (lt_eq_lt_dec e i) as [[X|X]|X].
    + specialize (Hb e _ A X C). discriminate.
    + subst e. split; [congruence|]. split; [exact B|]. split; [eauto|exact H].
    + specialize (G i _ Hn X Hi). congruence.
  - destruct D as (e & u & A & B & C & G).
    destruct (lt_eq_lt_dec e i) as [[X|X]|X].
    + specialize (Hb e _ A X B). destruct C; subst; discriminate.
    + subst e. congruence.
    + specialize (G i _ Hn X Hi). congruence.
Qed.

Lemma name_loop_spec : forall m ts n i,
  (n < i)%nat -> between same_line_blank ts n i -> (length ts < m + i)%nat -> (0 < m)%nat ->
  exists o, name_loop m ts i = Ok o /\
  match o with
  | Some r => decl_rest ts n r
  | None => forall r, ~ decl_rest ts n r
  end.
Proof.
  induction m as [|m IH]; intros ts n i Hn Hb Hm H0; [lia|].
  cbn [name_loop]. destruct (Nat.ltb i (length ts)) eqn:L.
  - apply Nat.ltb_lt in L. destruct (index_in ts i L) as (t & Et & ->). cbn [obind].
    destruct (token_eqb t (TOperation Equal)) eqn:Eq.
    + apply token_eqb_eq in Eq. subst t.
      destruct (value_loop_spec (S (length ts)) ts i (S i)) as (o & -> & Ho); [lia| |lia|lia|].
      { intros k u K1 K2. lia. }
      cbn [obind]. destruct o as [v|].
      * exists (Some (Some v)). split; [reflexivity|]. destruct Ho as (A & (u & B & C) & D).
        exists i, u. auto 10.
      * exists None. split; [reflexivity|]. intros r D.
        destruct (stop_unique ts n i _ Hb Et eq_refl Hn r D) as (t' & T1 & T2).
        destruct r as [v|]; [apply (Ho v), T2|].
        rewrite Et in T1. destruct T2; congruence.
    + destruct (eq_char Comma t || eq_char SemiColon t) eqn:C.
      * exists (Some None). split; [reflexivity|]. exists i, t. split; [exact Hn|].
        split; [exact Et|]. split; [|exact Hb].
        apply orb_true_iff in C. destruct C as [C|C]; apply eq_char_eq in C; auto.
      * rewrite same_line_eq. destruct (same_line_blank t) eqn:S; cbn [negb].
        -- apply IH; [lia| |lia|lia]. intros k u K1 K2 K3.
           destruct (Nat.eq_dec k i) as [->|]; [congruence|]. apply (Hb k); auto; lia.
        -- exists None. split; [reflexivity|]. intros r D.
           destruct (stop_unique ts n i _ Hb Et S Hn r D) as (t' & T1 & T2).
           assert (t' = t) by congruence. subst t'.
           destruct r as [v|].
           ++ destruct T2 as [-> _]. rewrite (proj2 (token_eqb_eq _ _) eq_refl) in Eq. discriminate.
           ++ destruct T2 as [-> | ->]; discriminate C.
  - apply Nat.ltb_ge in L. exists None. split; [reflexivity|]. intros r D.
    destruct r as [v|]; cbn [decl_rest] in D.
    + destruct D as (e & u & A & B & C & _). assert (e < length ts)%nat by (apply nth_error_Some; congruence).
      specialize (Hb e _ A ltac:(lia) C). discriminate.
    + destruct D as (e & u & A & B & C & _). assert (e < length ts)%nat by (apply nth_error_Some; congruence).
      specialize (Hb e _ A ltac:(lia) B). destruct C; subst; discriminate.
Qed.

Lemma is_name_eq : forall t, is_other t = is_name t.
Proof. destruct t; reflexivity. Qed.

Lemma declares_rest : forall ts n r,
  declares ts n r <-> ((exists t, nth_error ts n = Some t /\ is_name t = true) /\ decl_rest ts n r).
Proof. intros ts n [v|]; reflexivity. Qed.

Lemma var_loop_spec : forall m ts i, (length ts < m + i)%nat -> (0 < m)%nat ->
  exists o, var_loop m ts i = Ok o /\
  match o with
  | Some (n, r) => (i <= n)%nat /\ declares ts n r
                   /\ forall n' r', (i <= n')%nat -> (n' < n)%nat -> ~ declares ts n' r'
  | None => forall n' r', (i <= n')%nat -> ~ declares ts n' r'
  end.
Proof.
  induction m as [|m IH]; intros ts i Hm H0; [lia|].
  cbn [var_loop]. destruct (Nat.ltb i (length ts)) eqn:L.
  - apply Nat.ltb_lt in L. destruct (index_in ts i L) as (t & Et & ->). cbn [obind].
    assert (SKIP : (forall r, ~ declares ts i r) ->
      exists o, var_loop m ts (S i) = Ok o /\
      match o with
      | Some (n, r) => (i <= n)%nat /\ declares ts n r
                   /\ forall n' r', (i <= n')%nat -> (n' < n)%nat -> ~ declares ts n' r'
      | None => forall n' r', (i <= n')%nat -> ~ declares ts n' r'
      end).
    { intro N. destruct (IH ts (S i)) as (o & E & Ho); [lia|lia|]. exists o. split; [exact E|].
      destruct o as [[n r]|].
      - destruct Ho as (A & B & C). split; [lia|]. split; [exact B|]. intros n' r' K1 K2.
        destruct (Nat.eq_dec n' i) as [->|]; [apply N|]. apply C; lia.
      - intros n' r' K1. destruct (Nat.eq_dec n' i) as [->|]; [apply N|]. apply Ho; lia. }
    rewrite is_name_eq. destruct (is_name t) eqn:Nm.
    + destruct (name_loop_spec (S (length ts)) ts i (S i)) as (o & -> & Ho); [lia| |lia|lia|].
      { intros k u K1 K2. lia. }
      cbn [obind]. destruct o as [r|].
      * exists (Some (i, r)). split; [reflexivity|]. split; [lia|]. split.
        -- apply declares_rest. split; [eauto|exact Ho].
        -- intros; lia.
      * apply SKIP. intros r D. apply declares_rest in D. apply (Ho r), D.
    + apply SKIP. intros r D. apply declares_rest in D. destruct D as [(u & A & B) _]. congruence.
  - apply Nat.ltb_ge in L. exists None. split; [reflexivity|].
    intros n' r' K D. apply declares_rest in D. destruct D as [(u & A & B) _].
    assert (n' < length ts)%nat by (apply nth_error_Some; congruence). lia.
Qed.

Lemma get_variable_spec : forall ts pos,
  exists o, get_variable_name_and_value_positions ts pos = Ok o /\
  match o with
  | Some (n, r) =>
      exists start, search_from ts pos start /\ (start <= n)%nat /\ declares ts n r
      /\ forall n' r', (start <= n')%nat -> (n' < n)%nat -> ~ declares ts n' r'
  | None =>
      forall start n' r', search_from ts pos start -> (start <= n')%nat -> ~ declares ts n' r'
  end.
Proof.
  intros ts pos. unfold get_variable_name_and_value_positions.
  destruct (Nat.leb (length ts) pos) eqn:L.
  { apply Nat.leb_le in L. exists None. split; [reflexivity|].
    assert (N : nth_error ts pos = None) by (apply nth_error_None; lia).
    intros start n' r' [(k & A & _)|(s & A & _)]; congruence. }
  apply Nat.leb_gt in L. destruct (index_in ts pos L) as (t & Et & ->). cbn [obind].
  assert (OTHER : (forall k, t = TKeyword k -> k <> KLet /\ k <> KVar) -> (forall s, t <> TOther s) ->
     exists o, Ok None = Ok o /\
     match o with
     | Some (n, r) =>
      exists start, search_from ts pos start /\ (start <= n)%nat /\ declares ts n r
      /\ forall n' r', (start <= n')%nat -> (n' < n)%nat -> ~ declares ts n' r'
     | None =>
      forall start n' r', search_from ts pos start -> (start <= n')%nat -> ~ declares ts n' r'
     end).
  { intros K O. exists None. split; [reflexivity|].
    intros start n' r' [(k & A & B & _)|(s & A & _)]; rewrite Et in A; injection A as A.
    - destruct (K k A) as [K1 K2]. destruct B; contradiction.
    - exfalso. apply (O s A). }
  assert (RUN : forall start, search_from ts pos start -> (forall s', search_from ts pos s' -> s' = start) ->
     exists o, var_loop (S (length ts)) ts start = Ok o /\
     match o with
     | Some (n, r) =>
      exists start, search_from ts pos start /\ (start <= n)%nat /\ declares ts n r
      /\ forall n' r', (start <= n')%nat -> (n' < n)%nat -> ~ declares ts n' r'
     | None =>
      forall start n' r', search_from ts pos start -> (start <= n')%nat -> ~ declares ts n' r'
     end).
  { intros start SF U. destruct (var_loop_spec (S (length ts)) ts start) as (o & E & Ho); [lia|lia|].
    exists o. split; [exact E|]. destruct o as [[n r]|].
    - exists start. auto.
    - intros s' n' r' S' K. rewrite (U s' S') in K. apply Ho; exact K. }
  assert (KW : forall k, t = TKeyword k -> k = KLet \/ k = KVar ->
     search_from ts pos (S pos) /\ (forall s', search_from ts pos s' -> s' = S pos)).
  { intros k -> K. split.
    - left. exists k. auto.
    - intros s' [(k' & A & B & C)|(s & A & _)]; [exact C|congruence]. }
  destruct t; try (apply OTHER; intros; congruence).
  - destruct k; try (apply OTHER; [intros; split; congruence | intros; congruence]);
      (edestruct KW as [K1 K2]; [reflexivity|auto|]; apply RUN; assumption).
  - destruct pos as [|p].
    + exists None. split; [reflexivity|].
      intros start n' r' [(k & A & _)|(s0 & _ & A & _)]; [congruence|lia].
    + destruct (back_loop_spec ts p) as (b & -> & Hb); [lia|]. cbn [obind].
      assert (EQ : forall start, search_from ts (S p) start <-> (start = S p /\ b = true)).
      { intro start. rewrite Hb. split.
        - intros [(k & A & _)|(s0 & A & B & C & q & Q1 & Q2 & Q3)]; [congruence|].
          split; [exact C|]. exists q. split; [lia|]. split; [|exact Q3].
          intros k u K1 K2. apply Q2; lia.
        - intros [-> (q & Q1 & Q2 & Q3)]. right. exists s. split; [exact Et|]. split; [lia|].
          split; [reflexivity|]. exists q. split; [lia|]. split; [|exact Q3].
          intros k u K1 K2. apply Q2; lia. }
      destruct b.
      * apply RUN; [now apply EQ|]. intros s' S'. now apply EQ in S'.
      * exists None. split; [reflexivity|]. intros start n' r' S'. apply EQ in S'. destruct S'; discriminate.
Qed.

(** ** Names *)

(** The digits in base 62: a-z, A-Z, 0-9. *)
Definition digit (c : N) : N :=
  if (0x61 <=? c) && (c <=? 0x7A) then c - 0x61
  else if (0x41 <=? c) && (c <=? 0x5A) then c - 0x41 + 26
  else c - 0x30 + 52.

Fixpoint rank (l : list N) : N :=
  match l with
  | [] => 0
  | c :: r => digit c + 1 + 62 * rank r
  end.

Lemma digit_lt : forall c, alnum c = true -> digit c < 62.
Proof. intros c H. unfold alnum, digit in *. destruct ((0x61 <=? c) && (c <=? 0x7A)) eqn:A; destruct ((0x41 <=? c) && (c <=? 0x5A)) eqn:B; lia. Qed.

Lemma digit_inj : forall c d, alnum c = true -> alnum d = true -> digit c = digit d -> c = d.
Proof.
  intros c d H K. unfold alnum, digit in *.
  destruct ((0x61 <=? c) && (c <=? 0x7A)) eqn:A; destruct ((0x41 <=? c) && (c <=? 0x5A)) eqn:B;
  destruct ((0x61 <=? d) && (d <=? 0x7A)) eqn:C; destruct ((0x41 <=? d) && (d <=? 0x5A)) eqn:D; lia.
Qed.

Definition letters_ok (l : list N) : Prop := Forall (fun c => alnum c = true) l.

Lemma rank_inj : forall l m, letters_ok l -> letters_ok m -> rank l = rank m -> l = m.
Proof.
  induction l as [|c l IH]; intros [|d m] Hl Hm E; cbn [rank] in E; auto.
  - exfalso. lia.
  - exfalso. lia.
  - inversion Hl; subst. inversion Hm; subst.
    pose proof (digit_lt c H1). pose proof (digit_lt d H3).
    assert (rank l = rank m) by lia. assert (digit c = digit d) by lia.
    f_equal; [apply digit_inj; auto|apply IH; auto].
Qed.

Lemma incr_ok : forall l, letters_ok l ->
  letters_ok (incr_letters l) /\ rank (incr_letters l) = rank l + 1
  /\ (length l <= length (incr_letters l))%nat.
Proof.
  induction l as [|c l IH]; intro H; cbn [incr_letters].
  - split; [repeat constructor|]. split; [reflexivity|]. cbn; lia.
  - inversion H; subst. destruct (IH H3) as (A & B & C).
    destruct (c =? 0x7A) eqn:E1; [|destruct (c =? 0x5A) eqn:E2; [|destruct (c =? 0x39) eqn:E3]].
    + split; [constructor; auto|]. split; [|cbn; lia]. assert (c = 0x7A) by lia. subst c. cbn [rank].
      change (digit 0x41) with 26. change (digit 0x7A) with 25. lia.
    + split; [constructor; auto|]. split; [|cbn; lia]. assert (c = 0x5A) by lia. subst c. cbn [rank].
      change (digit 0x30) with 52. change (digit 0x5A) with 51. lia.
    + split; [constructor; auto|]. split; [|cbn; lia]. assert (c = 0x39) by lia. subst c. cbn [rank].
      change (digit 0x61) with 0. change (digit 0x39) with 61. rewrite B. lia.
    + split; [constructor; auto; unfold alnum in *; lia|]. split; [|cbn; lia]. cbn [rank].
      assert (digit (c + 1) = digit c + 1); [|lia]. unfold digit, alnum in *.
      destruct ((0x61 <=? c) && (c <=? 0x7A)) eqn:A1; destruct ((0x41 <=? c) && (c <=? 0x5A)) eqn:B1;
      destruct ((0x61 <=? c + 1) && (c + 1 <=? 0x7A)) eqn:C1; destruct ((0x41 <=? c + 1) && (c + 1 <=? 0x5A)) eqn:D1; lia.
Qed.

Fixpoint nth_gen (g : namegen) (i : nat) : namegen :=
  match i with O => g | S j => namegen_next (nth_gen g j) end.

Lemma nth_gen_ok : forall g i, letters_ok (letters g) ->
  letters_ok (letters (nth_gen g i)) /\ rank (letters (nth_gen g i)) = rank (letters g) + N.of_nat i
  /\ (length (letters g) <= length (letters (nth_gen g i)))%nat
  /\ prepend (nth_gen g i) = prepend g.
Proof.
  intros g i H. induction i as [|i (A & B & C & D)]; cbn [nth_gen].
  - repeat split; auto. lia.
  - unfold namegen_next. cbn [letters prepend]. destruct (incr_ok _ A) as (A' & B' & C').
    repeat split; auto; try lia. 
Qed.

Lemma new_ok : forall p n, letters_ok (letters (namegen_new p n)) /\ (n <= length (letters (namegen_new p n)))%nat.
Proof.
  intros p n. unfold namegen_new. cbn [letters]. induction n as [|n [A B]].
  - split; [repeat constructor|cbn; lia].
  - destruct n as [|n]; [split; [repeat constructor|cbn; lia]|].
    change (new_letters (S (S n))) with (0x61 :: new_letters (S n)).
    split; [constructor; auto|cbn [length]; lia].
Qed.

Lemma names_distinct : forall p n i j,
  namegen_show (nth_gen (namegen_new p n) i) = namegen_show (nth_gen (namegen_new p n) j) -> i = j.
Proof.
  intros p n i j E. unfold namegen_show in E. destruct (new_ok p n) as [K _].
  destruct (nth_gen_ok _ i K) as (A1 & A2 & A3 & A4).
  destruct (nth_gen_ok _ j K) as (B1 & B2 & B3 & B4).
  rewrite A4, B4 in E. apply app_inv_head in E. rewrite E in A2. lia.
Qed.

(** Every name of that shape is produced (the generator is complete). *)
Lemma rank_ge : forall n l, letters_ok l -> (n <= length l)%nat -> (1 <= length l)%nat -> rank (new_letters n) <= rank l.
Proof.
  induction n as [|n IH]; intros l H L L1.
  - destruct l; cbn in *; [lia|]. change (digit 0x61) with 0. lia.
  - destruct n as [|n].
    + destruct l; cbn in *; [lia|]. change (digit 0x61) with 0. lia.
    + destruct l as [|c l]; [cbn in L; lia|]. inversion H; subst.
      change (new_letters (S (S n))) with (0x61 :: new_letters (S n)). cbn [rank].
      cbn [length] in L. assert (rank (new_letters (S n)) <= rank l) by (apply IH; auto; lia).
      change (digit 0x61) with 0. lia.
Qed.

Lemma names_complete : forall p n l, letters_ok l -> (n <= length l)%nat -> (1 <= length l)%nat ->
  exists i, letters (nth_gen (namegen_new p n) i) = l.
Proof.
  intros p n l H L L1. destruct (new_ok p n) as [K _].
  pose proof (rank_ge n l H L L1) as R. cbn [namegen_new letters] in K.
  exists (N.to_nat (rank l - rank (new_letters n))).
  destruct (nth_gen_ok _ (N.to_nat (rank l - rank (new_letters n))) (proj1 (new_ok p n))) as (A1 & A2 & A3 & A4).
  apply rank_inj; auto. rewrite A2. cbn [namegen_new letters]. lia.
Qed.

(** ** Keywords, operators, characters *)

Lemma keyword_of_show : forall k, keyword_of (keyword_show k) = Some k.
Proof. destruct k; vm_compute; reflexivity. Qed.

Lemma keyword_of_sound : forall s k, keyword_of s = Some k -> s = keyword_show k.
Proof.
  intros s k H. unfold keyword_of in H.
  repeat match type of H with
  | (if str_eqb s ?x then _ else _) = _ =>
      destruct (str_eqb s x) eqn:?E;
      [apply str_eqb_eq in E; injection H as <-; exact E|clear E]
  end. discriminate.
Qed.

Lemma rchar_of_sound : forall c k, rchar_of c = Some k ->
  rchar_show k = c \/ (c = 0xD /\ k = Backline).
Proof.
  intros c k H. unfold rchar_of in H.
  repeat match type of H with
  | (if c =? ?x then _ else _) = _ =>
      let E := fresh "E" in
      destruct (c =? x) eqn:E;
      [apply N.eqb_eq in E; subst c; injection H as <-; left; reflexivity|clear E]
  | (if (c =? ?x) || (c =? ?y) then _ else _) = _ =>
      let E := fresh "E" in
      destruct (c =? x) eqn:E;
      [apply N.eqb_eq in E; subst c; injection H as <-; left; reflexivity|clear E];
      destruct (c =? y) eqn:E;
      [apply N.eqb_eq in E; subst c; injection H as <-; right; split; reflexivity|clear E];
      cbn [orb] in H
  end. discriminate H.
Qed.

Lemma rchar_of_show : forall k, rchar_of (rchar_show k) = Some k.
Proof. destruct k; reflexivity. Qed.
