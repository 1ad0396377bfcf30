(** The documented aggregation of plain programs into an array: the text, its tokens and its tree. *)
From Coq Require Import String List NArith ZArith Bool Lia ZifyBool ZifyN Arith Permutation.
From Coq Require Decimal DecimalFacts DecimalN.
From Verif Require Import Base JsModel JsUtilModel JsUtilSpec JsUtilProofs JsUtilProofs2 JsLexSpec
  JsLexProofs1 JsLexProofs2 JsLexProofs3 JsWords JsLexProofs4 JsLexProofs6 JsRoundSpec JsRoundProofs1 JsRoundProofs2 JsRoundProofs3
  JsLayoutSpec JsLayoutProofs JsAggModel JsAggSpec JsAggProofs3 JsArrSpec JsArrProofs3 JsArrProofs4 JsPipeSpec JsPipeProofs JsPipeProofs2
  EsSpec EsProofs1 EsProofs2 JsPlainSpec JsPlainProofs1 JsPlainProofs2 JsTreeSpec JsTreeProofs1 JsTreeProofs4 JsTreeProofs5
  JsAggTreeSpec JsAggTreeProofs1 JsAggTreeProofs2 JsArrTreeSpec.
Import ListNotations.
Open Scope N_scope.

(** ** Numbers *)

Lemma ordinal_show : forall k, ordinal k = number_show (N.of_nat k).
Proof.
  intro k. unfold ordinal, number_show. generalize (N.to_uint (N.of_nat k)). induction u; cbn [figures uint_show]; congruence.
Qed.

Lemma ordinal_digits : forall k, forallb digit (ordinal k) = true.
Proof.
  intro k. rewrite ordinal_show. apply forallb_forall. intros c I. apply digit_facts in I. unfold digit. lia.
Qed.

Lemma ordinal_zero : forall k r, ordinal k = 0x30 :: r -> r = [].
Proof.
  intros k r. unfold ordinal.
  assert (E : N.to_uint (N.of_nat k) = Decimal.unorm (N.to_uint (N.of_nat k))) by (rewrite <- DecimalN.Unsigned.to_of, DecimalN.Unsigned.of_to; reflexivity).
  rewrite E. generalize (N.to_uint (N.of_nat k)). intros u H. unfold Decimal.unorm in H. destruct (Decimal.nzhead u) eqn:Z; try discriminate H.
  - cbn [figures] in H. now injection H as <-.
  - exfalso. exact (DecimalFacts.nzhead_nonzero _ _ Z).
Qed.

Lemma ordinal_head : forall k, exists c r, ordinal k = c :: r /\ digit c = true.
Proof.
  intro k. pose proof (ordinal_digits k) as D. destruct (number_show_digits (N.of_nat k)) as (_ & _ & Ne). rewrite <- ordinal_show in Ne.
  destruct (ordinal k) as [|c r]; [congruence|]. exists c, r. split; [reflexivity|]. cbn [forallb] in D. apply andb_true_iff in D. exact (proj1 D).
Qed.

Lemma take_digits_all : forall s, forallb digit s = true -> take_digits digit s = (s, []).
Proof.
  induction s as [|c s IH]; intro H; [reflexivity|]. cbn [forallb] in H. apply andb_true_iff in H. destruct H as [A B]. cbn [take_digits]. rewrite A, (IH B). reflexivity.
Qed.

(** ** Positions *)

Lemma position_nth : forall elems s k, position elems s = Some k -> nth_error elems k = Some s.
Proof.
  induction elems as [|t r IH]; intros s k H; [discriminate H|]. cbn [position] in H. destruct (str_eqb s t) eqn:E.
  - apply str_eqb_eq in E. injection H as <-. subst t. reflexivity.
  - destruct (position r s) as [n|] eqn:P; [|discriminate H]. injection H as <-. cbn [nth_error]. now apply IH.
Qed.

Lemma position_is : forall elems s k, NoDup elems -> nth_error elems k = Some s -> position elems s = Some k.
Proof.
  induction elems as [|t r IH]; intros s k N H; [destruct k; discriminate H|]. inversion N as [|? ? N1 N2]; subst. cbn [position]. destruct k as [|k]; cbn [nth_error] in H.
  - injection H as ->. rewrite str_eqb_refl. reflexivity.
  - destruct (str_eqb s t) eqn:E; [apply str_eqb_eq in E; subst t; exfalso; apply N1; now apply nth_error_In in H|]. rewrite (IH s k N2 H). reflexivity.
Qed.

Lemma position_none : forall elems s, ~ In s elems -> position elems s = None.
Proof.
  induction elems as [|t r IH]; intros s N; [reflexivity|]. cbn [position]. destruct (str_eqb s t) eqn:E.
  - apply str_eqb_eq in E. exfalso. apply N. now left.
  - rewrite (IH s); [reflexivity|]. intro I. apply N. now right.
Qed.

(** ** The replaced tokens *)

Definition via_tokens (name : str) (news : list str) (t : token) : list token :=
  match t with
  | TString x => match position news (content x) with Some k => spelt name k | None => [t] end
  | _ => [t]
  end.

Lemma array_via_tokens : forall name ts news ts', array_aggregation ts (fun _ _ => true) [] name [] news ts' ->
  (forall x, ~ In (TCreatedVar x) ts) -> (forall s, In s news -> (2 <= length (filter (str_eqb s) (contents ts)))%nat) ->
  vias name ts news ts ts' (flat_map (via_tokens name news) ts).
Proof.
  intros name ts news ts' A NC Pays.
  assert (Z : forall i t, nth_error ts i = Some t -> exists t', nth_error ts' i = Some t' /\ via name ts news t t' (via_tokens name news t)).
  { intros i t E. destruct (aa_tokens _ _ _ _ _ _ _ A i t E) as (t' & E' & G). cbn [app] in G. exists t'. split; [exact E'|].
    destruct G as [x k El Ek|t H].
    - cbn [via_tokens]. rewrite (position_is _ _ _ (aa_news _ _ _ _ _ _ _ A) Ek). apply via_ref; [|exact Ek]. cbn [shared]. apply Nat.leb_le. apply Pays. now apply nth_error_In in Ek.
    - assert (V : via_tokens name news t = [t]).
      { destruct t; try reflexivity. cbn [via_tokens]. rewrite position_none; [reflexivity|]. intro I. apply (H s eq_refl). split; [|exact I]. split; [intros []|reflexivity]. }
      rewrite V. apply via_same. intros x ->. apply nth_error_In in E. exact (NC x E). }
  pose proof (aa_length _ _ _ _ _ _ _ A) as L. clear - Z L.
  assert (G : forall us ts', (forall i t, nth_error us i = Some t -> exists t', nth_error ts' i = Some t' /\ via name ts news t t' (via_tokens name news t)) -> length ts' = length us ->
    vias name ts news us ts' (flat_map (via_tokens name news) us)).
  { clear. induction us as [|t us IH]; intros [|t' ts'] Z L; try discriminate L; [constructor|].
    destruct (Z 0%nat t eq_refl) as (y & E & V). cbn in E. injection E as ->. cbn [flat_map]. constructor; [exact V|]. apply IH; [intros i x E; exact (Z (S i) x E)|now injection L]. }
  exact (G ts ts' Z L).
Qed.

Lemma via_filter : forall name news ts,
  filter (fun t => negb (useless t)) (flat_map (via_tokens name news) ts) = flat_map (via_tokens name news) (filter (fun t => negb (useless t)) ts).
Proof.
  intros name news. induction ts as [|t ts IH]; [reflexivity|]. cbn [flat_map filter]. rewrite filter_app, IH.
  assert (E : filter (fun t => negb (useless t)) (via_tokens name news t) = if negb (useless t) then via_tokens name news t else []).
  { destruct t; try reflexivity; try (cbn [via_tokens filter]; destruct (negb _); reflexivity). cbn [via_tokens]. destruct (position news (content s)); reflexivity. }
  rewrite E. destruct (negb (useless t)); reflexivity.
Qed.

Section T.
Variables start_u part_u : N -> bool.
Notation id_part := (EsSpec.id_part start_u part_u).
Notation plain_piece := (JsPlainSpec.plain_piece start_u part_u).
Notation splain := (JsPlainSpec.plain start_u part_u).
Notation runs_on := (EsSpec.runs_on start_u part_u).
Notation sapart := (JsPlainSpec.apart start_u part_u).
Notation pairs := (Forall2 (fun e ts => plain_piece e = true /\ mins e ts)).

(** ** Tokens of one piece *)

Definition still (t : token) : bool := neutral t && match t with TRegex _ _ _ => false | _ => true end.

Lemma sign_still : forall e, plain_piece e = true -> fst e = Punct -> forallb still (sign_tokens (snd e)) = true.
Proof.
  intros e H K. pose proof (punct_in _ _ e H K) as I.
  assert (F : forallb (fun p => forallb still (sign_tokens p)) puncts = true) by (vm_compute; reflexivity). rewrite forallb_forall in F. exact (F _ I).
Qed.

Lemma piece_cases : forall e ts, plain_piece e = true -> mins e ts ->
  (word e = true /\ quoted e = false /\ kind_eqb (fst e) Regex = false /\ ts = [word_token (snd e)])
  \/ (word e = false /\ quoted e = true /\ kind_eqb (fst e) Regex = false /\ ts = [TString (snd e)])
  \/ (word e = false /\ quoted e = false /\ kind_eqb (fst e) Regex = true /\ exists b g i, ts = [TRegex b g i])
  \/ (word e = false /\ quoted e = false /\ kind_eqb (fst e) Regex = false /\ forallb still ts = true).
Proof.
  intros e ts H M. pose proof (sign_still e H) as SN. unfold mins in M. unfold word, JsAggTreeSpec.quoted. destruct (fst e) eqn:Q; try contradiction; auto 10.
  - right. right. right. subst ts. auto.
  - right. right. left. destruct M as (b & g & i & -> & _). eauto 10.
Qed.

Lemma still_shared : forall w t, still t = true -> wordy t = false /\ shared w t = false /\ match t with TRegex _ _ _ => true | _ => false end = false.
Proof.
  intros w t H. unfold still, neutral in H. apply andb_true_iff in H. destruct H as [A B]. apply andb_true_iff in A. destruct A as [A1 A2]. apply negb_true_iff in A1.
  split; [exact A1|]. destruct t; try (split; reflexivity); try discriminate A2. discriminate B.
Qed.

Lemma contents_still : forall ts, forallb still ts = true -> contents ts = [].
Proof.
  induction ts as [|t ts IH]; intro H; [reflexivity|]. cbn [forallb] in H. apply andb_true_iff in H. destruct H as [A B]. unfold contents. cbn [flat_map]. fold (contents ts).
  destruct t; try exact (IH B). discriminate A.
Qed.

Lemma contents_word : forall w, contents [word_token w] = [].
Proof. intro w. pose proof (word_token_wordy w) as W. destruct (word_token w); try reflexivity. discriminate W. Qed.

Lemma sharing_contents : forall ps tss s, pairs ps tss -> length (filter (str_eqb s) (contents (concat tss))) = sharing ps s.
Proof.
  intros ps tss s F. induction F as [|e ts ps tss [P M] F IH]; [reflexivity|]. cbn [concat]. rewrite contents_app, filter_app, app_length, IH. unfold sharing. cbn [filter].
  destruct (piece_cases e ts P M) as [(_ & -> & _ & ->)|[(_ & -> & _ & ->)|[(_ & -> & _ & b & g & i & ->)|(_ & -> & _ & Z)]]]; cbn [andb].
  - rewrite contents_word. reflexivity.
  - cbn [contents flat_map app filter]. change (content (snd e)) with (inner (snd e)). destruct (str_eqb s (inner (snd e))); reflexivity.
  - reflexivity.
  - rewrite (contents_still _ Z). reflexivity.
Qed.

Lemma shared_alike : forall ps tss e, pairs ps tss -> quoted e = true -> shared (concat tss) (TString (snd e)) = alike ps e.
Proof. intros ps tss e F Q. cbn [shared]. unfold alike. rewrite Q, (sharing_contents _ _ _ F). reflexivity. Qed.

Lemma word_shared : forall w t, wordy t = true -> shared w t = false.
Proof. intros w t H. destruct t; (reflexivity || discriminate H). Qed.

(** The first token and the last. *)
Lemma ends_facts : forall ps0 tss0 e ts, pairs ps0 tss0 -> plain_piece e = true -> mins e ts -> exists t r, ts = t :: r
  /\ shared (concat tss0) t = alike ps0 e /\ is_in t = named ["in"; "instanceof"]%string e
  /\ (r = [] /\ wordy t = word e /\ match t with TRegex _ _ _ => true | _ => false end = kind_eqb (fst e) Regex \/ forallb still (t :: r) = true).
Proof.
  intros ps0 tss0 e ts F P M. destruct (mins_fits _ _ e ts P M) as [F1 F2 F3 F4 F5 F6 F7 F8 F9]. destruct ts as [|t r]; [congruence|]. exists t, r. split; [reflexivity|]. cbn [hd] in F7.
  destruct (piece_cases e (t :: r) P M) as [(W & Q & K & E)|[(W & Q & K & E)|[(W & Q & K & b & g & i & E)|(W & Q & K & Z)]]].
  - injection E as -> ->. pose proof (word_token_wordy (snd e)) as T. split; [unfold alike; rewrite Q; now apply word_shared|]. split; [exact F7|]. left. rewrite W, K. repeat split; [exact T|].
    destruct (word_token (snd e)); try reflexivity. discriminate T.
  - injection E as -> ->. split; [exact (shared_alike _ _ e F Q)|]. split; [exact F7|]. left. rewrite W, K. auto.
  - injection E as -> ->. split; [unfold alike; rewrite Q; reflexivity|]. split; [exact F7|]. left. rewrite W, K. auto.
  - split; [|split; [exact F7|now right]]. cbn [forallb] in Z. apply andb_true_iff in Z. unfold alike. rewrite Q. exact (proj1 (proj2 (still_shared _ _ (proj1 Z)))).
Qed.

Lemma clear_around_cons : forall whole a l, clear_around whole (a :: l) = match l with
  | b :: _ => negb (alike whole b && (word a || kind_eqb (fst a) Regex || alike whole a))
      && negb (alike whole a && named ["in"; "instanceof"]%string b) && clear_around whole l
  | [] => true end.
Proof. intros whole a [|b l]; reflexivity. Qed.

Lemma clear_array_cons : forall whole a l, clear_for_array whole (a :: l) = match l with
  | b :: _ => negb (shared whole b && (wordy a || match a with TRegex _ _ _ => true | _ => false end || shared whole a))
      && negb (shared whole a && is_in b) && clear_for_array whole l
  | [] => true end.
Proof. intros whole a [|b l]; reflexivity. Qed.

Lemma clear_still : forall whole ts r, forallb still ts = true -> clear_for_array whole (ts ++ r) = clear_for_array whole r.
Proof.
  intros whole ts r H. induction ts as [|t ts IH]; [reflexivity|]. cbn [forallb] in H. apply andb_true_iff in H. destruct H as [A B]. rewrite <- (IH B).
  cbn [app]. rewrite clear_array_cons. destruct (still_shared whole t A) as (-> & -> & ->). destruct (ts ++ r) as [|b l]; [reflexivity|]. cbn [orb andb negb]. rewrite andb_false_r. reflexivity.
Qed.

Lemma clear_tokens : forall ps0 tss0, pairs ps0 tss0 -> forall ps tss, pairs ps tss -> clear_around ps0 ps = true -> clear_for_array (concat tss0) (concat tss) = true.
Proof.
  intros ps0 tss0 F0 ps tss F. induction F as [|e ts ps tss [P M] F IH]; intro B; [reflexivity|]. cbn [concat].
  assert (B' : clear_around ps0 ps = true) by (rewrite clear_around_cons in B; destruct ps; [reflexivity|apply andb_true_iff in B; exact (proj2 B)]). specialize (IH B').
  destruct (ends_facts ps0 tss0 e ts F0 P M) as (t & r & -> & T & _ & [(-> & W & K)|Z]); [|rewrite (clear_still _ _ _ Z); exact IH].
  cbn [app]. rewrite clear_array_cons. destruct F as [|e2 ts2 ps tss [P2 M2] F]; [reflexivity|].
  destruct (ends_facts ps0 tss0 e2 ts2 F0 P2 M2) as (t2 & r2 & -> & T2 & I2 & _). cbn [concat app]. cbn [concat app] in IH.
  rewrite clear_around_cons in B. apply andb_true_iff in B. destruct B as [B _]. apply andb_true_iff in B. destruct B as [B1 B2]. rewrite IH, W, K, T, T2, I2, B2, !andb_true_r. exact B1.
Qed.

Lemma token_piece : forall ps tss x, pairs ps tss -> In (TString x) (concat tss) -> exists e, In e ps /\ plain_piece e = true /\ quoted e = true /\ snd e = x.
Proof.
  intros ps tss x F. induction F as [|e ts ps tss [P M] F IH]; intro I; [destruct I|]. cbn [concat] in I. apply in_app_or in I. destruct I as [I|I].
  - exists e. destruct (piece_cases e ts P M) as [(_ & Q & _ & ->)|[(_ & Q & _ & ->)|[(_ & Q & _ & b & g & i & ->)|(_ & Q & _ & Z)]]].
    + destruct I as [I|[]]. pose proof (word_token_wordy (snd e)) as T. rewrite I in T. discriminate T.
    + destruct I as [I|[]]. injection I as <-. split; [now left|auto].
    + destruct I as [I|[]]. discriminate I.
    + rewrite forallb_forall in Z. specialize (Z _ I). discriminate Z.
  - destruct (IH I) as (e' & J & X). exists e'. split; [now right|exact X].
Qed.

Lemma requoted_piece : forall ps e, requotes start_u part_u ps = true -> In e ps -> alike ps e = true -> fst e = Text /\ plain_piece (Text, requoted (inner (snd e))) = true.
Proof.
  intros ps e H I A. unfold requotes in H. rewrite forallb_forall in H. specialize (H e I). rewrite A in H. cbn [negb orb] in H. apply andb_true_iff in H. destruct H as [K H].
  split; [destruct (fst e); (reflexivity || discriminate K)|]. unfold JsPlainSpec.plain_piece. rewrite H. reflexivity.
Qed.

Lemma requoted_body : forall s, plain_piece (Text, requoted s) = true -> string_body 0x22 s.
Proof.
  intros s H. destruct (text_chars _ _ _ H eq_refl) as (q & b & E & _ & B). cbn [snd] in E. unfold requoted in E. injection E as <- E.
  apply app_inj_tail in E. destruct E as [-> _]. exact B.
Qed.

Lemma requotable_tokens : forall ps tss, pairs ps tss -> requotes start_u part_u ps = true -> requotable (concat tss).
Proof.
  intros ps tss F H x I S. destruct (token_piece _ _ _ F I) as (e & J & P & Q & <-). rewrite (shared_alike _ _ e F Q) in S. destruct (requoted_piece ps e H J S) as [K L]. split.
  - destruct (text_chars _ _ e P K) as (q & b & -> & [-> | ->] & _); discriminate.
  - exact (requoted_body _ L).
Qed.

Lemma unused_tokens : forall name ps tss, pairs ps tss -> unused name ps = true -> ~ In (TOther name) (concat tss).
Proof.
  intros name ps tss F. induction F as [|e ts ps tss [P M] F IH]; intros R I; [exact I|]. cbn [unused forallb] in R. apply andb_true_iff in R. destruct R as [R1 R2].
  cbn [concat] in I. apply in_app_or in I. destruct I as [I|I]; [|exact (IH R2 I)].
  destruct (piece_cases e ts P M) as [(W & _ & _ & ->)|[(_ & _ & _ & ->)|[(_ & _ & _ & b & g & i & ->)|(_ & _ & _ & Z)]]].
  - destruct I as [I|[]]. apply word_token_other in I. rewrite W, <- I, str_eqb_refl in R1. discriminate R1.
  - destruct I as [I|[]]. discriminate I.
  - destruct I as [I|[]]. discriminate I.
  - rewrite forallb_forall in Z. specialize (Z _ I). discriminate Z.
Qed.


(** ** The pieces of the result *)

Section Array.
Variable name : str.
Hypothesis name_ok : array_name name.
Hypothesis name_binding : binding name = true.
Variable elems : list str.
Variable whole : list element.
Hypothesis elems_small : N.of_nat (length elems) <= 2 ^ 64.
Hypothesis elems_shared : forall s, In s elems -> (2 <= sharing whole s)%nat.
Hypothesis elems_plain : forall s, In s elems -> plain_piece (Text, requoted s) = true.

Lemma first_char : exists c r, name = c :: r /\ EsSpec.id_start start_u c = true /\ (letter c = true \/ c = 0x5F \/ c = 0x24).
Proof.
  destruct (name_head name name_ok) as (c & r & E & H & D). exists c, r. split; [exact E|].
  assert (Z : letter c = true \/ c = 0x5F \/ c = 0x24).
  { destruct H as [H|H]; [|right; exact H]. left. unfold letter, alnum, is_digit in *. lia. }
  split; [|exact Z]. unfold EsSpec.id_start. destruct Z as [-> | [-> | ->]]; reflexivity.
Qed.

Lemma name_parts : forallb id_part name = true.
Proof.
  destruct name_ok as (F & _ & _). apply forallb_forall. intros c I. rewrite Forall_forall in F. destruct (F c I) as [H|[-> | ->]]; [exact (alnum_part _ _ c H)|reflexivity|reflexivity].
Qed.

Lemma first_scan : forall c r, letter c = true \/ c = 0x5F \/ c = 0x24 -> EsSpec.id_start start_u c = true ->
  scan start_u part_u false false (c :: r) = Some ((Name, fst (take_name start_u part_u (c :: r))), snd (take_name start_u part_u (c :: r))).
Proof.
  intros c r Z S0. unfold EsSpec.scan.
  assert (A : white c || line_end c = false /\ (c =? 0x2F) = false /\ one_of [0x22; 0x27] c = false /\ ((c =? 0x60) || ((c =? 0x7D) && false)) = false /\ (c =? 0x23) = false /\ digit c = false /\ (c =? 0x2E) = false).
  { unfold white, line_end, digit, letter, one_of in *. cbn [existsb]. destruct Z as [Z|[-> | ->]]; [lia|repeat split; reflexivity|repeat split; reflexivity]. }
  destruct A as (-> & -> & -> & -> & -> & -> & ->). cbn [orb andb]. rewrite S0. reflexivity.
Qed.

Lemma array_name_piece : plain_piece (Name, name) = true.
Proof.
  destruct first_char as (c & r & E & S0 & Z). pose proof name_parts as A. unfold JsPlainSpec.plain_piece. apply andb_true_iff. split.
  - unfold JsPlainSpec.alone. cbn [fst snd kind_eqb]. rewrite E in A |- *. rewrite (first_scan c r Z S0). unfold EsSpec.take_name. rewrite (take_all _ _ A). cbn [fst snd andb kind_eqb]. apply str_eqb_refl.
  - cbn [fst snd]. apply negb_true_iff. pose proof (JsPipeProofs2.name_token name name_ok) as W. unfold word_token in W. destruct (keyword_of name); [discriminate W|].
    destruct (u64_of name); [discriminate W|]. destruct (f64_ok name) eqn:F; [discriminate W|]. unfold f64_ok in F.
    assert (Dr : drop_sign name = name) by (rewrite E; cbn [drop_sign]; replace ((c =? 0x2B) || (c =? 0x2D)) with false by (unfold letter in Z; lia); reflexivity).
    rewrite Dr in F. apply orb_false_iff in F. destruct F as [F _]. unfold is_text. cbn [map existsb]. rewrite orb_false_r, orb_assoc. exact F.
Qed.

Lemma array_name_mins : mins (Name, name) [TOther name].
Proof. unfold mins. cbn [fst snd]. rewrite (JsPipeProofs2.name_token name name_ok). reflexivity. Qed.

Lemma ordinal_piece : forall k, plain_piece (Number, ordinal k) = true.
Proof.
  intro k. pose proof (ordinal_digits k) as D. destruct (ordinal_head k) as (c & r & E & Dc). unfold JsPlainSpec.plain_piece. apply andb_true_iff. split.
  - unfold JsPlainSpec.alone. cbn [fst snd kind_eqb].
    assert (T : take_number (ordinal k) = Some (ordinal k, [])).
    { assert (Td : take_decimal (ordinal k) = Some (ordinal k, [])).
      { unfold take_decimal. rewrite (take_digits_all _ D). pose proof (ordinal_zero k) as Z0. rewrite E in Z0 |- *. cbn [starts].
        assert (Dt : (0x2E =? c) = false) by (unfold digit in Dc; lia). rewrite Dt.
        destruct (0x30 =? c) eqn:Ez.
        - assert (c = 0x30) by lia. subst c. rewrite (Z0 r eq_refl). reflexivity.
        - cbn [andb]. change (take_tail []) with (@nil N, @nil N). cbv iota. rewrite app_nil_r. reflexivity. }
      unfold take_number. rewrite E in Td |- *. destruct r as [|x r]; [exact Td|]. destruct (c =? 0x30) eqn:Ez; [|exact Td].
      assert (c = 0x30) by lia. subst c. pose proof (ordinal_zero k _ E) as Q. discriminate Q. }
    assert (S0 : scan start_u part_u false false (ordinal k) = Some ((Number, ordinal k), [])).
    { rewrite E. unfold EsSpec.scan. rewrite <- E.
      assert (A : white c || line_end c = false /\ (c =? 0x2F) = false /\ one_of [0x22; 0x27] c = false /\ ((c =? 0x60) || ((c =? 0x7D) && false)) = false /\ (c =? 0x23) = false).
      { unfold white, line_end, digit, one_of in *. cbn [existsb]. lia. }
      destruct A as (-> & -> & -> & -> & ->). rewrite Dc. cbn [orb]. unfold scan_number. rewrite T. reflexivity. }
    rewrite S0. cbn [fst snd kind_eqb andb]. apply str_eqb_refl.
  - cbn [fst snd]. apply orb_true_iff. left. unfold decimal. rewrite (take_all _ _ D). cbn [snd]. rewrite E. reflexivity.
Qed.

Lemma ordinal_mins : forall k, N.of_nat k < 2 ^ 64 -> mins (Number, ordinal k) [TNumber (N.of_nat k)].
Proof. intros k H. unfold mins. cbn [fst snd]. rewrite ordinal_show, (index_word _ H). reflexivity. Qed.

Definition index_pieces (k : nat) : list element := [(Name, name); P "["; (Number, ordinal k); P "]"].

Lemma index_pairs : forall k, N.of_nat k < 2 ^ 64 ->
  pairs (index_pieces k) [[TOther name]; [TChar OpenBracket]; [TNumber (N.of_nat k)]; [TChar CloseBracket]].
Proof.
  intros k H. repeat (apply Forall2_cons || apply Forall2_nil).
  - split; [exact array_name_piece|exact array_name_mins].
  - split; reflexivity.
  - split; [apply ordinal_piece|now apply ordinal_mins].
  - split; reflexivity.
Qed.

Definition look (e : element) : list element :=
  if quoted e then match position elems (inner (snd e)) with Some k => index_pieces k | None => [e] end else [e].

Lemma look_cases : forall e, look e = [e] /\ element_for name elems e = None
  \/ exists k, look e = index_pieces k /\ element_for name elems e = Some (element_at name k) /\ quoted e = true /\ alike whole e = true /\ N.of_nat k < 2 ^ 64.
Proof.
  intro e. unfold look, element_for. destruct (quoted e) eqn:Q; [|left; auto]. destruct (position elems (inner (snd e))) as [k|] eqn:P; [right|left; auto].
  exists k. apply position_nth in P. split; [reflexivity|]. split; [reflexivity|]. split; [reflexivity|]. split.
  - unfold alike. rewrite Q. apply Nat.leb_le. apply elems_shared. now apply nth_error_In in P.
  - assert (k < length elems)%nat by (apply nth_error_Some; congruence). lia.
Qed.

Lemma look_pairs : forall e ts, plain_piece e = true -> mins e ts -> exists tss, pairs (look e) tss /\ concat tss = flat_map (via_tokens name elems) ts.
Proof.
  intros e ts P M. assert (Same : flat_map (via_tokens name elems) ts = ts -> look e = [e] -> exists tss, pairs (look e) tss /\ concat tss = flat_map (via_tokens name elems) ts).
  { intros E1 E2. exists [ts]. rewrite E1, E2. split; [constructor; [auto|constructor]|cbn [concat]; apply app_nil_r]. }
  assert (Lk : quoted e = false -> look e = [e]) by (intro Q; unfold look; rewrite Q; reflexivity).
  destruct (piece_cases e ts P M) as [(W & Q & K & E)|[(W & Q & K & E)|[(W & Q & K & b & g & i & E)|(W & Q & K & Z)]]].
  - apply Same; [|exact (Lk Q)]. subst ts. cbn [flat_map app]. pose proof (word_token_wordy (snd e)) as T. destruct (word_token (snd e)); try discriminate T; reflexivity.
  - unfold look in *. rewrite Q in *. subst ts. cbn [flat_map via_tokens] in *. rewrite app_nil_r in *. change (content (snd e)) with (inner (snd e)) in *.
    destruct (position elems (inner (snd e))) as [k|] eqn:X; [|apply Same; reflexivity]. exists [[TOther name]; [TChar OpenBracket]; [TNumber (N.of_nat k)]; [TChar CloseBracket]].
    split; [|reflexivity]. apply index_pairs. apply position_nth in X. assert (k < length elems)%nat by (apply nth_error_Some; congruence). lia.
  - apply Same; [|exact (Lk Q)]. subst ts. reflexivity.
  - apply Same; [|exact (Lk Q)]. clear - Z. induction ts as [|t ts IH]; [reflexivity|]. cbn [forallb] in Z. apply andb_true_iff in Z. destruct Z as [A B]. cbn [flat_map]. rewrite (IH B). destruct t; try reflexivity; discriminate A.
Qed.

Lemma looks_pairs : forall ps tss, pairs ps tss -> exists tss', pairs (flat_map look ps) tss' /\ concat tss' = flat_map (via_tokens name elems) (concat tss).
Proof.
  intros ps tss F. induction F as [|e ts ps tss [P M] F IH]; [exists []; split; [constructor|reflexivity]|]. destruct IH as (t2 & F2 & E2). destruct (look_pairs e ts P M) as (t1 & F1 & E1).
  exists (t1 ++ t2). cbn [flat_map concat]. split; [now apply Forall2_app|]. rewrite concat_app, E1, E2, flat_map_app. reflexivity.
Qed.

Fixpoint listed_pieces (l : list str) : list element :=
  match l with
  | [] => []
  | [s] => [(Text, requoted s)]
  | s :: r => (Text, requoted s) :: P "," :: listed_pieces r
  end.

Lemma listed_cons : forall s r, listed_pieces (s :: r) = (Text, requoted s) :: match r with [] => [] | _ => P "," :: listed_pieces r end.
Proof. intros s [|t r]; reflexivity. Qed.

Definition array_pieces : list element := [K "var"; (Name, name); P "="; P "["] ++ listed_pieces elems ++ [P "]"; P ";"].

Lemma listed_pairs : forall l, incl l elems -> exists tss, pairs (listed_pieces l) tss /\ concat tss = commas (map double_quoted l).
Proof.
  induction l as [|s r IH]; intro I; [exists []; split; [constructor|reflexivity]|]. destruct IH as (tss & F & E); [intros y Y; apply I; now right|].
  assert (Ps : plain_piece (Text, requoted s) = true) by (apply elems_plain, I; now left).
  rewrite listed_cons. cbn [map]. destruct r as [|t r].
  - exists [[double_quoted s]]. split; [constructor; [split; [exact Ps|reflexivity]|constructor]|reflexivity].
  - exists ([double_quoted s] :: [TChar Comma] :: tss). split; [constructor; [split; [exact Ps|reflexivity]|constructor; [split; reflexivity|exact F]]|].
    cbn [concat app]. rewrite E. reflexivity.
Qed.

Lemma array_pairs : elems <> [] -> exists tss, pairs array_pieces tss /\ concat tss = declared_array name elems.
Proof.
  intro Ne. destruct (listed_pairs elems (incl_refl elems)) as (tss & F & E). exists ([[TKeyword KVar]; [TOther name]; [TOperation Equal]; [TChar OpenBracket]] ++ tss ++ [[TChar CloseBracket]; [TChar SemiColon]]). split.
  - unfold array_pieces. apply Forall2_app; [|apply Forall2_app; [exact F|repeat constructor]].
    constructor; [split; reflexivity|]. constructor; [split; [exact array_name_piece|exact array_name_mins]|]. repeat constructor.
  - rewrite !concat_app, E. unfold declared_array. destruct elems; [congruence|]. reflexivity.
Qed.

(** ** No token runs on *)

Lemma sign_chars : forall p c, In p puncts -> In c p -> letter c = false /\ c <> 0x5F /\ c <> 0x24.
Proof.
  intros p c I J. assert (F : forallb (fun p => forallb (fun c => negb (letter c || (c =? 0x5F) || (c =? 0x24))) p) puncts = true) by (vm_compute; reflexivity).
  rewrite forallb_forall in F. specialize (F p I). rewrite forallb_forall in F. specialize (F c J). lia.
Qed.

Lemma before_array_name : forall a, plain_piece a = true -> word a = false -> fst a <> Regex -> runs_on a name = false.
Proof.
  intros a H W NR. destruct first_char as (c & r & Ec & _ & Z). rewrite Ec. unfold EsSpec.runs_on. destruct (fst a) eqn:Q; try reflexivity; try (unfold word in W; rewrite Q in W; discriminate W).
  - unfold JsPlainSpec.plain_piece in H. rewrite Q, andb_false_r in H. discriminate H.
  - assert (D : digit c = false) by (unfold digit, letter in *; lia). assert (O : one_of (S_ "/*") c = false) by (unfold letter in Z; unfold one_of; cbn [S_ existsb]; cbn; lia).
    rewrite D, O, !andb_false_r, !orb_false_r. apply not_true_iff_false. intro X. apply existsb_exists in X. destruct X as (p & I & X). apply str_eqb_eq in X.
    assert (J : In c p).
    { assert (J : In c (firstn (S (length (snd a))) p)) by (rewrite X; apply in_or_app; right; now left). rewrite <- (firstn_skipn (S (length (snd a))) p). apply in_or_app. now left. }
    destruct (sign_chars p c I J) as (S1 & S2 & S3). destruct Z as [Z|[Z|Z]]; congruence.
  - congruence.
Qed.

Lemma bracket_apart : forall e : EsSpec.element, runs_on (P "]") (snd e) = false.
Proof. intro e. destruct (snd e) as [|c s]; reflexivity. Qed.

Lemma text_apart : forall (e : EsSpec.element) s, runs_on (Text, s) (snd e) = false.
Proof. intros e s. destruct (snd e) as [|c t]; reflexivity. Qed.

Lemma index_apart : forall k r, sapart (P "]" :: r) = true -> sapart (index_pieces k ++ r) = true.
Proof.
  intros k r A. unfold index_pieces. cbn [app]. rewrite !apart_cons, A.
  assert (E1 : runs_on (Name, name) (snd (P "[")) = false) by reflexivity.
  assert (E2 : runs_on (P "[") (snd (Number, ordinal k)) = false) by (cbn [snd]; destruct (ordinal k); reflexivity).
  assert (E3 : runs_on (Number, ordinal k) (snd (P "]")) = false) by reflexivity.
  rewrite E1, E2, E3, !orb_true_r. reflexivity.
Qed.

Lemma looks_apart : forall ps, forallb plain_piece ps = true -> sapart ps = true -> clear_around whole ps = true -> sapart (flat_map look ps) = true.
Proof.
  induction ps as [|a ps IH]; intros H A B; [reflexivity|]. cbn [forallb] in H. apply andb_true_iff in H. destruct H as [Pa H].
  cbn [JsPlainSpec.apart] in A. apply andb_true_iff in A. destruct A as [A1 A2]. rewrite clear_around_cons in B. cbn [flat_map].
  assert (IH' : sapart (flat_map look ps) = true) by (destruct ps as [|b ps]; [reflexivity|]; apply andb_true_iff in B; destruct B as [_ B3]; exact (IH H A2 B3)).
  destruct (look_cases a) as [(-> & _)|(k & -> & _ & _ & Al & _)].
  - cbn [app JsPlainSpec.apart]. rewrite IH', andb_true_r. destruct ps as [|b ps]; [reflexivity|]. cbn [flat_map] in *.
    apply andb_true_iff in B. destruct B as [B _]. apply andb_true_iff in B. destruct B as [B1 _].
    destruct (look_cases b) as [(-> & _)|(k & -> & _ & _ & Al & _)]; [exact A1|]. cbn [index_pieces app]. apply negb_true_iff in B1. rewrite Al in B1. cbn [andb] in B1.
    apply orb_false_iff in B1. destruct B1 as [B1 _]. apply orb_false_iff in B1. destruct B1 as [W NR]. apply orb_true_iff. right. cbn [snd].
    rewrite (before_array_name a Pa W); [reflexivity|]. intro Q. rewrite Q in NR. discriminate NR.
  - apply index_apart. destruct (flat_map look ps) as [|e r]; [reflexivity|]. rewrite apart_cons, bracket_apart, orb_true_r. exact IH'.
Qed.

Lemma listed_apart : forall l r, sapart (P "]" :: r) = true -> sapart (listed_pieces l ++ P "]" :: r) = true.
Proof.
  induction l as [|s l IH]; intros r A; [exact A|]. specialize (IH r A). rewrite listed_cons. destruct l as [|t l].
  - cbn [app]. rewrite apart_cons, text_apart, orb_true_r. exact A.
  - cbn [app]. rewrite apart_cons, text_apart, orb_true_r. rewrite listed_cons in IH |- *. cbn [app] in IH |- *. rewrite apart_cons, IH. reflexivity.
Qed.

Lemma array_apart : forall l, sapart l = true -> sapart (array_pieces ++ l) = true.
Proof.
  intros l A. unfold array_pieces. rewrite <- !app_assoc. cbn [app].
  assert (S0 : sapart (P ";" :: l) = true) by (destruct l; [reflexivity|]; rewrite apart_cons, semi_apart; exact A).
  assert (B : sapart (P "]" :: P ";" :: l) = true) by (rewrite apart_cons, bracket_apart, orb_true_r; exact S0).
  pose proof (listed_apart elems _ B) as L. rewrite !apart_cons.
  assert (O : sapart (P "[" :: listed_pieces elems ++ P "]" :: P ";" :: l) = true).
  { destruct elems as [|s r]; [cbn [listed_pieces app] in *; rewrite apart_cons, L; reflexivity|]. rewrite listed_cons in L |- *. cbn [app] in L |- *. rewrite apart_cons, L. reflexivity. }
  rewrite O. reflexivity.
Qed.

(** ** Regular expressions and divisions *)

Lemma index_calm : forall k, forallb calm (index_pieces k) = true.
Proof. intro k. reflexivity. Qed.

Lemma looks_goal : forall ps past x past', forallb plain_piece ps = true -> usual_goal past = usual_goal (x :: past') ->
  goal_ok usual_goal past ps = true -> goal_ok usual_goal (x :: past') (flat_map look ps) = true.
Proof.
  induction ps as [|e ps IH]; intros past x past' H U G; [reflexivity|]. cbn [forallb] in H. apply andb_true_iff in H. destruct H as [P H].
  cbn [goal_ok flat_map] in *. apply andb_true_iff in G. destruct G as [G1 G2]. destruct (look_cases e) as [(-> & _)|(k & -> & _ & Q & _)].
  - cbn [app goal_ok]. apply andb_true_iff. split; [rewrite <- U; exact G1|]. apply (IH (next_past past e)); [exact H| |exact G2].
    unfold next_past. destruct past; [|reflexivity]. destruct (str_eqb (snd e) (S_ ";")) eqn:S; [|reflexivity]. rewrite (semicolon_piece _ _ e P S). reflexivity.
  - rewrite (goal_calm _ _ _ _ (index_calm k)). unfold index_pieces. cbn [rev app]. apply (IH (next_past past e)); [exact H| |exact G2].
    assert (N : kind_eqb (fst e) Punct = false) by (unfold JsAggTreeSpec.quoted in Q; destruct (fst e); try discriminate Q; reflexivity).
    unfold next_past. destruct past; [|cbn [usual_goal fst]; rewrite N; reflexivity]. destruct (str_eqb (snd e) (S_ ";")) eqn:S; [|cbn [usual_goal fst]; rewrite N; reflexivity].
    rewrite (semicolon_piece _ _ e P S) in N. discriminate N.
Qed.

Lemma listed_calm : forall l, forallb calm (listed_pieces l) = true.
Proof. induction l as [|s l IH]; [reflexivity|]. rewrite listed_cons. destruct l; [reflexivity|]. cbn [forallb]. rewrite IH. reflexivity. Qed.

Lemma array_goal : forall ps, forallb plain_piece ps = true -> goal_ok usual_goal [] ps = true -> goal_ok usual_goal [] (array_pieces ++ flat_map look ps) = true.
Proof.
  intros ps H G. assert (E : exists m, array_pieces = K "var" :: m ++ [P ";"] /\ forallb calm (m ++ [P ";"]) = true).
  { exists ([(Name, name); P "="; P "["] ++ listed_pieces elems ++ [P "]"]). split; [unfold array_pieces; cbn [app]; rewrite <- app_assoc; reflexivity|]. rewrite !forallb_app, listed_calm. reflexivity. }
  destruct E as (m & -> & C). cbn [app goal_ok]. change (next_past [] (JsTreeSpec.K "var")) with [JsTreeSpec.K "var"].
  change (kind_eqb (fst (JsTreeSpec.K "var")) Regex) with false. change (sign ["/"; "/="]%string (JsTreeSpec.K "var")) with false. cbn [andb].
  rewrite (goal_calm _ _ _ _ C). rewrite rev_app_distr. cbn [rev app]. apply (looks_goal ps []); [exact H|reflexivity|exact G].
Qed.

(** ** The tree *)

Lemma name_is_ident : ident name = true.
Proof. pose proof name_binding as B. unfold binding in B. apply andb_true_iff in B. exact (proj1 B). Qed.

Lemma number_expr : forall k b, w_expr (ELit (Number, ordinal k)) [(b, (Number, ordinal k))].
Proof. intros k b. apply we_one, wa_cond, wc_bin, wb_unary, wu_post, wp_left, wl_primary, wr_lit. reflexivity. Qed.

Lemma look_left : forall e x, element_for name elems e = Some x -> quoted e = true /\ exists y r, look e = (Name, y) :: r /\ ident y = true
  /\ forallb (fun a => negb (named ["in"; "of"]%string a)) r = true /\ forall b, w_left x ((b, (Name, y)) :: map (pair false) r).
Proof.
  intros e x H. destruct (look_cases e) as [(_ & F)|(k & L & F & Q & _)]; [congruence|]. split; [exact Q|]. rewrite F in H. injection H as <-. exists name, [P "["; (Number, ordinal k); P "]"].
  split; [exact L|]. split; [exact name_is_ident|]. split; [reflexivity|]. intro b. cbn [map].
  apply (wl_index (EWord name) (ELit (Number, ordinal k)) [(b, (Name, name))] [(false, (Number, ordinal k))] false false); [apply wl_primary, wr_word, name_is_ident|apply number_expr].
Qed.

Lemma look_none : forall e, element_for name elems e = None -> look e = [e].
Proof. intros e H. destruct (look_cases e) as [(E & _)|(k & _ & F & _)]; [exact E|congruence]. Qed.

Lemma look_kept : forall e, negb (alike whole e) = true -> element_for name elems e = None.
Proof. intros e H. destruct (look_cases e) as [(_ & F)|(k & _ & _ & _ & A & _)]; [exact F|]. rewrite A in H. discriminate H. Qed.

Lemma rens_looks : forall ps, rens look (map (pair false) ps) = map (pair false) (flat_map look ps).
Proof.
  induction ps as [|e ps IH]; [reflexivity|]. cbn [map flat_map]. rewrite map_app, <- IH. unfold rens. cbn [flat_map]. f_equal. unfold ren. cbn [fst snd]. destruct (look e); reflexivity.
Qed.

Lemma listed_tree : forall l, w_list (map (fun s => ELit (Text, requoted s)) l) (map (pair false) (listed_pieces l)).
Proof.
  assert (D : forall s, w_item (ELit (Text, requoted s)) [(false, (Text, requoted s))]) by (intro s; apply wi_assign, wa_cond, wc_bin, wb_unary, wu_post, wp_left, wl_primary, wr_lit; reflexivity).
  induction l as [|s l IH]; [apply wi_none|]. rewrite listed_cons. cbn [map]. destruct l as [|t l].
  - apply wi_some, wi_one, D.
  - cbn [map]. apply wi_some. apply (wi_cons _ _ [(false, (Text, requoted s))]); [apply D|exact IH].
Qed.

Lemma array_tree : forall t l, program t (lines false l) -> keys_alone whole t = true ->
  program (declaring_array name elems :: looked_tree name elems t) (map (pair false) (array_pieces ++ flat_map look (pieces l))).
Proof.
  intros t l W Ko. pose proof (program_flat t _ W) as Wf. rewrite lines_flat in Wf.
  pose proof (program_swap (element_for name elems) look (fun e => negb (alike whole e)) look_none look_left look_kept t _ Wf Ko) as Ws. rewrite rens_looks in Ws.
  rewrite map_app.
  assert (S : w_stmt false (declaring_array name elems) (map (pair false) array_pieces)).
  { unfold declaring_array, array_pieces. change ([K "var"; (Name, name); P "="; P "["] ++ listed_pieces elems ++ [P "]"; P ";"]) with (K "var" :: ((Name, name) :: P "=" :: P "[" :: listed_pieces elems ++ [P "]"; P ";"])).
    assert (E : (Name, name) :: P "=" :: P "[" :: listed_pieces elems ++ [P "]"; P ";"] = ((Name, name) :: P "=" :: P "[" :: listed_pieces elems ++ [P "]"]) ++ [P ";"]) by (cbn [app]; rewrite <- app_assoc; reflexivity).
    rewrite E. clear E. cbn [map]. rewrite map_app.
    apply wt_var; [reflexivity| |apply wn_semicolon]. apply wv_one. cbn [map].
    change ((false, (Name, name)) :: (false, P "=") :: (false, P "[") :: map (pair false) (listed_pieces elems ++ [P "]"])) with ([(false, (Name, name))] ++ (false, P "=") :: ((false, P "[") :: map (pair false) (listed_pieces elems ++ [P "]"]))).
    apply wv_value; [apply wpa_name, name_binding|]. apply wa_cond, wc_bin, wb_unary, wu_post, wp_left, wl_primary. rewrite map_app. apply wr_array, listed_tree. }
  apply ws_some. unfold program in Ws. fold (looked_tree name elems t) in Ws. inversion Ws as [b E1 E2 E3|b t' ts Ws1 E1 E2 E3]; subst.
  - rewrite app_nil_r. apply ws_one. revert S. generalize (map (pair false) array_pieces). intros ts S. unfold declaring_array in *. inversion S; subst. apply wt_var; try assumption.
    match goal with H : w_end false ?u |- w_end true ?u => inversion H; subst; constructor end.
  - apply ws_cons; assumption.
Qed.
End Array.

(** ** Everything *)

Lemma pairs_plain : forall ps tss, pairs ps tss -> forallb plain_piece ps = true.
Proof. intros ps tss F. induction F as [|e1 ts1 ps1 tss1 [P1 M1] F1 IH]; [reflexivity|]. cbn [forallb]. rewrite P1. exact IH. Qed.

Lemma contents_bound : forall ps tss, pairs ps tss -> (length (contents (concat tss)) <= length ps)%nat.
Proof.
  intros ps tss F. induction F as [|e ts ps tss [P M] F IH]; [reflexivity|]. cbn [concat length]. rewrite contents_app, app_length.
  assert (length (contents ts) <= 1)%nat; [|lia]. destruct (piece_cases e ts P M) as [(_ & _ & _ & ->)|[(_ & _ & _ & ->)|[(_ & _ & _ & b & g & i & ->)|(_ & _ & _ & Z)]]].
  - rewrite contents_word. cbn. lia.
  - cbn. lia.
  - cbn. lia.
  - rewrite (contents_still _ Z). cbn. lia.
Qed.

Section Order.
Variable order : forall A : Type, list A -> list A.
Hypothesis order_ok : forall A (l : list A), Permutation (order A l) l.

Theorem array_documented_tree : forall name l t, splain None false l = true -> sapart (pieces l) = true -> program t (lines false l) ->
  array_name name -> binding name = true -> unused name (pieces l) = true -> requotes start_u part_u (pieces l) = true ->
  clear_around (pieces l) (pieces l) = true -> keys_alone (pieces l) t = true -> N.of_nat (length (pieces l)) <= 2 ^ 64 ->
  exists d elems, documented_array order name (text l) = Ok d /\ NoDup elems
    /\ (forall s, In s elems -> exists e, In e (pieces l) /\ inner (snd e) = s /\ alike (pieces l) e = true)
    /\ es_program start_u part_u d = Some (match elems with [] => drop_empty t | _ => declaring_array name elems :: looked_tree name elems t end).
Proof.
  intros name l t H A W Nm Bn Un Rq B Ko Sz. destruct (run _ _ l None false [] [] H) as (v & w & tss & Rd & F & Kp); [split; [left; reflexivity|reflexivity]|].
  cbn [flush rev app] in Kp. change (kept []) with (@nil token) in Kp. cbn [app] in Kp.
  set (ts0 := rev (flush w v)) in *. assert (L : lexes (text l) ts0) by (exists v, w; auto). pose proof (lexes_tokenize _ _ L) as T. destruct (lexes_known _ _ L) as [R0 _].
  assert (Fk : filter (fun t => negb (useless t)) ts0 = concat tss) by exact Kp.
  assert (Ct : contents ts0 = contents (concat tss)) by (rewrite <- Fk; symmetry; apply contents_useful).
  assert (N0 : ~ In (TOther name) ts0).
  { intro I. apply (unused_tokens name _ _ F Un). rewrite <- Fk. apply filter_In. auto. }
  assert (Q0 : requotable ts0).
  { intros x I Hs. apply (requotable_tokens _ _ F Rq x); [rewrite <- Fk; apply filter_In; auto|]. rewrite <- (shared_ext ts0 _ _ Ct). exact Hs. }
  pose proof (lexes_quoted _ ts0 L) as Qt.
  destruct (array_new order order_ok ts0 name None (fun _ _ => true) Qt (no_head name ts0 N0)) as (news & ts' & E & G).
  destruct (array_vias name ts0 news ts' G (known_plain ts0 R0) Q0) as (_ & O & Bd & Ln).
  pose proof (array_via_tokens name ts0 news ts' G (known_plain ts0 R0) O) as V.
  assert (PP : forallb plain_piece (pieces l) = true) by exact (pieces_plain _ _ l None false H).
  assert (Sh : forall s, In s news -> (2 <= sharing (pieces l) s)%nat) by (intros s I; rewrite <- (sharing_contents _ _ s F), <- Ct; exact (O s I)).
  assert (Dr : forall s, In s news -> exists e, In e (pieces l) /\ inner (snd e) = s /\ alike (pieces l) e = true).
  { intros s I. pose proof (Sh s I) as S2. assert (S2' := S2). unfold sharing in S2. destruct (filter (fun x => quoted x && str_eqb s (inner (snd x))) (pieces l)) as [|e q] eqn:Q; [cbn in S2; lia|].
    assert (J : In e (e :: q)) by now left. rewrite <- Q in J. apply filter_In in J. destruct J as [J M]. apply andb_true_iff in M. destruct M as [M1 M2]. apply str_eqb_eq in M2.
    exists e. split; [exact J|]. split; [now symmetry|]. unfold alike. rewrite M1, <- M2. apply Nat.leb_le. exact S2'. }
  assert (Pl : forall s, In s news -> plain_piece (Text, requoted s) = true).
  { intros s I. destruct (Dr s I) as (e & J & <- & Al). exact (proj2 (requoted_piece _ e Rq J Al)). }
  assert (Sm : N.of_nat (length news) <= 2 ^ 64).
  { pose proof (contents_bound _ _ F). rewrite Ct in Ln. lia. }
  unfold documented_array, aggregate_strings_into_array. rewrite T. cbn [obind]. rewrite E. cbn [obind].
  destruct news as [|n0 nr].
  - rewrite clean_tokens_eq. cbn [obind]. rewrite Fk. eexists. exists []. split; [reflexivity|]. split; [constructor|]. split; [exact Dr|].
    destruct (dropped _ _ _ _ F) as (tss' & F' & D). rewrite D, tokens_show_joined, (printed _ _ _ _ F'). exact (tree_output _ _ t l H A W).
  - remember (n0 :: nr) as news eqn:En. assert (Ne : news <> []) by (rewrite En; discriminate). cbn [app].
    rewrite clean_tokens_eq, filter_app, array_useful. cbn [obind].
    assert (D : forall l, drop_semicolons (array_declaration name news ++ l) = array_declaration name news ++ l) by reflexivity. rewrite D.
    eexists. exists news. split; [reflexivity|]. split; [exact (aa_news _ _ _ _ _ _ _ G)|]. split; [exact Dr|].
    pose proof (vias_useful _ _ _ _ _ _ V) as Vu. rewrite Fk, via_filter, Fk in Vu.
    assert (Rus : Forall readable (concat tss)) by (rewrite <- Fk; apply Forall_forall; intros x I; apply filter_In in I; rewrite Forall_forall in R0; now apply R0).
    assert (Cl : clear_for_array ts0 (concat tss) = true) by (rewrite (clear_array_ext ts0 _ _ Ct); exact (clear_tokens _ _ F _ _ F B)).
    assert (Jb : joined (filter (fun t => negb (useless t)) ts') = joined (flat_map (via_tokens name news) (concat tss))).
    { eapply vias_joined; eassumption. }
    rewrite tokens_show_joined, (joined_array name news _ _ Jb); [| |exact Ne].
    2:{ destruct Vu as [|u u' f us body flat V1 V2]; [exact I|]. destruct V1; exact I. }
    destruct (array_pairs name Nm Bn news (pieces l) Sm Sh Pl Ne) as (tsd & Fd & Cd). destruct (looks_pairs name Nm Bn news (pieces l) Sm Sh Pl _ _ F) as (tsl & Fl & Cl'). rewrite <- Cd, <- Cl', <- concat_app.
    assert (Fa : pairs (array_pieces name news ++ flat_map (look name news) (pieces l)) (tsd ++ tsl)) by (apply Forall2_app; assumption).
    rewrite (printed start_u part_u _ _ Fa).
    unfold es_program, es_lines, start. rewrite compact_lines.
    + apply program_parse. replace (match news with [] => drop_empty t | _ :: _ => declaring_array name news :: looked_tree name news t end) with (declaring_array name news :: looked_tree name news t) by (rewrite En; reflexivity).
      exact (array_tree name Bn news (pieces l) Sm Sh Pl t l W Ko).
    + exact (pairs_plain _ _ Fa).
    + apply (array_apart name news (pieces l) Sm Sh Pl). exact (looks_apart name Nm Bn news (pieces l) Sm Sh Pl _ PP A B).
    + apply (array_goal name Bn news (pieces l) Sm Sh Pl); [exact PP|exact (usual_ok _ _ l None false [] H (or_introl eq_refl))].
Qed.
End Order.
End T.
