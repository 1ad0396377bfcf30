(** Consequences of the exact description of the reader's histories. *)
From Coq Require Import Arith List NArith Bool Lia.
From Verif Require Import Base Utf8 JsonModel JsonProofs JsonReadModel JsonReadSpec JsonReadProofs.
Import ListNotations.
Open Scope N_scope.

Lemma encode_char_prefix_free : forall c c' t t', is_scalar c = true -> is_scalar c' = true ->
  encode_char c ++ t = encode_char c' ++ t' -> c = c' /\ t = t'.
Proof.
  intros c c' t t' H H' E.
  destruct (encode_char_accepted c H) as (a & r & E1 & W & W1 & W2).
  destruct (encode_char_accepted c' H') as (a' & r' & E1' & W' & W1' & W2').
  rewrite E1, E1' in E. cbn [app] in E. injection E as <- E.
  assert (L : length r = length r') by congruence.
  assert (r = r' /\ t = t') as [-> ->].
  { clear -E L. revert r' L E. induction r as [|x r IH]; intros [|x' r'] L E; try discriminate L; auto.
    cbn in E. injection E as <- E. cbn in L. destruct (IH r') as [-> ->]; auto. }
  split; [|reflexivity]. destruct r' as [|x r'].
  - rewrite <- (W1 eq_refl), <- (W1' eq_refl). reflexivity.
  - assert (Some c = Some c') by (rewrite <- W2, <- W2' by discriminate; reflexivity). congruence.
Qed.

Lemma decodes_unique : forall bs cs rest cs' rest',
  decodes bs cs rest -> decodes bs cs' rest' -> cs = cs' /\ rest = rest'.
Proof.
  intros bs cs. revert bs. induction cs as [|c cs IH]; intros bs rest cs' rest' (E & Hs & Hb) (E' & Hs' & Hb').
  - cbn in E. destruct cs' as [|c' cs'].
    + cbn in E'. split; congruence.
    + exfalso. inversion Hs' as [|? ? Hc' _]; idtac. rewrite E in E'. cbn [encode] in E'.
      rewrite <- app_assoc in E'. apply (Hb c' _ Hc' E').
  - inversion Hs as [|? ? Hc Hcs]; subst. destruct cs' as [|c' cs'].
    + exfalso. cbn [encode] in E'. rewrite <- app_assoc in E'. cbn [app] in E'. symmetry in E'.
      apply (Hb' c _ Hc E').
    + inversion Hs' as [|? ? Hc' Hcs']; subst. cbn [encode] in E'. rewrite <- !app_assoc in E'.
      destruct (encode_char_prefix_free c c' _ _ Hc Hc' E') as [<- E2].
      destruct (IH (encode cs ++ rest) rest cs' rest') as [<- <-].
      * repeat split; auto.
      * repeat split; auto.
      * auto.
Qed.

Lemma btc_all_spec : forall cs rest e n it fuel, ir_inv n it ->
  stream n it = (encode cs ++ rest, e) -> decodes (encode cs ++ rest) cs rest ->
  (length cs < fuel)%nat ->
  btc_all fuel it = (cs, if broken_of rest e then CErr else CEof).
Proof.
  induction cs as [|c cs IH]; intros rest e n it fuel Hi Hs Hd Hf; destruct fuel as [|fuel]; try (cbn in Hf; lia).
  - cbn [btc_all]. cbn [encode app] in Hs. destruct (broken_of rest e) eqn:Eb.
    + destruct (btc_next_bad n it rest e Hi Hs) as (it' & A).
      { apply Hd. }
      { destruct rest; [|left; discriminate]. destruct e; [|discriminate Eb]. right. discriminate. }
      rewrite A. reflexivity.
    + assert (rest = [] /\ e = None) as [-> ->] by (destruct rest, e; try discriminate; auto).
      destruct (btc_next_eof n it Hi Hs) as (it' & A). rewrite A. reflexivity.
  - destruct Hd as (_ & Hsc & Hbad). inversion Hsc as [|? ? Hc Hcs]; subst.
    destruct (btc_next_char n it c cs rest e Hi Hc Hs) as (it' & A & Hi' & Hs').
    cbn [btc_all]. rewrite A.
    rewrite (IH rest e n it' fuel Hi' Hs'); [reflexivity| |cbn in Hf; lia]. repeat split; auto.
Qed.

Lemma encode_length_ge : forall s, (length s <= length (encode s))%nat.
Proof.
  induction s as [|c s IH]; [cbn; lia|]. cbn [encode length]. rewrite app_length, encode_char_length.
  pose proof (len_utf8_pos c). lia.
Qed.

Lemma decoding_exact : forall src n bs e cs rest, (0 < n)%nat ->
  (forall k r, src <> PErr k :: r) -> delivered n src = (bs, e) -> decodes bs cs rest ->
  exists it, ireader_new src n = inl it /\
    btc_all (S (length bs)) it = (cs, if broken_of rest e then CErr else CEof).
Proof.
  intros src n bs e cs rest Hn Hsrc Hd Hdec. pose proof (ireader_new_spec n src Hn) as A.
  assert (B : exists it, ireader_new src n = inl it /\ ir_inv n it /\ stream n it = delivered n src).
  { destruct src as [|[?|k] r]; auto. exfalso. apply (Hsrc k r). reflexivity. }
  destruct B as (it & B & Hi & Hs). exists it. split; [assumption|].
  pose proof Hdec as (E & _ & _). rewrite Hd, E in Hs.
  apply (btc_all_spec cs rest e n it); auto.
  - rewrite <- E. assumption.
  - rewrite E, app_length. pose proof (encode_length_ge cs). lia.
Qed.

(** *** Aligned schedules lose nothing *)

Lemma fill_fit : forall p k n, blen p = n -> (0 < n)%nat -> fill n (p ++ k) = (encode p, k).
Proof.
  induction p as [|c p IH]; intros k n Hb Hn; cbn [blen] in Hb; [lia|].
  cbn [app fill encode]. destruct (Nat.ltb_spec (len_utf8 c) n).
  - rewrite IH by lia. reflexivity.
  - assert (blen p = 0%nat) by lia. apply blen_nil_iff in H0. subst p. cbn [encode app].
    rewrite firstn_all2 by (rewrite encode_char_length; lia). rewrite app_nil_r. reflexivity.
Qed.

Lemma fill_all : forall k n, (blen k < n)%nat -> fill n k = (encode k, []).
Proof.
  induction k as [|c k IH]; intros n Hb; [reflexivity|]. cbn [blen] in Hb. cbn [fill encode].
  destruct (Nat.ltb_spec (len_utf8 c) n); [|lia]. rewrite IH by lia. reflexivity.
Qed.

Lemma spec_reads_aligned : forall k sizes, aligned k sizes ->
  spec_reads k false sizes = map ROk (cut (encode k) sizes).
Proof.
  induction 1 as [k|p k n r Hp H IH|k n r Hk H IH]; [reflexivity| |].
  - cbn [cut map]. rewrite encode_app.
    rewrite firstn_app, skipn_app. rewrite encode_length, Hp, Nat.sub_diag.
    rewrite firstn_all2 by (rewrite encode_length; lia).
    rewrite skipn_all2 by (rewrite encode_length; lia). cbn [firstn skipn app]. rewrite app_nil_r.
    cbn [spec_reads]. destruct n as [|n].
    + apply blen_nil_iff in Hp. subst p. cbn [encode app]. rewrite IH. reflexivity.
    + rewrite (fill_fit p k (S n) Hp) by lia. cbn [andb]. rewrite IH. reflexivity.
  - cbn [cut map spec_reads]. destruct n as [|n]; [lia|]. rewrite fill_all by assumption. cbn [andb].
    rewrite firstn_all2 by (rewrite encode_length; lia).
    rewrite skipn_all2 by (rewrite encode_length; lia). rewrite IH. reflexivity.
Qed.

(** *** Sources that are complete for the first buffer size *)

Lemma complete_source_exact : forall src z n sizes s o,
  (0 < n)%nat -> delivered n src = (encode s, None) -> Forall (fun c => is_scalar c = true) s ->
  json_minify s = Ok o ->
  json_reads src (repeat 0%nat z ++ n :: sizes) = spec_reads o false (repeat 0%nat z ++ n :: sizes).
Proof.
  intros src z n sizes s o Hn Hd Hs Ho. rewrite kept_minify in Ho. injection Ho as <-.
  rewrite json_reads_zeros.
  rewrite (json_reads_exact src n sizes _ None s [] Hn Hd (decodes_encode s Hs)).
  unfold spec_json_reads. cbn [broken_of].
  induction z as [|z IH]; [reflexivity|]. cbn [repeat app spec_reads]. f_equal. exact IH.
Qed.

(** What the source does after a short answer does not matter. *)
Lemma delivered_after_short : forall n pre bs rest rest',
  Forall (fun p => match p with PData b => Nat.modulo (length b) n = 0%nat | PErr _ => False end) pre ->
  (bs = [] \/ Nat.modulo (length bs) n <> 0%nat) ->
  delivered n (pre ++ PData bs :: rest) = delivered n (pre ++ PData bs :: rest').
Proof.
  intros n pre bs rest rest' Hp Hbs. induction Hp as [|p pre Hp _ IH]; cbn [app delivered].
  - destruct bs as [|b bs]; [reflexivity|]. destruct Hbs as [|Hbs]; [discriminate|].
    destruct (Nat.eqb_spec (length (b :: bs) mod n) 0); [contradiction|reflexivity].
  - destruct p as [b|k]; [|reflexivity]. destruct b as [|b0 b]; [reflexivity|].
    rewrite Hp. cbn [Nat.eqb]. rewrite IH. reflexivity.
Qed.

Lemma short_read_truncates : forall n pre bs rest rest' sizes, (0 < n)%nat ->
  Forall (fun p => match p with PData b => Nat.modulo (length b) n = 0%nat | PErr _ => False end) pre ->
  (bs = [] \/ Nat.modulo (length bs) n <> 0%nat) ->
  json_reads (pre ++ PData bs :: rest) (n :: sizes) = json_reads (pre ++ PData bs :: rest') (n :: sizes).
Proof.
  intros n pre bs rest rest' sizes Hn Hp Hbs.
  destruct (delivered n (pre ++ PData bs :: rest)) as [d e] eqn:Hd.
  pose proof Hd as Hd'. rewrite (delivered_after_short n pre bs rest rest' Hp Hbs) in Hd'.
  destruct (decodes_exists d) as (cs & rs & Hdec).
  rewrite (json_reads_exact _ n sizes d e cs rs Hn Hd Hdec).
  rewrite (json_reads_exact _ n sizes d e cs rs Hn Hd' Hdec).
  unfold spec_json_reads. destruct (broken_of rs e); [|reflexivity].
  destruct cs; [|reflexivity]. f_equal.
  destruct pre as [|[b|k] pre]; [reflexivity|reflexivity|]. inversion Hp; contradiction.
Qed.

(** The data before the first short answer. *)
Lemma delivered_full_then_short : forall n pre bs rest,
  Forall (fun p => match p with PData b => b <> [] /\ Nat.modulo (length b) n = 0%nat | PErr _ => False end) pre ->
  (bs = [] \/ Nat.modulo (length bs) n <> 0%nat) ->
  delivered n (pre ++ PData bs :: rest) =
    (concat (map (fun p => match p with PData b => b | PErr _ => [] end) pre) ++ bs, None).
Proof.
  intros n pre bs rest Hp Hbs. induction Hp as [|p pre Hp _ IH]; cbn [app delivered map concat].
  - destruct bs as [|b bs]; [reflexivity|]. destruct Hbs as [|Hbs]; [discriminate|].
    destruct (Nat.eqb_spec (length (b :: bs) mod n) 0); [contradiction|reflexivity].
  - destruct p as [b|k]; [|contradiction]. destruct Hp as [Hne Hp]. destruct b as [|b0 b]; [congruence|].
    rewrite Hp. cbn [Nat.eqb]. rewrite IH, <- app_assoc. reflexivity.
Qed.

(** *** End of stream *)

Lemma fill_empty : forall n k k', (0 < n)%nat -> fill n k = ([], k') -> k = [] /\ k' = [].
Proof.
  intros n k k' Hn H. destruct k as [|c k]; [cbn in H; split; congruence|exfalso].
  cbn [fill] in H. pose proof (encode_char_length c) as L. pose proof (len_utf8_pos c) as P.
  destruct (Nat.ltb (len_utf8 c) n).
  - destruct (fill (n - len_utf8 c) k). injection H as H _. apply app_eq_nil in H.
    destruct H as [H _]. rewrite H in L. cbn in L. lia.
  - injection H as H _. destruct n as [|n]; [lia|]. destruct (encode_char c); [cbn in L; lia|].
    discriminate H.
Qed.

Lemma spec_reads_end : forall sizes, spec_reads [] false sizes = map (fun _ => ROk []) sizes.
Proof. induction sizes as [|[|n] r IH]; [reflexivity| |]; cbn [spec_reads map fill andb]; rewrite IH; reflexivity. Qed.

Definition sticky (sizes : list nat) (rs : list read_result) : Prop :=
  forall i j n, nth_error sizes i = Some n -> (0 < n)%nat -> nth_error rs i = Some (ROk []) ->
    (i <= j < length sizes)%nat -> nth_error rs j = Some (ROk []).

Lemma sticky_cons : forall n sizes x rs,
  sticky sizes rs -> (n = 0%nat \/ x <> ROk [] \/ rs = map (fun _ => ROk []) sizes) ->
  sticky (n :: sizes) (x :: rs).
Proof.
  intros n sizes x rs Hs H i j m Hi Hm Hr Hj.
  destruct i as [|i].
  - cbn in Hi, Hr. injection Hi as <-. injection Hr as ->.
    destruct H as [H | [H | ->]]; [lia|congruence|].
    destruct j as [|j]; [reflexivity|]. cbn [nth_error]. cbn [length] in Hj.
    rewrite nth_error_map. destruct (nth_error sizes j) eqn:E; [reflexivity|].
    apply nth_error_None in E. lia.
  - destruct j as [|j]; [lia|]. cbn [nth_error] in *. apply (Hs i j m); auto. cbn [length] in Hj. lia.
Qed.

Lemma spec_reads_sticky : forall sizes k b, sticky sizes (spec_reads k b sizes).
Proof.
  induction sizes as [|n r IH]; intros k b.
  - intros [|i] j n Hi; discriminate Hi.
  - cbn [spec_reads]. destruct n as [|n]; [apply sticky_cons; auto|].
    destruct (fill (S n) k) as [o k'] eqn:E.
    destruct (b && Nat.ltb (length o) (S n)) eqn:Eb.
    + apply sticky_cons; auto. right. left. discriminate.
    + apply sticky_cons; auto. destruct o as [|x o]; [|right; left; discriminate].
      right. right. apply fill_empty in E; [|lia]. destruct E as [-> ->].
      cbn [length Nat.ltb Nat.leb] in Eb. rewrite andb_true_r in Eb. subst b. apply spec_reads_end.
Qed.

Lemma dead_sticky : forall sizes, sticky sizes (map (fun n => if Nat.eqb n 0 then ROk [] else RPanic) sizes).
Proof.
  intros sizes i j n Hi Hn Hr. rewrite nth_error_map, Hi in Hr. cbn in Hr.
  destruct (Nat.eqb_spec n 0); [lia|discriminate Hr].
Qed.

Lemma json_reads_sticky : forall src sizes, sticky sizes (json_reads src sizes).
Proof.
  intros src sizes. destruct (leading_zeros sizes) as [Hz | (z & n & r & -> & Hn)].
  - intros i j n Hi Hn. exfalso. rewrite Forall_forall in Hz.
    assert (n = 0%nat) by (apply Hz; eapply nth_error_In; eassumption). lia.
  - rewrite json_reads_zeros.
    assert (Hmain : sticky (n :: r) (json_reads src (n :: r))).
    { destruct (delivered n src) as [d e] eqn:Hd. destruct (decodes_exists d) as (cs & rs & Hdec).
      rewrite (json_reads_exact _ n r d e cs rs Hn Hd Hdec). unfold spec_json_reads.
      destruct (broken_of rs e); [|apply spec_reads_sticky].
      destruct cs as [|c cs]; [|apply spec_reads_sticky].
      apply sticky_cons; [apply dead_sticky|]. right. left. discriminate. }
    induction z as [|z IH]; [exact Hmain|]. cbn [repeat app]. apply sticky_cons; auto.
Qed.

(** Empty buffers are inert. *)
Lemma jread_reads_zero : forall a b j,
  jread_reads (a ++ 0%nat :: b) j =
  firstn (length a) (jread_reads (a ++ b) j) ++ ROk [] :: skipn (length a) (jread_reads (a ++ b) j).
Proof.
  induction a as [|n a IH]; intros b j; [reflexivity|].
  cbn [app jread_reads length]. destruct (jread_read n j) as [x j']. cbn [firstn skipn app].
  f_equal. apply IH.
Qed.

(** *** Panics *)

Lemma no_panic_unless_first_char : forall src z n sizes bs e cs rest, (0 < n)%nat ->
  delivered n src = (bs, e) -> decodes bs cs rest ->
  (cs = [] /\ (rest <> [] \/ e <> None) ->
   exists err, json_reads src (repeat 0%nat z ++ n :: sizes) =
     repeat (ROk []) z ++ RErr err :: map (fun n => if Nat.eqb n 0 then ROk [] else RPanic) sizes) /\
  (~ (cs = [] /\ (rest <> [] \/ e <> None)) ->
   Forall (fun r => r <> RPanic /\ r <> RFuel) (json_reads src (repeat 0%nat z ++ n :: sizes))).
Proof.
  intros src z n sizes bs e cs rest Hn Hd Hdec. rewrite json_reads_zeros.
  rewrite (json_reads_exact src n sizes bs e cs rest Hn Hd Hdec).
  unfold spec_json_reads. destruct (broken_of rest e) eqn:Eb.
  - destruct cs as [|c cs].
    + split; [eauto|]. intro H. exfalso. apply H. split; [reflexivity|].
      destruct rest; [|left; discriminate]. destruct e; [|discriminate Eb]. right. discriminate.
    + split; [intros [H _]; discriminate H|]. intros _. apply Forall_app. split.
      * apply Forall_forall. intros x Hx. apply repeat_spec in Hx. subst x. split; discriminate.
      * apply spec_reads_no_panic.
  - split.
    + intros [_ H]. exfalso. destruct rest, e; try discriminate Eb. destruct H; congruence.
    + intros _. apply Forall_app. split.
      * apply Forall_forall. intros x Hx. apply repeat_spec in Hx. subst x. split; discriminate.
      * apply spec_reads_no_panic.
Qed.

(** After an error that is not the first character's, every call returns 0. *)
Lemma spec_reads_after_error : forall sizes k b i j e,
  nth_error (spec_reads k b sizes) i = Some (RErr e) -> (i < j < length sizes)%nat ->
  nth_error (spec_reads k b sizes) j = Some (ROk []).
Proof.
  induction sizes as [|n r IH]; intros k b i j e Hi Hj; [destruct i; discriminate Hi|].
  cbn [spec_reads length] in *. destruct n as [|n].
  - destruct i as [|i]; [discriminate Hi|]. destruct j as [|j]; [lia|]. cbn [nth_error] in *.
    apply (IH k b i j e); auto. lia.
  - destruct (fill (S n) k) as [o k']. destruct (b && Nat.ltb (length o) (S n)).
    + destruct j as [|j]; [lia|]. cbn [nth_error]. rewrite spec_reads_end, nth_error_map.
      destruct (nth_error r j) eqn:E; [reflexivity|]. apply nth_error_None in E. lia.
    + destruct i as [|i]; [discriminate Hi|]. destruct j as [|j]; [lia|]. cbn [nth_error] in *.
      apply (IH k' b i j e); auto. lia.
Qed.

Lemma json_reads_after_error : forall src n sizes bs e cs rest i j err, (0 < n)%nat ->
  delivered n src = (bs, e) -> decodes bs cs rest -> cs <> [] ->
  nth_error (json_reads src (n :: sizes)) i = Some (RErr err) -> (i < j < length (n :: sizes))%nat ->
  nth_error (json_reads src (n :: sizes)) j = Some (ROk []).
Proof.
  intros src n sizes bs e cs rest i j err Hn Hd Hdec Hcs.
  rewrite (json_reads_exact src n sizes bs e cs rest Hn Hd Hdec). unfold spec_json_reads.
  destruct (broken_of rest e); [|apply spec_reads_after_error].
  destruct cs; [congruence|]. apply spec_reads_after_error.
Qed.
