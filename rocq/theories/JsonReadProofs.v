(** Proofs about the streaming JSON reader. *)
From Coq Require Import Arith List NArith Bool Lia.
From Verif Require Import Base Utf8 JsonModel JsonProofs JsonReadModel JsonReadSpec.
Import ListNotations.
Open Scope N_scope.

(** ** The byte iterator *)

Definition ir_inv (n : nat) (it : ireader) : Prop :=
  (0 < n)%nat /\ ir_buffer_size it = n /\ b_buffer_size (ir_buffer it) = n /\
  length (b_buffer (ir_buffer it)) = n /\
  (b_read_pos (ir_buffer it) <= b_data_size (ir_buffer it) <= n)%nat.

Definition pending (b : buffer) : list N :=
  skipn (b_read_pos b) (firstn (b_data_size b) (b_buffer b)).

Definition stream (n : nat) (it : ireader) : list N * option N :=
  let p := pending (ir_buffer it) in
  if Nat.eqb (b_data_size (ir_buffer it)) n
  then let (o, e) := delivered n (ir_read it) in (p ++ o, e)
  else (p, None).

Lemma delivered_split : forall n bs r, (0 < n)%nat -> (n < length bs)%nat ->
  delivered n (PData bs :: r) =
  let (o, e) := delivered n (PData (skipn n bs) :: r) in (firstn n bs ++ o, e).
Proof.
  intros n bs r Hn Hl. cbn [delivered].
  destruct bs as [|b bs]; [cbn in Hl; lia|].
  assert (Hs : length (skipn n (b :: bs)) = (length (b :: bs) - n)%nat) by apply skipn_length.
  destruct (skipn n (b :: bs)) as [|x t] eqn:E.
  { cbn [length] in *. lia. }
  assert (Hm : Nat.modulo (length (b :: bs)) n = Nat.modulo (length (x :: t)) n).
  { rewrite Hs. replace (length (b :: bs)) with ((length (b :: bs) - n) + 1 * n)%nat at 1 by lia.
    apply Nat.mod_add. lia. }
  rewrite Hm. destruct (Nat.eqb (length (x :: t) mod n) 0).
  - destruct (delivered n r) as [o e]. rewrite <- E, app_assoc, firstn_skipn. reflexivity.
  - rewrite <- E, firstn_skipn. reflexivity.
Qed.

Lemma delivered_small : forall n bs r, (0 < n)%nat -> (length bs <= n)%nat ->
  delivered n (PData bs :: r) =
  if Nat.eqb (length bs) n then let (o, e) := delivered n r in (bs ++ o, e) else (bs, None).
Proof.
  intros n bs r Hn Hl. cbn [delivered]. destruct bs as [|b bs].
  - cbn [length]. destruct (Nat.eqb 0 n) eqn:E; [apply Nat.eqb_eq in E; lia|reflexivity].
  - destruct (Nat.eqb (length (b :: bs)) n) eqn:E.
    + apply Nat.eqb_eq in E. rewrite E, Nat.mod_same by lia. reflexivity.
    + apply Nat.eqb_neq in E. rewrite Nat.mod_small by lia.
      cbn [length Nat.eqb]. reflexivity.
Qed.

Lemma pending_head : forall b x p,
  pending b = x :: p -> length (b_buffer b) = b_buffer_size b ->
  (b_data_size b <= b_buffer_size b)%nat ->
  Nat.leb (b_data_size b) (b_read_pos b) = false /\
  nth_error (b_buffer b) (b_read_pos b) = Some x /\
  skipn (S (b_read_pos b)) (firstn (b_data_size b) (b_buffer b)) = p.
Proof.
  intros [buf pos size data] x p H Hl Hd. unfold pending in H.
  cbn [b_read_pos b_data_size b_buffer b_buffer_size] in *.
  assert (Hlt : (pos < data)%nat).
  { destruct (Nat.lt_ge_cases pos data) as [|Hge]; [assumption|].
    rewrite skipn_all2 in H; [discriminate|]. rewrite firstn_length. lia. }
  split; [apply Nat.leb_gt; assumption|].
  clear Hd Hl. revert data buf H Hlt. induction pos as [|pos IH]; intros data buf H Hlt.
  - destruct data as [|data]; [lia|]. destruct buf as [|y buf]; [discriminate H|].
    cbn in H |- *. injection H as -> H. auto.
  - destruct data as [|data]; [lia|]. destruct buf as [|y buf]; [discriminate H|].
    cbn [firstn skipn nth_error] in H |- *. apply (IH data buf H). lia.
Qed.

Lemma pending_nil : forall b,
  pending b = [] -> length (b_buffer b) = b_buffer_size b ->
  (b_data_size b <= b_buffer_size b)%nat ->
  Nat.leb (b_data_size b) (b_read_pos b) = true.
Proof.
  intros [buf pos size data] H Hl Hd. unfold pending in H.
  cbn [b_read_pos b_data_size b_buffer b_buffer_size] in *.
  apply Nat.leb_le. assert (length (skipn pos (firstn data buf)) = 0%nat) by (rewrite H; reflexivity).
  rewrite skipn_length, firstn_length in H0. lia.
Qed.

Lemma ir_loop_head : forall fuel n src b x p,
  length (b_buffer b) = n -> b_buffer_size b = n -> (b_data_size b <= n)%nat ->
  pending b = x :: p ->
  exists b', ir_loop (S fuel) src n b =
    (BByte x, {| ir_read := src; ir_buffer_size := n; ir_buffer := b' |}) /\
    b_buffer b' = b_buffer b /\ b_read_pos b' = S (b_read_pos b) /\
    b_buffer_size b' = n /\ b_data_size b' = b_data_size b /\ pending b' = p /\
    (b_read_pos b' <= b_data_size b')%nat.
Proof.
  intros fuel n src b x p H1 H2 H3 H. cbn [ir_loop]. unfold buffer_next.
  destruct (pending_head b x p H) as (A & B & C); [congruence|lia|]. rewrite A, B.
  eexists. split; [reflexivity|]. cbn [b_buffer b_read_pos b_buffer_size b_data_size].
  apply Nat.leb_gt in A.
  unfold pending. cbn [b_buffer b_read_pos b_data_size]. repeat split; auto.
Qed.

Lemma delivered_bytes : forall n src, (length (fst (delivered n src)) <= source_bytes src)%nat.
Proof.
  induction src as [|[bs|k] r IH]; cbn [delivered source_bytes]; try (cbn; lia).
  destruct bs as [|b bs]; [cbn; lia|].
  destruct (Nat.eqb (length (b :: bs) mod n) 0).
  - destruct (delivered n r) as [o e]. cbn [fst] in *. rewrite app_length. lia.
  - cbn [fst]. lia.
Qed.

Lemma stream_bytes : forall n it, ir_inv n it ->
  (length (fst (stream n it)) <= ir_bytes it)%nat.
Proof.
  intros n it (H0 & H1 & H2 & H3 & H4). unfold stream, ir_bytes, pending.
  destruct (Nat.eqb (b_data_size (ir_buffer it)) n).
  - pose proof (delivered_bytes n (ir_read it)). destruct (delivered n (ir_read it)) as [o e].
    cbn [fst] in *. rewrite app_length, skipn_length, firstn_length. lia.
  - cbn [fst]. rewrite skipn_length, firstn_length. lia.
Qed.

(** The buffer right after data [bs] has been read. *)
Definition fresh (n : nat) (bs : list N) (old : list N) : buffer :=
  {| b_buffer := bs ++ skipn (length bs) old; b_read_pos := 0; b_buffer_size := n;
     b_data_size := length bs |}.

Lemma fresh_pending : forall n bs old, pending (fresh n bs old) = bs.
Proof.
  intros. unfold pending, fresh. cbn [b_read_pos b_data_size b_buffer skipn].
  rewrite firstn_app, Nat.sub_diag, firstn_all. cbn [firstn]. apply app_nil_r.
Qed.

Lemma fresh_length : forall n bs old, length old = n -> (length bs <= n)%nat ->
  length (b_buffer (fresh n bs old)) = n.
Proof.
  intros. cbn [fresh b_buffer]. rewrite app_length, skipn_length. lia.
Qed.

Lemma ir_loop_fresh : forall fuel n src bs old,
  (0 < n)%nat -> length old = n -> (length bs <= n)%nat ->
  let S0 := stream n {| ir_read := src; ir_buffer_size := n; ir_buffer := fresh n bs old |} in
  match fst S0 with
  | x :: t => bs <> [] -> exists it', ir_loop (S fuel) src n (fresh n bs old) = (BByte x, it') /\
              ir_inv n it' /\ stream n it' = (t, snd S0)
  | [] => True
  end /\
  (bs = [] -> exists it', ir_loop (S fuel) src n (fresh n bs old) = (BEof, it')).
Proof.
  intros fuel n src bs old Hn Ho Hl S0. split.
  - destruct (fst S0) as [|x t] eqn:E; [exact I|]. intro Hne.
    destruct bs as [|b bs]; [congruence|].
    destruct (ir_loop_head fuel n src (fresh n (b :: bs) old) b bs) as (b' & A & B1 & B2 & B3 & B4 & B5 & B6).
    + apply fresh_length; assumption.
    + reflexivity.
    + exact Hl.
    + apply fresh_pending.
    + assert (Hs : S0 = let p := b :: bs in
        if Nat.eqb (length (b :: bs)) n then let (o, e) := delivered n src in (p ++ o, e) else (p, None)).
      { unfold S0, stream. cbn [ir_buffer ir_read]. rewrite fresh_pending. reflexivity. }
      cbn zeta in Hs.
      assert (Hx : x = b).
      { rewrite Hs in E. destruct (Nat.eqb (length (b :: bs)) n); [destruct (delivered n src)|];
          cbn in E; injection E; auto. }
      subst x. eexists. split; [exact A|]. split.
      * unfold ir_inv. cbn [ir_buffer ir_buffer_size]. rewrite B1, B3, B4 in *.
        cbn [fresh b_data_size] in *.
        repeat split; auto; try lia. apply (fresh_length n (b :: bs) old); assumption.
      * unfold stream. cbn [ir_buffer ir_read]. rewrite B4, B5. cbn [fresh b_data_size].
        rewrite Hs in E |- *. destruct (Nat.eqb (length (b :: bs)) n).
        -- destruct (delivered n src) as [o e]. cbn [fst snd] in *. cbn in E. injection E as <-. reflexivity.
        -- cbn [fst snd] in *. injection E as <-. reflexivity.
  - intros ->. cbn [ir_loop]. unfold buffer_next. cbn [fresh b_data_size b_read_pos length Nat.leb].
    unfold buffer_cont. cbn [fresh b_data_size b_buffer_size length].
    destruct (Nat.eqb 0 n) eqn:E; [apply Nat.eqb_eq in E; lia|]. eexists. reflexivity.
Qed.

Lemma ir_next_spec : forall n it, ir_inv n it ->
  match stream n it with
  | (x :: t, e) => exists it', ir_next it = (BByte x, it') /\ ir_inv n it' /\ stream n it' = (t, e)
  | ([], None) => exists it', ir_next it = (BEof, it')
  | ([], Some k) => exists it', ir_next it = (BErr k, it')
  end.
Proof.
  intros n it (H0 & H1 & H2 & H3 & H4). destruct it as [src size b].
  cbn [ir_buffer ir_buffer_size ir_read] in *. subst size.
  unfold ir_next. cbn [ir_buffer ir_buffer_size ir_read].
  destruct (Nat.eqb n 0) eqn:En; [apply Nat.eqb_eq in En; lia|].
  destruct (pending b) as [|x p] eqn:Ep.
  - unfold stream. cbn [ir_buffer ir_read]. rewrite Ep. cbn [app].
    assert (Hle : Nat.leb (b_data_size b) (b_read_pos b) = true) by (apply pending_nil; [assumption|congruence|lia]).
    cbn [ir_loop]. unfold buffer_next. rewrite Hle. unfold buffer_cont. rewrite H2.
    destruct (Nat.eqb (b_data_size b) n) eqn:Ed; [|eexists; reflexivity].
    unfold read_data. rewrite H3, H2. destruct src as [|[bs|k] r]; cbn [src_read].
    + cbn [delivered length]. 
      destruct (ir_loop_fresh 1 n [] [] (b_buffer b) H0 H3) as [_ A]; [cbn; lia|].
      apply A. reflexivity.
    + destruct (Nat.leb (length bs) n) eqn:Eb.
      * apply Nat.leb_le in Eb. rewrite (delivered_small n bs r H0 Eb).
        destruct (ir_loop_fresh 1 n r bs (b_buffer b) H0 H3 Eb) as [A B].
        unfold stream in A. cbn [ir_buffer ir_read] in A. rewrite fresh_pending in A.
        cbn [fresh b_data_size] in A.
        destruct bs as [|x bs].
        -- cbn [length] in *. rewrite Nat.eqb_sym, En. apply B. reflexivity.
        -- destruct (Nat.eqb (length (x :: bs)) n).
           ++ destruct (delivered n r) as [o e]. cbn [app fst snd] in *. apply A. discriminate.
           ++ cbn [fst snd] in *. apply A. discriminate.
      * apply Nat.leb_gt in Eb. rewrite (delivered_split n bs r H0 Eb).
        assert (Hf : length (firstn n bs) = n) by (rewrite firstn_length; lia).
        destruct (ir_loop_fresh 1 n (PData (skipn n bs) :: r) (firstn n bs) (b_buffer b) H0 H3) as [A B].
        { rewrite Hf. auto. }
        unfold stream in A. cbn [ir_buffer ir_read] in A. rewrite fresh_pending in A.
        cbn [fresh b_data_size] in A. rewrite Hf, Nat.eqb_refl in A.
        destruct (delivered n (PData (skipn n bs) :: r)) as [o e].
        destruct (firstn n bs) as [|x f] eqn:Ef; [cbn in Hf; lia|].
        cbn [app fst snd] in A |- *. apply A. discriminate.
    + cbn [delivered]. eexists. reflexivity.
  - destruct (ir_loop_head 2 n src b x p H3 H2) as (b' & A & B1 & B2 & B3 & B4 & B5 & B6); [lia|assumption|].
    unfold stream. cbn [ir_buffer ir_read]. rewrite Ep.
    assert (Hgoal : exists it', ir_loop 3 src n b = (BByte x, it') /\ ir_inv n it' /\
      stream n it' = (let (o, e) := (if Nat.eqb (b_data_size b) n then delivered n src else ([], None)) in (p ++ o, e))).
    { eexists. split; [exact A|]. split.
      - unfold ir_inv. cbn [ir_buffer ir_buffer_size]. rewrite B1, B3, B4 in *. repeat split; auto; lia.
      - unfold stream. cbn [ir_buffer ir_read]. rewrite B4, B5.
        destruct (Nat.eqb (b_data_size b) n); [reflexivity|]. rewrite app_nil_r. reflexivity. }
    destruct (Nat.eqb (b_data_size b) n).
    + destruct (delivered n src) as [o e]. cbn [app]. exact Hgoal.
    + rewrite app_nil_r in Hgoal. exact Hgoal.
Qed.

Lemma ireader_new_spec : forall n src, (0 < n)%nat ->
  match src with
  | PErr k :: _ => ireader_new src n = inr k
  | _ => exists it, ireader_new src n = inl it /\ ir_inv n it /\ stream n it = delivered n src
  end.
Proof.
  intros n src Hn. unfold ireader_new, read_data. cbn [buffer_new b_buffer b_buffer_size].
  rewrite repeat_length.
  assert (Hf : forall bs src', (length bs <= n)%nat ->
    ir_inv n {| ir_read := src'; ir_buffer_size := n; ir_buffer := fresh n bs (repeat 0 n) |}).
  { intros bs src' Hl. unfold ir_inv. cbn [ir_buffer ir_buffer_size].
    repeat split; auto; try (cbn [fresh b_read_pos b_data_size]; lia).
    apply fresh_length; [apply repeat_length|assumption]. }
  destruct src as [|[bs|k] r]; cbn [src_read].
  - eexists. split; [reflexivity|]. split; [apply (Hf []); cbn; lia|].
    unfold stream. cbn [ir_buffer ir_read]. 
    change (pending _) with (pending (fresh n [] (repeat 0 n))). rewrite fresh_pending.
    cbn [b_data_size length app delivered].
    destruct (Nat.eqb 0 n); reflexivity.
  - destruct (Nat.leb (length bs) n) eqn:Eb.
    + apply Nat.leb_le in Eb. eexists. split; [reflexivity|]. split; [apply (Hf bs); assumption|].
      rewrite delivered_small by assumption.
      unfold stream. cbn [ir_buffer ir_read].
      change (pending _) with (pending (fresh n bs (repeat 0 n))). rewrite fresh_pending. reflexivity.
    + apply Nat.leb_gt in Eb. assert (Hl : length (firstn n bs) = n) by (rewrite firstn_length; lia).
      eexists. split; [reflexivity|]. split; [apply (Hf (firstn n bs)); lia|].
      rewrite delivered_split by assumption.
      unfold stream. cbn [ir_buffer ir_read].
      change (pending _) with (pending (fresh n (firstn n bs) (repeat 0 n))). rewrite fresh_pending.
      cbn [b_data_size]. rewrite Hl, Nat.eqb_refl. reflexivity.
  - reflexivity.
Qed.

(** ** The character iterator *)

Lemma collect_bytes_spec : forall r n it acc t e, ir_inv n it -> stream n it = (r ++ t, e) ->
  exists it', collect_bytes (length r) it acc = (inl (acc ++ r), it') /\ ir_inv n it' /\
    stream n it' = (t, e).
Proof.
  induction r as [|x r IH]; intros n it acc t e Hi Hs.
  - exists it. cbn. rewrite app_nil_r. auto.
  - pose proof (ir_next_spec n it Hi) as A. rewrite Hs in A. cbn [app] in A.
    destruct A as (it' & A & Hi' & Hs').
    destruct (IH n it' (acc ++ [x]) t e Hi' Hs') as (it2 & B & C & D).
    exists it2. cbn [length collect_bytes]. rewrite A, B, <- app_assoc. auto.
Qed.

Lemma collect_bytes_short : forall w n it acc bs e, ir_inv n it -> stream n it = (bs, e) ->
  (length bs < w)%nat -> exists it', collect_bytes w it acc = (inr CErr, it').
Proof.
  induction w as [|w IH]; intros n it acc bs e Hi Hs Hl; [lia|].
  pose proof (ir_next_spec n it Hi) as A. rewrite Hs in A. cbn [collect_bytes].
  destruct bs as [|x bs].
  - destruct e as [k|]; destruct A as (it' & ->); eexists; reflexivity.
  - destruct A as (it' & -> & Hi' & Hs'). apply (IH n it' _ bs e Hi' Hs'). cbn in Hl. lia.
Qed.

Lemma btc_next_char : forall n it c cs rest e, ir_inv n it -> is_scalar c = true ->
  stream n it = (encode (c :: cs) ++ rest, e) ->
  exists it', btc_next it = (CChar c, it') /\ ir_inv n it' /\ stream n it' = (encode cs ++ rest, e).
Proof.
  intros n it c cs rest e Hi Hc Hs. cbn [encode] in Hs. rewrite <- app_assoc in Hs.
  destruct (encode_char_accepted c Hc) as (a & r & E & Hw & Hw1 & Hw2). rewrite E in Hs. cbn [app] in Hs.
  pose proof (ir_next_spec n it Hi) as A. rewrite Hs in A. destruct A as (it' & A & Hi' & Hs').
  unfold btc_next. rewrite A, Hw.
  destruct r as [|x r].
  - cbn [length]. rewrite (Hw1 eq_refl). eauto.
  - destruct (collect_bytes_spec (x :: r) n it' [a] (encode cs ++ rest) e Hi' Hs') as (it2 & B & Hi2 & Hs2).
    cbn [length] in *. rewrite B. cbn [app]. rewrite Hw2 by discriminate. eauto.
Qed.

Lemma btc_next_eof : forall n it, ir_inv n it -> stream n it = ([], None) ->
  exists it', btc_next it = (CEof, it').
Proof.
  intros n it Hi Hs. pose proof (ir_next_spec n it Hi) as A. rewrite Hs in A.
  destruct A as (it' & A). unfold btc_next. rewrite A. eauto.
Qed.

Lemma btc_next_bad : forall n it rest e, ir_inv n it -> stream n it = (rest, e) ->
  (forall c t, is_scalar c = true -> rest <> encode_char c ++ t) ->
  rest <> [] \/ e <> None ->
  exists it', btc_next it = (CErr, it').
Proof.
  intros n it rest e Hi Hs Hbad Hne. pose proof (ir_next_spec n it Hi) as A. rewrite Hs in A.
  unfold btc_next. destruct rest as [|a t].
  - destruct e as [k|]; [|destruct Hne; congruence]. destruct A as (it' & ->). eauto.
  - destruct A as (it' & -> & Hi' & Hs').
    destruct (utf8_char_width a) as [|[|w]] eqn:Ew.
    + eauto.
    + exfalso. destruct (width1_encode a Ew) as [H1 H2]. apply (Hbad a t H1). rewrite H2. reflexivity.
    + destruct (Nat.lt_ge_cases (length t) (S w)) as [Hlt|Hge].
      * destruct (collect_bytes_short (S w) n it' [a] t e Hi' Hs' Hlt) as (it2 & ->). eauto.
      * assert (Hf : length (firstn (S w) t) = S w) by (rewrite firstn_length; lia).
        destruct (collect_bytes_spec (firstn (S w) t) n it' [a] (skipn (S w) t) e Hi') as (it2 & B & _).
        { rewrite firstn_skipn. assumption. }
        rewrite Hf in B. rewrite B. cbn [app].
        destruct (from_utf8_first (a :: firstn (S w) t)) as [c|] eqn:Ef; [|eauto].
        exfalso. destruct (from_utf8_first_encode _ _ Ef) as [H1 H2].
        apply (Hbad c (skipn (S w) t) H1). rewrite H2.
        change (a :: t = a :: firstn (S w) t ++ skipn (S w) t). rewrite firstn_skipn. reflexivity.
Qed.

(** Every byte string has a decoding, and only one. *)
Lemma decodes_exists : forall bs, exists cs rest, decodes bs cs rest.
Proof.
  intro bs. remember (length bs) as n eqn:Hn.
  assert (Hle : (length bs <= n)%nat) by lia. clear Hn. revert bs Hle.
  induction n as [|n IH]; intros bs Hle.
  - destruct bs; [|cbn in Hle; lia]. exists [], []. split; [reflexivity|]. split; [constructor|].
    intros c t Hc E. destruct (encode_char_accepted c Hc) as (a & r & E' & _). rewrite E' in E. discriminate E.
  - assert (Hdec : (exists c t, is_scalar c = true /\ bs = encode_char c ++ t) \/
                   (forall c t, is_scalar c = true -> bs <> encode_char c ++ t)).
    { destruct bs as [|a t].
      - right. intros c t Hc E. destruct (encode_char_accepted c Hc) as (a & r & E' & _).
        rewrite E' in E. discriminate E.
      - destruct (utf8_char_width a) as [|[|w]] eqn:Ew.
        + right. intros c t' Hc E. destruct (encode_char_accepted c Hc) as (a' & r & E' & Hw & _).
          rewrite E' in E. injection E as -> _. congruence.
        + left. destruct (width1_encode a Ew) as [H1 H2]. exists a, t. rewrite H2. auto.
        + destruct (from_utf8_first (a :: firstn (S w) t)) as [c|] eqn:Ef.
          * destruct (from_utf8_first_encode _ _ Ef) as [H1 H2]. left. exists c, (skipn (S w) t).
            split; [assumption|]. rewrite H2.
            change (a :: t = a :: firstn (S w) t ++ skipn (S w) t). rewrite firstn_skipn. reflexivity.
          * right. intros c t' Hc E. destruct (encode_char_accepted c Hc) as (a' & r & E' & Hw & _ & Hw2).
            rewrite E' in E. injection E as -> ->. rewrite Ew in Hw. injection Hw as Hw.
            rewrite Hw, firstn_app, Nat.sub_diag, firstn_all in Ef. cbn [firstn] in Ef.
            rewrite app_nil_r in Ef. rewrite Hw2 in Ef; [discriminate|].
            destruct r; [discriminate|discriminate]. }
    destruct Hdec as [(c & t & Hc & ->) | Hbad].
    + destruct (IH t) as (cs & rest & -> & H2 & H3).
      { rewrite app_length, encode_char_length in Hle. pose proof (len_utf8_pos c). lia. }
      exists (c :: cs), rest. split; [cbn [encode]; rewrite app_assoc; reflexivity|]. auto.
    + exists [], bs. split; [reflexivity|]. auto.
Qed.

(** ** The main loop *)

Definition broken_of (rest : list N) (e : option N) : bool :=
  match rest, e with [], None => false | _, _ => true end.

(** The characters that will be kept, given the pending item and the characters after
    it: when the stream is broken the last character is never processed. *)
Definition kept_of (m : minifier) (item : N) (cs : str) (broken : bool) : str :=
  if broken then kept m (removelast (item :: cs)) (Some (last (item :: cs) 0))
  else kept m (item :: cs) None.

(** The state of an initialized reader that will still keep [k]. *)
Definition ready (m : minifier) (it : ireader) (item1 : option N) (k : str) (broken : bool) : Prop :=
  match item1 with
  | None => k = [] /\ broken = false
  | Some item =>
      exists n bs e cs rest, ir_inv n it /\ stream n it = (bs, e) /\ decodes bs cs rest /\
        broken = broken_of rest e /\ k = kept_of m item cs broken
  end.

Definition ready_state (j : jread) (k : str) (broken : bool) : Prop :=
  exists m it ii item1, j = jr_running m it ii item1 /\ ready m it item1 k broken.

Lemma kept_of_cons : forall m item c cs broken,
  kept_of m item (c :: cs) broken =
  let (k, m') := keep_element m item (Some c) in
  if k then item :: kept_of m' c cs broken else kept_of m' c cs broken.
Proof.
  intros m item c cs broken. unfold kept_of. destruct broken.
  - change (removelast (item :: c :: cs)) with (item :: removelast (c :: cs)).
    change (last (item :: c :: cs) 0) with (last (c :: cs) 0).
    cbn [kept].
    replace (match removelast (c :: cs) with [] => Some (last (c :: cs) 0) | d :: _ => Some d end)
      with (Some c); [reflexivity|].
    destruct cs as [|d cs]; reflexivity.
  - reflexivity.
Qed.

Lemma fill_length : forall k n, (length (fst (fill n k)) <= n)%nat.
Proof.
  induction k as [|c k IH]; intro n; [cbn; lia|].
  cbn [fill]. destruct (Nat.ltb (len_utf8 c) n) eqn:E.
  - apply Nat.ltb_lt in E. specialize (IH (n - len_utf8 c)%nat).
    destruct (fill (n - len_utf8 c) k) as [o k']. cbn [fst] in *.
    rewrite app_length, encode_char_length. lia.
  - cbn [fst]. rewrite firstn_length. lia.
Qed.

Lemma decodes_nil : forall bs rest, decodes bs [] rest -> bs = rest.
Proof. intros bs rest (E & _). exact E. Qed.

(** What one call of [read] does in a ready state. *)
Definition read_spec (len : nat) (k : str) (broken : bool) (out : list N)
  (res : read_result * jread) : Prop :=
  let (o, k') := fill (len - length out) k in
  if broken && Nat.ltb (length o) (len - length out)
  then exists j', res = (RErr EInvalidData, j') /\ ready_state j' [] false
  else exists j', res = (ROk (out ++ o), j') /\ ready_state j' k' broken.

Lemma read_loop_spec : forall cs rest bs e n it item m len out ii fuel,
  ir_inv n it -> stream n it = (bs, e) -> decodes bs cs rest ->
  (length out < len)%nat -> (length bs + 2 <= fuel)%nat ->
  read_spec len (kept_of m item cs (broken_of rest e)) (broken_of rest e) out
    (read_loop fuel len m it ii (Some item) out).
Proof.
  induction cs as [|c cs IH]; intros rest bs e n it item m len out ii fuel Hi Hs Hd Hlen Hf.
  - pose proof (decodes_nil _ _ Hd) as ->.
    destruct fuel as [|fuel]; [lia|]. destruct fuel as [|fuel]; [lia|].
    destruct (broken_of rest e) eqn:Eb.
    + destruct (btc_next_bad n it rest e Hi Hs) as (it' & A).
      { apply Hd. }
      { destruct rest; [|left; discriminate]. destruct e; [|discriminate Eb]. right. discriminate. }
      unfold read_spec, kept_of. cbn [removelast kept fill length].
      replace (Nat.ltb 0 (len - length out)) with true by (symmetry; apply Nat.ltb_lt; lia).
      cbn [andb read_loop]. rewrite A. eexists. split; [reflexivity|].
      do 4 eexists. split; [reflexivity|]. cbn. auto.
    + assert (rest = [] /\ e = None) as [-> ->] by (destruct rest, e; try discriminate; auto).
      destruct (btc_next_eof n it Hi Hs) as (it' & A).
      unfold read_spec, kept_of. cbn [kept]. remember (S fuel) as f1. cbn [read_loop]. rewrite A.
      destruct (keep_element m item None) as [k m'] eqn:Ek.
      destruct k; cbn [andb fill].
      * unfold add_char_to_buffer.
        destruct (Nat.ltb (len_utf8 item) (len - length out)) eqn:El.
        -- apply Nat.ltb_lt in El. rewrite firstn_all2 by (rewrite encode_char_length; lia).
           cbn [app fill]. rewrite !app_nil_r.
           replace (Nat.leb len (length (out ++ encode_char item))) with false.
           2:{ symmetry. apply Nat.leb_gt. rewrite app_length, encode_char_length. lia. }
           subst f1. cbn [read_loop]. eexists. split; [reflexivity|].
           do 4 eexists. split; [reflexivity|]. cbn. auto.
        -- apply Nat.ltb_ge in El.
           replace (Nat.leb len (length (out ++ firstn (len - length out) (encode_char item)))) with true.
           2:{ symmetry. apply Nat.leb_le. rewrite app_length, firstn_length, encode_char_length. lia. }
           eexists. split; [reflexivity|]. do 4 eexists. split; [reflexivity|]. cbn. auto.
      * replace (Nat.leb len (length out)) with false by (symmetry; apply Nat.leb_gt; lia).
        subst f1. cbn [read_loop]. rewrite app_nil_r. eexists. split; [reflexivity|].
        do 4 eexists. split; [reflexivity|]. cbn. auto.
  - destruct Hd as (Hb & Hsc & Hbad). inversion Hsc as [|? ? Hc Hcs]; subst.
    destruct (btc_next_char n it c cs rest e Hi Hc Hs) as (it' & A & Hi' & Hs').
    destruct fuel as [|fuel]; [lia|].
    assert (Hd' : decodes (encode cs ++ rest) cs rest) by (repeat split; auto).
    assert (Hf' : (length (encode cs ++ rest) + 2 <= fuel)%nat).
    { cbn [encode] in Hf. rewrite <- app_assoc, app_length, encode_char_length in Hf.
      pose proof (len_utf8_pos c). lia. }
    unfold read_spec. rewrite kept_of_cons. cbn [read_loop]. rewrite A.
    destruct (keep_element m item (Some c)) as [k m'] eqn:Ek.
    destruct k.
    + cbn [fill]. unfold add_char_to_buffer.
      destruct (Nat.ltb (len_utf8 item) (len - length out)) eqn:El.
      * apply Nat.ltb_lt in El. rewrite firstn_all2 by (rewrite encode_char_length; lia).
        replace (Nat.leb len (length (out ++ encode_char item))) with false.
        2:{ symmetry. apply Nat.leb_gt. rewrite app_length, encode_char_length. lia. }
        assert (Hlen' : (length (out ++ encode_char item) < len)%nat)
          by (rewrite app_length, encode_char_length; lia).
        pose proof (IH rest _ e n it' c m' len (out ++ encode_char item)
          (Some (skipn (len - length out) (encode_char item))) fuel Hi' Hs' Hd' Hlen' Hf') as B.
        unfold read_spec in B. rewrite app_length, encode_char_length in B.
        replace (len - (length out + len_utf8 item))%nat with (len - length out - len_utf8 item)%nat in B by lia.
        destruct (fill (len - length out - len_utf8 item) (kept_of m' c cs (broken_of rest e))) as [o k'].
        replace (Nat.ltb (length (encode_char item ++ o)) (len - length out))
          with (Nat.ltb (length o) (len - length out - len_utf8 item)).
        2:{ rewrite app_length, encode_char_length.
            destruct (Nat.ltb_spec (length o) (len - length out - len_utf8 item));
            destruct (Nat.ltb_spec (len_utf8 item + length o) (len - length out)); auto; lia. }
        rewrite app_assoc. exact B.
      * apply Nat.ltb_ge in El.
        assert (Hfl : length (firstn (len - length out) (encode_char item)) = (len - length out)%nat)
          by (rewrite firstn_length, encode_char_length; lia).
        replace (Nat.leb len (length (out ++ firstn (len - length out) (encode_char item)))) with true.
        2:{ symmetry. apply Nat.leb_le. rewrite app_length. lia. }
        rewrite Hfl, Nat.ltb_irrefl, andb_false_r.
        eexists. split; [reflexivity|]. do 4 eexists. split; [reflexivity|].
        cbn [ready]. exists n, (encode cs ++ rest), e, cs, rest. auto.
    + replace (Nat.leb len (length out)) with false by (symmetry; apply Nat.leb_gt; lia).
      exact (IH rest _ e n it' c m' len out ii fuel Hi' Hs' Hd' Hlen Hf').
Qed.

Lemma jread_read_ready : forall len j k broken, (0 < len)%nat -> ready_state j k broken ->
  read_spec len k broken [] (jread_read len j).
Proof.
  intros len j k broken Hlen (m & it & ii & item1 & -> & H). unfold jread_read.
  destruct (Nat.eqb len 0) eqn:E; [apply Nat.eqb_eq in E; lia|].
  unfold jr_running at 1 2. cbn [jr_initialized jr_iter jr_minifier jr_item_iter jr_item1].
  destruct item1 as [item|]; cbn [ready] in H.
  - destruct H as (n & bs & e & cs & rest & Hi & Hs & Hd & -> & ->).
    eapply read_loop_spec; eauto.
    pose proof (stream_bytes n it Hi) as A. rewrite Hs in A. cbn [fst] in A. lia.
  - destruct H as [-> ->]. unfold read_spec. cbn [fill length andb read_loop app].
    eexists. split; [reflexivity|]. do 4 eexists. split; [reflexivity|]. cbn. auto.
Qed.

Lemma jread_reads_ready : forall sizes j k broken, ready_state j k broken ->
  jread_reads sizes j = spec_reads k broken sizes.
Proof.
  induction sizes as [|n r IH]; intros j k broken H; [reflexivity|].
  cbn [jread_reads spec_reads]. destruct n as [|n].
  - cbn. f_equal. apply IH. assumption.
  - pose proof (jread_read_ready (S n) j k broken ltac:(lia) H) as A. unfold read_spec in A.
    cbn [length] in A. rewrite Nat.sub_0_r in A.
    destruct (fill (S n) k) as [o k'].
    destruct (broken && Nat.ltb (length o) (S n)); destruct A as (j' & -> & Hj'); cbn [app];
      f_equal; apply IH; assumption.
Qed.

(** After a failed first read. *)
Lemma jread_reads_dead : forall sizes j, jr_initialized j = false -> jr_read j = None ->
  jread_reads sizes j = map (fun n => if Nat.eqb n 0 then ROk [] else RPanic) sizes.
Proof.
  induction sizes as [|n r IH]; intros j H1 H2; [reflexivity|].
  cbn [jread_reads map]. unfold jread_read. rewrite H1, H2.
  destruct (Nat.eqb n 0); f_equal; apply IH; assumption.
Qed.

(** The exact behaviour of every history. *)
Definition spec_json_reads (src : source) (n : nat) (cs : str) (rest : list N) (e : option N)
  (sizes : list nat) : list read_result :=
  if broken_of rest e then
    match cs with
    | [] => RErr (match src with PErr k :: _ => EIo k | _ => EInvalidData end)
            :: map (fun n => if Nat.eqb n 0 then ROk [] else RPanic) sizes
    | _ => spec_reads (kept new_minifier (removelast cs) (Some (last cs 0))) true (n :: sizes)
    end
  else spec_reads (kept new_minifier cs None) false (n :: sizes).

Lemma json_reads_zeros : forall z src sizes,
  json_reads src (repeat 0%nat z ++ sizes) = repeat (ROk []) z ++ json_reads src sizes.
Proof.
  induction z as [|z IH]; intros src sizes; [reflexivity|].
  cbn [repeat app]. unfold json_reads in *. cbn [jread_reads jread_read Nat.eqb]. f_equal. apply IH.
Qed.

Lemma json_reads_exact : forall src n sizes bs e cs rest, (0 < n)%nat ->
  delivered n src = (bs, e) -> decodes bs cs rest ->
  json_reads src (n :: sizes) = spec_json_reads src n cs rest e sizes.
Proof.
  intros src n sizes bs e cs rest Hn Hd Hdec. unfold json_reads.
  change (jread_reads (n :: sizes) (jread_new src)) with
    (let (x, j') := jread_read n (jread_new src) in x :: jread_reads sizes j').
  unfold jread_read. destruct (Nat.eqb n 0) eqn:E0; [apply Nat.eqb_eq in E0; lia|].
  cbn [jread_new jr_initialized jr_read jr_minifier jr_iter jr_item_iter jr_item1].
  pose proof (ireader_new_spec n src Hn) as A.
  assert (Hmain : forall it, ir_inv n it -> stream n it = delivered n src ->
    ireader_new src n = inl it -> (match src with PErr _ :: _ => False | _ => True end) ->
    (let (x, j') :=
      match btc_next it with
      | (CErr, it') =>
          (RErr EInvalidData,
           {| jr_minifier := new_minifier; jr_read := None; jr_iter := Some it';
              jr_initialized := false; jr_item_iter := None; jr_item1 := None |})
      | (CFuel, it') => (RFuel, {| jr_minifier := new_minifier; jr_read := None; jr_iter := None;
                     jr_initialized := false; jr_item_iter := None; jr_item1 := None |})
      | (ci, it') =>
          let first := match ci with CChar c => Some c | _ => None end in
          read_loop (S (S (ir_bytes it'))) n new_minifier it' None first []
      end in x :: jread_reads sizes j') = spec_json_reads src n cs rest e sizes).
  { intros it Hi Hs Hnew Hsrc. rewrite Hd in Hs. unfold spec_json_reads.
    destruct cs as [|c cs].
    - pose proof (decodes_nil _ _ Hdec) as ->. destruct (broken_of rest e) eqn:Eb.
      + destruct (btc_next_bad n it rest e Hi Hs) as (it' & B).
        { apply Hdec. }
        { destruct rest; [|left; discriminate]. destruct e; [|discriminate Eb]. right. discriminate. }
        rewrite B. rewrite jread_reads_dead by reflexivity. f_equal.
        destruct src as [|[?|k] ?]; [reflexivity|reflexivity|contradiction].
      + assert (rest = [] /\ e = None) as [-> ->] by (destruct rest, e; try discriminate; auto).
        destruct (btc_next_eof n it Hi Hs) as (it' & B). rewrite B.
        cbn [read_loop kept]. destruct n as [|n]; [lia|].
        cbn [spec_reads fill andb]. f_equal. apply jread_reads_ready.
        do 4 eexists. split; [reflexivity|]. cbn. auto.
    - destruct Hdec as (-> & Hsc & Hbad). inversion Hsc as [|? ? Hc Hcs]; subst.
      destruct (btc_next_char n it c cs rest e Hi Hc Hs) as (it' & B & Hi' & Hs'). rewrite B.
      pose proof (stream_bytes n it' Hi') as C. rewrite Hs' in C. cbn [fst] in C.
      cbn zeta.
      pose proof (read_loop_spec cs rest _ e n it' c new_minifier n [] None (S (S (ir_bytes it')))
        Hi' Hs' (conj eq_refl (conj Hcs Hbad)) Hn ltac:(lia)) as D.
      unfold read_spec in D. cbn [length] in D. rewrite Nat.sub_0_r in D.
      assert (G : (let (x, j') := read_loop (S (S (ir_bytes it'))) n new_minifier it' None (Some c) [] in
         x :: jread_reads sizes j') = spec_reads (kept_of new_minifier c cs (broken_of rest e)) (broken_of rest e) (n :: sizes)).
      { destruct n as [|n]; [lia|]. cbn [spec_reads].
        destruct (fill (S n) (kept_of new_minifier c cs (broken_of rest e))) as [o k'].
        destruct (broken_of rest e && Nat.ltb (length o) (S n)); destruct D as (j' & -> & Hj'); cbn [app];
          f_equal; apply jread_reads_ready; assumption. }
      rewrite G. unfold kept_of. destruct (broken_of rest e); reflexivity. }
  destruct src as [|[bs0|k] r].
  - destruct A as (it & A & Hi & Hs). rewrite A. apply Hmain; auto.
  - destruct A as (it & A & Hi & Hs). rewrite A. apply Hmain; auto.
  - rewrite A. cbn [delivered] in Hd. injection Hd as <- <-.
    destruct Hdec as (E & _ & _). symmetry in E. apply app_eq_nil in E. destruct E as [E ->].
    assert (cs = []) as ->.
    { destruct cs as [|c cs]; [reflexivity|]. cbn [encode] in E. apply app_eq_nil in E.
      destruct E as [E _]. pose proof (encode_char_length c) as L. rewrite E in L.
      pose proof (len_utf8_pos c). cbn in L. lia. }
    unfold spec_json_reads. cbn [broken_of]. rewrite jread_reads_dead by reflexivity. reflexivity.
Qed.

(** ** Consequences *)

Lemma kept_run : forall s m, kept m s None = run m s.
Proof.
  induction s as [|c r IH]; intro m; [reflexivity|].
  cbn [kept run]. replace (match r with [] => None | d :: _ => Some d end) with (hd_error r)
    by (destruct r; reflexivity).
  destruct (keep_element m c (hd_error r)) as [k m']. rewrite IH. reflexivity.
Qed.

Lemma kept_minify : forall s, json_minify s = Ok (kept new_minifier s None).
Proof. intro s. rewrite kept_run. apply json_minify_run. Qed.

Lemma fill_ascii : forall k n, (0 < n)%nat -> Forall (fun c => c < 0x80) k ->
  fill n k = (firstn n k, skipn n k).
Proof.
  induction k as [|c k IH]; intros n Hn Hk; [destruct n; reflexivity|].
  inversion Hk as [|? ? Hc Hk']; subst. cbn [fill].
  assert (E1 : len_utf8 c = 1%nat) by (unfold len_utf8; apply N.ltb_lt in Hc; rewrite Hc; reflexivity).
  assert (E2 : encode_char c = [c]) by (unfold encode_char; apply N.ltb_lt in Hc; rewrite Hc; reflexivity).
  rewrite E1, E2. destruct n as [|n]; [lia|]. destruct n as [|n].
  - cbn. destruct k; reflexivity.
  - replace (Nat.ltb 1 (S (S n))) with true by reflexivity.
    replace (S (S n) - 1)%nat with (S n) by lia. rewrite IH by (auto; lia). reflexivity.
Qed.

Lemma encode_ascii : forall s, Forall (fun c => c < 0x80) s -> encode s = s.
Proof.
  induction 1 as [|c s Hc Hs IH]; [reflexivity|]. cbn [encode].
  unfold encode_char. apply N.ltb_lt in Hc. rewrite Hc, IH. reflexivity.
Qed.

Lemma spec_reads_ascii : forall sizes k, Forall (fun c => c < 0x80) k ->
  spec_reads k false sizes = map ROk (cut k sizes).
Proof.
  induction sizes as [|n r IH]; intros k Hk; [reflexivity|].
  cbn [spec_reads cut map]. destruct n as [|n].
  - cbn [firstn skipn]. f_equal. apply IH. assumption.
  - rewrite fill_ascii by (auto; lia). cbn [andb]. f_equal. apply IH.
    rewrite <- (firstn_skipn (S n) k) in Hk. apply Forall_app in Hk. tauto.
Qed.

Lemma cut_zeros : forall z bs sizes, cut bs (repeat 0%nat z ++ sizes) = repeat [] z ++ cut bs sizes.
Proof. induction z as [|z IH]; intros; [reflexivity|]. cbn. f_equal. apply IH. Qed.

Lemma leading_zeros : forall sizes : list nat, Forall (fun n => n = 0%nat) sizes \/
  exists z n r, sizes = repeat 0%nat z ++ n :: r /\ (0 < n)%nat.
Proof.
  induction sizes as [|n r [H | (z & m & t & -> & Hm)]]; [left; constructor| |].
  - destruct n as [|n].
    + left. constructor; auto.
    + right. exists 0%nat, (S n), r. split; [reflexivity|lia].
  - destruct n as [|n].
    + right. exists (S z), m, t. auto.
    + right. exists 0%nat, (S n), (repeat 0%nat z ++ m :: t). split; [reflexivity|lia].
Qed.

Lemma decodes_encode : forall s, Forall (fun c => is_scalar c = true) s -> decodes (encode s) s [].
Proof.
  intros s H. split; [rewrite app_nil_r; reflexivity|]. split; [assumption|].
  intros c t Hc E. destruct (encode_char_accepted c Hc) as (a & r & E' & _). rewrite E' in E. discriminate E.
Qed.

Lemma delivered_one : forall n bs, (0 < n)%nat -> delivered n [PData bs] = (bs, None).
Proof.
  intros n bs Hn. cbn [delivered]. destruct bs as [|b bs]; [reflexivity|].
  destruct (Nat.eqb (length (b :: bs) mod n) 0); [rewrite app_nil_r|]; reflexivity.
Qed.

Lemma all_zero_repeat : forall sizes : list nat, Forall (fun n => n = 0%nat) sizes ->
  sizes = repeat 0%nat (length sizes) ++ [].
Proof. induction 1 as [|n r -> H IH]; [reflexivity|]. cbn. f_equal. assumption. Qed.

(** C08 for a source that fills every buffer. *)
Lemma streaming_exact : forall s sizes o, Forall (fun c => is_scalar c = true) s ->
  json_minify s = Ok o ->
  json_reads [PData (encode s)] sizes = spec_reads o false sizes.
Proof.
  intros s sizes o Hs Ho. rewrite kept_minify in Ho. injection Ho as <-.
  destruct (leading_zeros sizes) as [Hz | (z & n & r & -> & Hn)].
  - rewrite (all_zero_repeat sizes Hz), json_reads_zeros.
    generalize (kept new_minifier s None). intro k.
    induction (length sizes) as [|z IH]; [reflexivity|]. cbn [repeat app spec_reads].
    f_equal. exact IH.
  - rewrite json_reads_zeros.
    rewrite (json_reads_exact _ n r (encode s) None s [] Hn (delivered_one n _ Hn) (decodes_encode s Hs)).
    unfold spec_json_reads. cbn [broken_of].
    induction z as [|z IH]; [reflexivity|]. cbn [repeat app spec_reads]. f_equal. exact IH.
Qed.

Lemma streaming_ascii : forall s sizes o, Forall (fun c => is_scalar c = true) s ->
  json_minify s = Ok o -> Forall (fun c => c < 0x80) o ->
  json_reads [PData (encode s)] sizes = map ROk (cut (encode o) sizes).
Proof.
  intros s sizes o Hs Ho Ha. rewrite (streaming_exact s sizes o Hs Ho).
  rewrite (encode_ascii o Ha). apply spec_reads_ascii. assumption.
Qed.

(** Streaming never reports errors or panics on good sources. *)
Lemma spec_reads_unbroken : forall sizes k,
  Forall (fun r => exists bs, r = ROk bs) (spec_reads k false sizes).
Proof.
  induction sizes as [|n r IH]; intro k; [constructor|]. cbn [spec_reads].
  destruct n as [|n]; [constructor; eauto|]. destruct (fill (S n) k) as [o k'].
  cbn [andb]. constructor; eauto.
Qed.

Lemma spec_reads_no_panic : forall sizes k b,
  Forall (fun r => r <> RPanic /\ r <> RFuel) (spec_reads k b sizes).
Proof.
  induction sizes as [|n r IH]; intros k b; [constructor|]. cbn [spec_reads].
  destruct n as [|n]; [constructor; [split; discriminate|apply IH]|]. destruct (fill (S n) k) as [o k'].
  destruct (b && Nat.ltb (length o) (S n)); constructor; try (split; discriminate); apply IH.
Qed.
