(** Proofs about the JSON string API. *)
From Coq Require Import String List NArith Bool Lia.
From Verif Require Import Base JsonModel JsonSpec.
Import ListNotations.
Open Scope N_scope.

(** The run of the filter as a plain recursion. *)
Fixpoint run (m : minifier) (s : str) : str :=
  match s with
  | [] => []
  | c :: r =>
      let (k, m') := keep_element m c (hd_error r) in
      if k then c :: run m' r else run m' r
  end.

Lemma jf_loop_spec : forall iter m item,
  match jf_loop m item iter with
  | (None, _) => run m (item :: iter) = []
  | (Some c, f) =>
      jf_initialized f = true /\
      (length (jf_iter f) <= length iter)%nat /\
      match jf_item1 f with
      | None => jf_iter f = [] /\ run m (item :: iter) = [c]
      | Some i => (length (jf_iter f) < length iter)%nat /\
                  run m (item :: iter) = c :: run (jf_minifier f) (i :: jf_iter f)
      end
  end.
Proof.
  induction iter as [|x r IH]; intros m item.
  - cbn [jf_loop run hd_error]. destruct (keep_element m item None) as [k m'].
    destruct k; cbn; auto.
  - cbn [jf_loop]. change (run m (item :: x :: r)) with
      (let (k, m') := keep_element m item (Some x) in
       if k then item :: run m' (x :: r) else run m' (x :: r)).
    destruct (keep_element m item (Some x)) as [k m'] eqn:E.
    destruct k; cbn [jf_initialized jf_iter jf_item1 jf_minifier].
    + repeat split; cbn [length]; try lia.
    + specialize (IH m' x). destruct (jf_loop m' x r) as [[c|] f]; [|exact IH].
      destruct IH as (H1 & H2 & H3). split; [assumption|]. split; [cbn [length]; lia|].
      destruct (jf_item1 f); [|assumption]. destruct H3. split; [cbn [length]; lia|assumption].
Qed.

Lemma jf_collect_spec : forall n m item iter,
  (length iter < n)%nat ->
  jf_collect (S n) {| jf_minifier := m; jf_iter := iter; jf_initialized := true; jf_item1 := Some item |}
  = Some (run m (item :: iter)).
Proof.
  induction n as [|n IH]; intros m item iter Hn; [lia|].
  cbn [jf_collect jf_next jf_initialized jf_item1 jf_iter jf_minifier].
  pose proof (jf_loop_spec iter m item) as H.
  destruct (jf_loop m item iter) as [[c|] f].
  - destruct H as (H1 & H2 & H3). destruct f as [fm fi fin fit].
    cbn [jf_initialized jf_iter jf_item1 jf_minifier] in H1, H2, H3. subst fin.
    destruct fit as [i|].
    + destruct H3 as [H3 ->].
      change (option_map (cons c) (jf_collect (S n)
        {| jf_minifier := fm; jf_iter := fi; jf_initialized := true; jf_item1 := Some i |})
        = Some (c :: run fm (i :: fi))).
      rewrite IH by lia. reflexivity.
    + destruct H3 as [-> ->]. reflexivity.
  - rewrite H. reflexivity.
Qed.

Lemma json_collect_run : forall s,
  jf_collect (S (S (length s))) (jfilter_new s) = Some (run new_minifier s).
Proof.
  intros [|c s].
  - reflexivity.
  - pose proof (jf_collect_spec (S (S (length s))) new_minifier c s) as H.
    rewrite <- H by lia. reflexivity.
Qed.

Lemma json_minify_run : forall s, json_minify s = Ok (run new_minifier s).
Proof. intro s. unfold json_minify. rewrite json_collect_run. reflexivity. Qed.

(** ** C03: only whitespace and control characters are deleted *)

Lemma run_deletes : forall s m,
  deletes (fun c => is_whitespace c = true \/ is_ascii_control c = true) s (run m s).
Proof.
  induction s as [|c r IH]; intro m; [constructor|].
  cbn [run]. unfold keep_element. destruct (is_ascii_control c) eqn:E.
  - apply del_drop; [auto|]. apply IH.
  - destruct (is_whitespace_outside_string m c (hd_error r)) as [b m'] eqn:E2.
    destruct b; cbn [negb].
    + apply del_drop; [|apply IH]. left.
      unfold is_whitespace_outside_string in E2. injection E2 as E2 _.
      apply andb_true_iff in E2. tauto.
    + apply del_keep. apply IH.
Qed.

Lemma json_minify_deletes : forall s, exists o,
  json_minify s = Ok o /\
  deletes (fun c => is_whitespace c = true \/ is_ascii_control c = true) s o.
Proof. intro s. eexists. split; [apply json_minify_run|apply run_deletes]. Qed.

Lemma deletes_length : forall D s t, deletes D s t -> (length t <= length s)%nat.
Proof. induction 1; cbn; lia. Qed.

Lemma deletes_count : forall D s t x, deletes D s t -> ~ D x ->
  count_occ N.eq_dec t x = count_occ N.eq_dec s x.
Proof.
  induction 1 as [|c s t H IH|c s t Hc H IH]; intro Hx; cbn [count_occ].
  - reflexivity.
  - destruct (N.eq_dec c x); rewrite IH by assumption; reflexivity.
  - destruct (N.eq_dec c x) as [->|]; [contradiction|]. auto.
Qed.

(** ** C04 *)

Lemma run_no_control : forall s m, Forall (fun c => is_ascii_control c = false) (run m s).
Proof.
  induction s as [|c r IH]; intro m; [constructor|].
  cbn [run]. unfold keep_element. destruct (is_ascii_control c) eqn:E; [apply IH|].
  destruct (is_whitespace_outside_string m c (hd_error r)) as [b m'].
  destruct b; cbn [negb]; [apply IH|]. constructor; auto.
Qed.

Lemma run_no_outer_ws : forall s b,
  ~ In bs s -> no_outer_ws b (run {| is_string := b; escaped_quotation := 0 |} s).
Proof.
  induction s as [|c r IH]; intros b Hs; [exact I|].
  assert (Hr : ~ In bs r) by (intro; apply Hs; right; assumption).
  assert (Hc : (c =? c_backslash) = false).
  { apply N.eqb_neq. intros ->. apply Hs. left. reflexivity. }
  cbn [run]. unfold keep_element. destruct (is_ascii_control c) eqn:E; [apply IH; assumption|].
  unfold is_whitespace_outside_string. cbn [is_string escaped_quotation]. rewrite Hc. cbn [andb].
  destruct b; cbn [negb andb].
  - destruct (c =? c_quote) eqn:Eq; cbn [is_string negb andb].
    + destruct (is_whitespace c) eqn:W; cbn [negb].
      * apply N.eqb_eq in Eq. subst c. discriminate W.
      * cbn [no_outer_ws]. split; [discriminate|]. change q with c_quote. rewrite Eq.
        apply IH; assumption.
    + cbn [negb no_outer_ws]. split; [discriminate|]. change q with c_quote. rewrite Eq.
      apply IH; assumption.
  - destruct (c =? c_quote) eqn:Eq; cbn [is_string negb andb].
    + cbn [no_outer_ws]. split; [intros _; apply N.eqb_eq in Eq; subst c; reflexivity|].
      change q with c_quote. rewrite Eq. apply IH; assumption.
    + destruct (is_whitespace c) eqn:W; cbn [negb].
      * apply IH; assumption.
      * cbn [no_outer_ws]. split; [auto|]. change q with c_quote. rewrite Eq.
        apply IH; assumption.
Qed.

(** ** C05: idempotence *)

Lemma hd_error_run_in_string : forall r m,
  is_string m = true ->
  (forall c t, r = c :: t -> is_ascii_control c = false) ->
  hd_error (run m r) = hd_error r.
Proof.
  intros [|c r] m Hm Hc; [reflexivity|].
  cbn [run hd_error]. unfold keep_element. rewrite (Hc c r eq_refl).
  unfold is_whitespace_outside_string. rewrite Hm. cbn [negb andb].
  destruct (match (if (c =? c_backslash) && is_quote_opt (hd_error r) then 4%nat
    else escaped_quotation m) with
    | O => if c =? c_quote then {| is_string := false; escaped_quotation := 0 |}
           else {| is_string := true; escaped_quotation := 0 |}
    | S e => {| is_string := true; escaped_quotation := e |} end) as [i e] eqn:E.
  cbn [is_string]. destruct i; cbn [negb andb]; [reflexivity|].
  destruct (is_whitespace c) eqn:W; [|reflexivity].
  destruct (if (c =? c_backslash) && is_quote_opt (hd_error r) then 4%nat
    else escaped_quotation m); [|congruence].
  destruct (c =? c_quote) eqn:Eq; [|congruence].
  apply N.eqb_eq in Eq. subst c. discriminate W.
Qed.

(** The lookahead only matters for a backslash inside a string. *)
Lemma keep_element_lookahead : forall m c o o',
  (is_string m = true -> c = bs -> o = o') -> keep_element m c o = keep_element m c o'.
Proof.
  intros m c o o' H. unfold keep_element. destruct (is_ascii_control c); [reflexivity|].
  unfold is_whitespace_outside_string. destruct (is_string m) eqn:Em.
  - destruct (c =? c_backslash) eqn:E; [|reflexivity].
    apply N.eqb_eq in E. rewrite (H eq_refl E). reflexivity.
  - reflexivity.
Qed.

Lemma run_idempotent : forall s m, no_bs_control s -> run m (run m s) = run m s.
Proof.
  induction s as [|c r IH]; intros m Hs; [reflexivity|].
  assert (Hr : no_bs_control r).
  { intros p x t E. apply (Hs (c :: p) x t). rewrite E. reflexivity. }
  cbn [run]. destruct (keep_element m c (hd_error r)) as [k m'] eqn:E.
  destruct k.
  - assert (E' : keep_element m c (hd_error (run m' r)) = (true, m')).
    { rewrite <- E. apply keep_element_lookahead. intros Hm ->.
      rewrite hd_error_run_in_string; [reflexivity| |].
      - unfold keep_element in E. cbn in E.
        unfold is_whitespace_outside_string in E. rewrite Hm in E. cbn in E.
        destruct (is_quote_opt (hd_error r)); [injection E as <-; reflexivity|].
        destruct (escaped_quotation m); injection E as <-; reflexivity.
      - intros c t Er. apply (Hs [] c t). rewrite Er. reflexivity. }
    cbn [run]. rewrite E'. f_equal. apply IH. assumption.
  - assert (Em : m' = m).
    { unfold keep_element in E. destruct (is_ascii_control c); [congruence|].
      unfold is_whitespace_outside_string in E.
      destruct (is_string m) eqn:Em; cbn [negb andb] in E.
      - destruct (if (c =? c_backslash) && is_quote_opt (hd_error r) then 4%nat
          else escaped_quotation m); [|cbn in E; congruence].
        destruct (c =? c_quote) eqn:Eq; [|cbn in E; congruence].
        apply N.eqb_eq in Eq. subst c. cbn in E. congruence.
      - destruct (c =? c_quote) eqn:Eq; cbn [is_string negb andb] in E; [congruence|].
        injection E as _ <-. reflexivity. }
    subst m'. apply IH. assumption.
Qed.

(** ** C06 *)

Lemma json_write_spec : forall s w,
  exists o b out, json_minify s = Ok o /\ json_write s w = Ok (out, b) /\
    (b = true -> out = encode o) /\ (exists rest, encode o = out ++ rest) /\
    (Forall (fun x => x = None) w -> b = true).
Proof.
  intros s w. unfold json_write, json_minify. rewrite json_collect_run.
  destruct (write_chunks (map encode_char (run new_minifier s)) w) as [out b] eqn:E.
  pose proof (encode_chars (run new_minifier s)) as Ec.
  exists (run new_minifier s), b, out. repeat split.
  - intros ->. apply write_chunks_ok in E. congruence.
  - apply write_chunks_prefix in E. rewrite Ec in E. exact E.
  - intro H. rewrite (write_chunks_all_accept _ _ _ H) in E. congruence.
Qed.

(** ** C01: layouts of a value minify to its compact form *)

Definition outs : minifier := {| is_string := false; escaped_quotation := 0 |}.
Definition ins (e : nat) : minifier := {| is_string := true; escaped_quotation := e |}.

Lemma run_ws : forall w r, ws w -> run outs (w ++ r) = run outs r.
Proof.
  induction w as [|c w IH]; intros r H; [reflexivity|].
  inversion H as [|? ? Hc Hw]; subst. cbn [app run]. rewrite <- (IH r Hw).
  assert (Hcase : c = 0x20 \/ c = 9 \/ c = 10 \/ c = 13).
  { unfold json_ws in Hc. repeat rewrite orb_true_iff in Hc. repeat rewrite N.eqb_eq in Hc. tauto. }
  destruct Hcase as [-> | [-> | [-> | ->]]]; reflexivity.
Qed.

(** Characters outside strings that are simply copied. *)
Definition plain (c : N) : Prop :=
  is_ascii_control c = false /\ is_whitespace c = false /\ c <> q.

Lemma run_plain : forall l r, Forall plain l -> run outs (l ++ r) = l ++ run outs r.
Proof.
  induction l as [|c l IH]; intros r H; [reflexivity|].
  inversion H as [|? ? (H1 & H2 & H3) Hl]; subst. cbn [app run].
  unfold keep_element. rewrite H1. unfold is_whitespace_outside_string. cbn [is_string outs negb andb].
  replace (c =? c_quote) with false by (symmetry; apply N.eqb_neq; assumption).
  rewrite H2. cbn [is_string outs negb andb].
  f_equal. apply IH. assumption.
Qed.

(** Every quote of [c] that is not its first character follows a backslash. *)
Definition quotes_escaped (c : str) : Prop :=
  forall p x r, c = p ++ x :: q :: r -> x = bs.

Lemma content_quotes_escaped : forall c, content c ->
  quotes_escaped c /\ (forall r, c <> q :: r).
Proof.
  assert (Hcons : forall x c, x <> q -> quotes_escaped c -> (forall r, c <> q :: r) ->
    quotes_escaped (x :: c) /\ (forall r, x :: c <> q :: r)).
  { intros x c Hx Hq Hh. split.
    - intros p y r E. destruct p as [|p0 p]; cbn in E.
      + injection E as <- E. exfalso. apply (Hh r). assumption.
      + injection E as _ E. apply (Hq p y r). assumption.
    - intros r E. injection E as E _. contradiction. }
  induction 1 as [|c r H1 H2 H3 H [IH1 IH2]|e r He H [IH1 IH2]|a b c d r Ha Hb Hc Hd H [IH1 IH2]].
  - split; [intros [|? ?] x r E; discriminate|discriminate].
  - apply Hcons; assumption.
  - split; [|intros r' E; discriminate E].
    intros p x r' E. destruct p as [|p0 [|p1 p]]; cbn in E.
    + injection E as E _ _. congruence.
    + injection E as _ <- E. exfalso. apply (IH2 r'). assumption.
    + injection E as _ _ E. apply (IH1 p x r'). assumption.
  - assert (Hex : forall z, hex z = true -> z <> q) by (intros z Hz ->; discriminate Hz).
    destruct (Hcons d r (Hex d Hd) IH1 IH2) as [A1 A2].
    destruct (Hcons c (d :: r) (Hex c Hc) A1 A2) as [B1 B2].
    destruct (Hcons b _ (Hex b Hb) B1 B2) as [C1 C2].
    destruct (Hcons a _ (Hex a Ha) C1 C2) as [D1 D2].
    assert (E1 : quotes_escaped (0x75 :: a :: b :: c :: d :: r) /\
      forall s, 0x75 :: a :: b :: c :: d :: r <> q :: s) by (apply Hcons; [discriminate|assumption|assumption]).
    destruct E1 as [E1 E2].
    apply Hcons; [discriminate|assumption|assumption].
Qed.

Lemma run_in_string : forall c e r,
  (e <= 3)%nat -> (e <= length c)%nat ->
  Forall (fun x => is_ascii_control x = false) c ->
  (forall p x, c = p ++ [x] -> x <> bs) ->
  (forall p r', c = p ++ bs :: q :: r' -> (2 <= length r')%nat) ->
  quotes_escaped c -> (e = O -> forall r', c <> q :: r') ->
  run (ins e) (c ++ q :: r) = c ++ q :: run outs r.
Proof.
  induction c as [|x c IH]; intros e r He3 He Hctl Hlast Hq2 Hqe Hhd.
  - cbn [length] in He. assert (e = O) by lia. subst e. reflexivity.
  - inversion Hctl as [|? ? Hx Hctl']; subst.
    assert (Hlast' : forall p y, c = p ++ [y] -> y <> bs).
    { intros p y E. apply (Hlast (x :: p)). rewrite E. reflexivity. }
    assert (Hq2' : forall p r', c = p ++ bs :: q :: r' -> (2 <= length r')%nat).
    { intros p r' E. apply (Hq2 (x :: p)). rewrite E. reflexivity. }
    assert (Hqe' : quotes_escaped c).
    { intros p y r' E. apply (Hqe (x :: p) y r'). rewrite E. reflexivity. }
    assert (Hnq : x <> bs -> forall r', c <> q :: r').
    { intros Hxb r' E. apply Hxb. apply (Hqe [] x r'). rewrite E. reflexivity. }
    cbn [app run]. unfold keep_element. rewrite Hx.
    unfold is_whitespace_outside_string. cbn [is_string ins negb andb escaped_quotation].
    destruct (x =? c_backslash) eqn:Ebs; cbn [andb].
    + apply N.eqb_eq in Ebs.
      assert (Hne : c <> []). { intros ->. apply (Hlast [] x eq_refl). exact Ebs. }
      destruct c as [|y c]; [congruence|]. cbn [app hd_error is_quote_opt].
      destruct (y =? c_quote) eqn:Eq.
      * apply N.eqb_eq in Eq. subst x y. cbn [is_string negb andb].
        f_equal. apply (IH 3%nat).
        -- lia.
        -- specialize (Hq2 [] c eq_refl). cbn [length]. lia.
        -- assumption.
        -- assumption.
        -- assumption.
        -- assumption.
        -- discriminate.
      * assert (Hy : forall r', y :: c <> q :: r').
        { intros r' E. injection E as E _. apply N.eqb_neq in Eq. contradiction. }
        destruct e as [|e]; cbn [is_string negb andb].
        -- replace (x =? c_quote) with false by (subst x; reflexivity).
           cbn [is_string negb andb]. f_equal. apply (IH 0%nat); auto; lia.
        -- f_equal. apply (IH e); auto; cbn [length] in *; lia.
    + apply N.eqb_neq in Ebs.
      destruct e as [|e]; cbn [is_string negb andb].
      * replace (x =? c_quote) with false.
        2:{ symmetry. apply N.eqb_neq. intro E. apply (Hhd eq_refl c). rewrite E. reflexivity. }
        cbn [is_string negb andb]. f_equal. apply (IH 0%nat); auto; try lia.
      * f_equal. apply (IH e); auto; cbn [length] in *; try lia.
Qed.

Lemma run_string : forall c r, content c -> safe_content c ->
  run outs ((q :: c ++ [q]) ++ r) = (q :: c ++ [q]) ++ run outs r.
Proof.
  intros c r Hc (Hctl & Hl1 & Hl2).
  destruct (content_quotes_escaped c Hc) as [Hqe Hh].
  assert (E : run outs ((q :: c ++ [q]) ++ r) = q :: run (ins 0) (c ++ q :: r)).
  { cbn [app]. rewrite <- app_assoc. reflexivity. }
  rewrite E. rewrite run_in_string; auto; try lia.
  - cbn [app]. rewrite <- app_assoc. reflexivity.
  - intros p x Ex. apply (Hl1 p x Ex).
  - intros p r' Ex. destruct r' as [|y [|z r']]; cbn [length]; try lia; exfalso.
    + destruct (Hl1 (p ++ [bs]) q) as [_ A]; [rewrite <- app_assoc; exact Ex|]. congruence.
    + apply (Hl2 (p ++ [bs]) q y); [rewrite <- app_assoc; exact Ex|reflexivity].
Qed.

Ltac plain_char :=
  split; [reflexivity|split; [reflexivity|discriminate]].

Lemma digit_plain : forall c, digit c = true -> plain c.
Proof.
  intros c H. unfold digit in H. apply andb_true_iff in H. destruct H as [H1 H2].
  apply N.leb_le in H1, H2. unfold plain, is_ascii_control, is_whitespace, q.
  repeat split; [| |lia];
    repeat (apply orb_false_iff; split); try (apply andb_false_iff);
    try (apply N.eqb_neq; lia); try (apply N.ltb_ge; lia);
    try (left; apply N.leb_gt; lia); try (right; apply N.leb_gt; lia).
Qed.

Lemma digits_plain : forall s, Forall (fun c => digit c = true) s -> Forall plain s.
Proof. intros s H. eapply Forall_impl; [|exact H]. apply digit_plain. Qed.

Lemma literal_plain : forall l, literal l -> Forall plain l.
Proof.
  intros l [(m & i & f & e & Hm & Hi & Hf & He & ->) | [-> | [-> | ->]]].
  - repeat (apply Forall_app; split).
    + destruct Hm as [<- | [<- | []]]; repeat constructor; discriminate.
    + destruct Hi as [|d r Hd _ Hr]; constructor;
        [plain_char|constructor|apply digit_plain; assumption|apply digits_plain; assumption].
    + destruct Hf as [|ds [_ Hds]]; constructor; [plain_char|apply digits_plain; assumption].
    + destruct He as [|x sg ds Hx Hsg [_ Hds]]; constructor.
      * destruct Hx as [<- | [<- | []]]; plain_char.
      * apply Forall_app. split; [|apply digits_plain; assumption].
        destruct Hsg as [<- | [<- | [<- | []]]]; repeat constructor; discriminate.
  - repeat constructor; discriminate.
  - repeat constructor; discriminate.
  - repeat constructor; discriminate.
Qed.

Fixpoint compact_elems (l : list jval) : str :=
  match l with
  | [] => []
  | [x] => compact x
  | x :: r => compact x ++ S_ "," ++ compact_elems r
  end.

Fixpoint compact_members (l : list (str * jval)) : str :=
  match l with
  | [] => []
  | [(c, x)] => (q :: c ++ [q]) ++ S_ ":" ++ compact x
  | (c, x) :: r => (q :: c ++ [q]) ++ S_ ":" ++ compact x ++ S_ "," ++ compact_members r
  end.

Lemma compact_arr : forall vs, compact (JArr vs) = S_ "[" ++ compact_elems vs ++ S_ "]".
Proof. reflexivity. Qed.

Lemma compact_obj : forall ms, compact (JObj ms) = S_ "{" ++ compact_members ms ++ S_ "}".
Proof. reflexivity. Qed.

Lemma compact_elems_cons : forall x r, r <> [] ->
  compact_elems (x :: r) = compact x ++ S_ "," ++ compact_elems r.
Proof. intros x [|y r] H; [congruence|reflexivity]. Qed.

Lemma compact_members_cons : forall c x r, r <> [] ->
  compact_members ((c, x) :: r) = (q :: c ++ [q]) ++ S_ ":" ++ compact x ++ S_ "," ++ compact_members r.
Proof. intros c x [|y r] H; [congruence|reflexivity]. Qed.

Scheme value_text_mut := Induction for value_text Sort Prop
with element_text_mut := Induction for element_text Sort Prop
with elements_text_mut := Induction for elements_text Sort Prop
with member_text_mut := Induction for member_text Sort Prop
with members_text_mut := Induction for members_text Sort Prop.

Combined Scheme json_text_ind from value_text_mut, element_text_mut, elements_text_mut,
  member_text_mut, members_text_mut.

Lemma elements_ne : forall vs t, elements_text vs t -> vs <> [].
Proof. destruct 1; discriminate. Qed.

Lemma members_ne : forall ms t, members_text ms t -> ms <> [].
Proof. destruct 1; discriminate. Qed.

Definition safe (v : jval) : Prop := all_strings safe_content v.

Lemma run_sym : forall c r, plain c -> run outs (c :: r) = c :: run outs r.
Proof. intros c r H. apply (run_plain [c] r). constructor; [assumption|constructor]. Qed.

Lemma run_layout :
  (forall v t (_ : value_text v t), safe v ->
     forall r, run outs (t ++ r) = compact v ++ run outs r) /\
  (forall v t (_ : element_text v t), safe v ->
     forall r, run outs (t ++ r) = compact v ++ run outs r) /\
  (forall vs t (_ : elements_text vs t), Forall safe vs ->
     forall r, run outs (t ++ r) = compact_elems vs ++ run outs r) /\
  (forall m t (_ : member_text m t), safe_content (fst m) -> safe (snd m) ->
     forall r, run outs (t ++ r) = compact_members [m] ++ run outs r) /\
  (forall ms t (_ : members_text ms t), Forall (fun m => safe_content (fst m) /\ safe (snd m)) ms ->
     forall r, run outs (t ++ r) = compact_members ms ++ run outs r).
Proof.
  apply json_text_ind.
  - intros l Hl _ r. apply run_plain. apply literal_plain. assumption.
  - intros c Hc Hs r. inversion Hs; subst. apply run_string; assumption.
  - intros w Hw _ r. rewrite <- !app_assoc. cbn [S_ app].
    rewrite run_sym by plain_char. rewrite run_ws by assumption.
    rewrite run_sym by plain_char. reflexivity.
  - intros vs t Ht IH Hs r. inversion Hs; subst. rewrite compact_arr, <- !app_assoc.
    cbn [S_ app].
    rewrite run_sym by plain_char. rewrite IH by assumption.
    rewrite run_sym by plain_char. reflexivity.
  - intros w Hw _ r. rewrite <- !app_assoc. cbn [S_ app].
    rewrite run_sym by plain_char. rewrite run_ws by assumption.
    rewrite run_sym by plain_char. reflexivity.
  - intros ms t Ht IH Hs r. inversion Hs; subst. rewrite compact_obj, <- !app_assoc.
    cbn [S_ app].
    rewrite run_sym by plain_char. rewrite IH by assumption.
    rewrite run_sym by plain_char. reflexivity.
  - intros v w1 t w2 H1 Ht IH H2 Hs r. rewrite <- !app_assoc.
    rewrite run_ws by assumption. rewrite IH by assumption.
    rewrite run_ws by assumption. reflexivity.
  - intros v t Ht IH Hs r. inversion Hs; subst. apply IH. assumption.
  - intros v t vs ts Ht IH Hts IHs Hs r. inversion Hs; subst.
    rewrite compact_elems_cons by (eapply elements_ne; eassumption).
    rewrite <- !app_assoc. rewrite IH by assumption. cbn [S_ app].
    rewrite run_sym by plain_char. rewrite IHs by assumption. reflexivity.
  - intros c v w1 w2 t H1 Hc H2 Ht IH Hs1 Hs2 r. cbn [fst snd] in *.
    rewrite <- (app_assoc w1). rewrite run_ws by assumption.
    rewrite <- (app_assoc (q :: c ++ [q])). rewrite run_string by assumption.
    cbn [compact_members]. rewrite <- (app_assoc (q :: c ++ [q])).
    f_equal. rewrite <- !app_assoc. rewrite run_ws by assumption. cbn [S_ app].
    rewrite run_sym by plain_char. rewrite IH by assumption. reflexivity.
  - intros [c v] t Ht IH Hs r. inversion Hs as [|? ? [Ha Hb] _]; subst. apply IH; assumption.
  - intros [c v] t ms ts Ht IH Hts IHs Hs r. inversion Hs as [|? ? [Ha Hb] Hs']; subst.
    rewrite compact_members_cons by (eapply members_ne; eassumption).
    rewrite <- (app_assoc t). rewrite (IH Ha Hb).
    cbn [compact_members S_]. rewrite <- !(app_assoc (q :: c ++ [q])). f_equal.
    rewrite <- !app_assoc. cbn [app]. do 2 f_equal.
    rewrite run_sym by plain_char. rewrite IHs by assumption. reflexivity.
Qed.

Lemma json_layout_minify : forall v s, json_document v s -> safe v ->
  json_minify s = Ok (compact v).
Proof.
  intros v s H Hs. rewrite json_minify_run.
  destruct run_layout as (_ & A & _).
  specialize (A v s H Hs []). cbn [run] in A. rewrite !app_nil_r in A.
  change new_minifier with outs. rewrite A. reflexivity.
Qed.

(** The compact text is itself a text of the value. *)
Lemma ws_nil : ws [].
Proof. constructor. Qed.

Lemma et_tight : forall v t, value_text v t -> element_text v t.
Proof.
  intros v t H. pose proof (et v [] t [] ws_nil H ws_nil) as A.
  rewrite app_nil_r in A. exact A.
Qed.

Lemma compact_layout :
  (forall v t (_ : value_text v t), value_text v (compact v)) /\
  (forall v t (_ : element_text v t), value_text v (compact v)) /\
  (forall vs t (_ : elements_text vs t), elements_text vs (compact_elems vs)) /\
  (forall m t (_ : member_text m t), member_text m (compact_members [m])) /\
  (forall ms t (_ : members_text ms t), members_text ms (compact_members ms)).
Proof.
  apply json_text_ind.
  - intros l H. constructor. exact H.
  - intros c H. constructor. exact H.
  - intros w _. apply (vt_arr0 [] ws_nil).
  - intros vs t _ IH. rewrite compact_arr. apply vt_arr. exact IH.
  - intros w _. apply (vt_obj0 [] ws_nil).
  - intros ms t _ IH. rewrite compact_obj. apply vt_obj. exact IH.
  - intros v w1 t w2 _ _ IH _. exact IH.
  - intros v t _ IH. apply est_one. apply et_tight. exact IH.
  - intros v t vs ts _ IH Hts IHs. rewrite compact_elems_cons by (eapply elements_ne; eassumption).
    apply est_cons; [apply et_tight; exact IH|exact IHs].
  - intros c v w1 w2 t _ Hc _ _ IH.
    pose proof (mt c v [] [] (compact v) ws_nil Hc ws_nil (et_tight _ _ IH)) as A. exact A.
  - intros m t _ IH. apply mst_one. exact IH.
  - intros [c v] t ms ts _ IH Hts IHs. rewrite compact_members_cons by (eapply members_ne; eassumption).
    pose proof (mst_cons (c, v) _ ms _ IH IHs) as A.
    cbn [compact_members app] in A. rewrite <- !app_assoc in A. cbn [app]. rewrite <- !app_assoc. exact A.
Qed.

Lemma json_compact_document : forall v s, json_document v s -> json_document v (compact v).
Proof.
  intros v s H. apply et_tight. destruct compact_layout as (_ & A & _). apply (A v s H).
Qed.

(** Decision procedure for [no_bs_control], used in examples. *)
Fixpoint no_bs_control_b (s : str) : bool :=
  match s with
  | x :: ((c :: _) as r) => negb ((x =? bs) && is_ascii_control c) && no_bs_control_b r
  | _ => true
  end.

Lemma no_bs_control_b_sound : forall s, no_bs_control_b s = true -> no_bs_control s.
Proof.
  induction s as [|x s IH]; intros H p c r E.
  - destruct p; discriminate E.
  - destruct p as [|p0 p]; cbn [app] in E.
    + injection E as -> ->. cbn [no_bs_control_b] in H. rewrite N.eqb_refl in H. cbn [andb] in H.
      apply andb_true_iff in H. destruct H as [H _]. apply negb_true_iff in H. exact H.
    + injection E as _ E. refine (IH _ p c r E).
      destruct s as [|y s]; [reflexivity|]. cbn [no_bs_control_b] in H.
      apply andb_true_iff in H. tauto.
Qed.
