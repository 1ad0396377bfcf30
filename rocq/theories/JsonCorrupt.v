(** C02: every string content outside [safe_content] is met by a document that the
    minifier corrupts. *)
From Coq Require Import String List NArith Bool Lia.
From Verif Require Import Base JsonModel JsonSpec JsonProofs JsonUnique.
Import ListNotations.
Open Scope N_scope.

(** The escape counter after [c], when a quote follows. *)
Fixpoint cnt (e : nat) (c : str) : nat :=
  match c with
  | [] => e
  | x :: r =>
      let e0 := if (x =? bs) && match r with [] => true | y :: _ => y =? q end then 4%nat else e in
      cnt (pred e0) r
  end.

Lemma run_string_cnt : forall c e r,
  Forall (fun x => is_ascii_control x = false) c ->
  quotes_escaped c -> (e = O -> forall r', c <> q :: r') ->
  run (ins e) (c ++ q :: r) = c ++ run (ins (cnt e c)) (q :: r).
Proof.
  induction c as [|x c IH]; intros e r Hctl Hqe Hhd; [reflexivity|].
  inversion Hctl as [|? ? Hx Hctl']; subst.
  assert (Hqe' : quotes_escaped c).
  { intros p y r' E. apply (Hqe (x :: p) y r'). rewrite E. reflexivity. }
  assert (Hla : is_quote_opt (hd_error (c ++ q :: r)) = match c with [] => true | y :: _ => y =? q end).
  { destruct c; reflexivity. }
  cbn [app run cnt]. unfold keep_element. rewrite Hx.
  unfold is_whitespace_outside_string. cbn [is_string ins negb andb escaped_quotation].
  rewrite Hla. change c_backslash with bs. change c_quote with q.
  destruct ((x =? bs) && match c with [] => true | y :: _ => y =? q end) eqn:Eb; cbn [pred is_string negb andb].
  - f_equal. apply (IH 3%nat); auto. discriminate.
  - destruct e as [|e]; cbn [pred].
    + replace (x =? q) with false.
      2:{ symmetry. apply N.eqb_neq. intro E. apply (Hhd eq_refl c). rewrite E. reflexivity. }
      cbn [is_string negb andb]. f_equal. apply (IH 0%nat); auto.
      intros _ r' E. subst c. rewrite (N.eqb_refl q), andb_true_r in Eb.
      apply N.eqb_neq in Eb. apply Eb. apply (Hqe [] x r'). reflexivity.
    + cbn [is_string negb andb]. f_equal. apply (IH e); auto.
      intros _ r' E. subst c. rewrite (N.eqb_refl q), andb_true_r in Eb.
      apply N.eqb_neq in Eb. apply Eb. apply (Hqe [] x r'). reflexivity.
Qed.

Lemma cnt_bs : forall p e, cnt e (p ++ [bs]) = 3%nat.
Proof. induction p as [|x p IH]; intro e; [reflexivity|]. cbn [app cnt]. apply IH. Qed.

Lemma cnt_q : forall p e, cnt e (p ++ [bs; q]) = 2%nat.
Proof. induction p as [|x p IH]; intro e; [reflexivity|]. cbn [app cnt]. apply IH. Qed.

Lemma cnt_qy : forall p e y, y <> bs -> cnt e (p ++ [bs; q; y]) = 1%nat.
Proof.
  induction p as [|x p IH]; intros e y Hy.
  - cbn. replace (y =? bs) with false by (symmetry; apply N.eqb_neq; assumption). reflexivity.
  - cbn [app cnt]. apply IH. assumption.
Qed.

(** The tail condition of [safe_content]. *)
Definition safe_tail (c : str) : Prop :=
  (forall p x, c = p ++ [x] -> x <> bs /\ x <> q) /\
  (forall p x y, c = p ++ [x; y] -> x <> q).

Lemma snoc_cases : forall (c : str), c = [] \/ exists p x, c = p ++ [x].
Proof.
  induction c as [|y c [-> | (p & x & ->)]]; [auto| |].
  - right. exists [], y. reflexivity.
  - right. exists (y :: p), x. reflexivity.
Qed.

Lemma unsafe_tail_cnt : forall c, quotes_escaped c -> (forall r, c <> q :: r) ->
  ~ safe_tail c -> cnt 0 c = 1%nat \/ cnt 0 c = 2%nat \/ cnt 0 c = 3%nat.
Proof.
  intros c Hqe Hh Hns.
  destruct (snoc_cases c) as [-> | (p & x & ->)].
  { exfalso. apply Hns. split; intros [|? ?] *; discriminate. }
  destruct (N.eq_dec x bs) as [-> | Hbs]; [rewrite cnt_bs; auto|].
  destruct (snoc_cases p) as [-> | (p' & y & ->)].
  { exfalso. apply Hns. split.
    - intros p x' E. destruct p as [|? p]; [|destruct p; discriminate E].
      injection E as <-. split; [assumption|]. intros ->. apply (Hh []). reflexivity.
    - intros [|? [|? ?]] ? ?; discriminate. }
  rewrite <- app_assoc in *. cbn [app] in *.
  destruct (N.eq_dec x q) as [-> | Hq].
  { assert (y = bs) by (apply (Hqe p' y []); reflexivity). subst y. rewrite cnt_q. auto. }
  destruct (N.eq_dec y q) as [-> | Hyq].
  { destruct (snoc_cases p') as [-> | (p2 & z & ->)].
    - exfalso. apply (Hh [x]). reflexivity.
    - rewrite <- app_assoc in *. cbn [app] in *.
      assert (z = bs) by (apply (Hqe p2 z [x]); reflexivity). subst z.
      rewrite cnt_qy by assumption. auto. }
  exfalso. apply Hns. split.
  - intros p x' E. change (p' ++ [y; x]) with (p' ++ [y] ++ [x]) in E. rewrite app_assoc in E.
    apply app_inj_tail in E. destruct E as [_ <-]. auto.
  - intros p x' y' E.
    change (p' ++ [y; x]) with (p' ++ [y] ++ [x]) in E.
    change (p ++ [x'; y']) with (p ++ [x'] ++ [y']) in E. rewrite !app_assoc in E.
    apply app_inj_tail in E. destruct E as [E _]. apply app_inj_tail in E.
    destruct E as [_ <-]. assumption.
Qed.

(** The two documents: an array of the literal [c] and the literal [a b], with or
    without a blank after the comma. *)
Definition doc0 (c : str) : str := S_ "[" ++ (q :: c ++ [q]) ++ J_ ",'a b']".
Definition doc1 (c : str) : str := S_ "[" ++ (q :: c ++ [q]) ++ J_ ", 'a b']".

Lemma content_ab : forall b, content (if b : bool then S_ "a b" else S_ "ab").
Proof. destruct b; repeat (apply ct_plain; [cbv; discriminate|discriminate|discriminate|]); constructor. Qed.

Lemma doc_text : forall c (b : bool) w, content c -> ws w ->
  json_document (JArr [JStr c; JStr (if b then S_ "a b" else S_ "ab")])
    (S_ "[" ++ (q :: c ++ [q]) ++ S_ "," ++ w ++ (q :: (if b then S_ "a b" else S_ "ab") ++ [q]) ++ S_ "]").
Proof.
  intros c b w Hc Hw. apply et_tight.
  assert (E : S_ "[" ++ (q :: c ++ [q]) ++ S_ "," ++ w ++ (q :: (if b then S_ "a b" else S_ "ab") ++ [q]) ++ S_ "]"
    = S_ "[" ++ ((q :: c ++ [q]) ++ S_ "," ++ (w ++ (q :: (if b then S_ "a b" else S_ "ab") ++ [q]) ++ [])) ++ S_ "]").
  { rewrite app_nil_r. rewrite <- !app_assoc. reflexivity. }
  rewrite E. apply vt_arr. apply est_cons.
  - apply et_tight. constructor. assumption.
  - apply est_one. constructor; [assumption| |constructor]. constructor. apply content_ab.
Qed.

Lemma unsafe_tail_corrupts : forall c, content c ->
  Forall (fun x => is_ascii_control x = false) c -> ~ safe_tail c ->
  exists s o, let v := JArr [JStr c; JStr (S_ "a b")] in let v' := JArr [JStr c; JStr (S_ "ab")] in
    json_document v s /\ json_minify s = Ok o /\ json_document v' o /\ v <> v'.
Proof.
  intros c Hc Hctl Hns.
  destruct (content_quotes_escaped c Hc) as [Hqe Hh].
  assert (Hrun : forall r, run outs (S_ "[" ++ (q :: c ++ [q]) ++ r) =
    0x5B :: q :: c ++ run (ins (cnt 0 c)) (q :: r)).
  { intro r. rewrite <- (run_string_cnt c 0 r Hctl Hqe (fun _ => Hh)).
    cbn [app]. rewrite <- app_assoc. reflexivity. }
  destruct (unsafe_tail_cnt c Hqe Hh Hns) as [E | [E | E]].
  - exists (doc0 c), (S_ "[" ++ (q :: c ++ [q]) ++ J_ ",'ab']"). cbn zeta. split; [|split; [|split]].
    + apply (doc_text c true []); [assumption|constructor].
    + rewrite json_minify_run. unfold doc0. change new_minifier with outs. rewrite Hrun, E.
      cbn [app]. rewrite <- app_assoc. reflexivity.
    + apply (doc_text c false []); [assumption|constructor].
    + intro X. injection X as X. discriminate X.
  - exists (doc0 c), (S_ "[" ++ (q :: c ++ [q]) ++ J_ ",'ab']"). cbn zeta. split; [|split; [|split]].
    + apply (doc_text c true []); [assumption|constructor].
    + rewrite json_minify_run. unfold doc0. change new_minifier with outs. rewrite Hrun, E.
      cbn [app]. rewrite <- app_assoc. reflexivity.
    + apply (doc_text c false []); [assumption|constructor].
    + intro X. injection X as X. discriminate X.
  - exists (doc1 c), (S_ "[" ++ (q :: c ++ [q]) ++ J_ ", 'ab']"). cbn zeta. split; [|split; [|split]].
    + apply (doc_text c true [0x20]); [assumption|repeat constructor].
    + rewrite json_minify_run. unfold doc1. change new_minifier with outs. rewrite Hrun, E.
      cbn [app]. rewrite <- app_assoc. reflexivity.
    + apply (doc_text c false [0x20]); [assumption|repeat constructor].
    + intro X. injection X as X. discriminate X.
Qed.

(** Every character of every string of a value occurs in every text of it. *)
Inductive string_of (c : str) : jval -> Prop :=
| so_str : string_of c (JStr c)
| so_arr : forall v vs, In v vs -> string_of c v -> string_of c (JArr vs)
| so_key : forall v ms, In (c, v) ms -> string_of c (JObj ms)
| so_obj : forall k v ms, In (k, v) ms -> string_of c v -> string_of c (JObj ms).

Lemma string_of_occurs : forall c x, In x c ->
  (forall v t (_ : value_text v t), string_of c v -> In x t) /\
  (forall v t (_ : element_text v t), string_of c v -> In x t) /\
  (forall vs t (_ : elements_text vs t), (exists v, In v vs /\ string_of c v) -> In x t) /\
  (forall m t (_ : member_text m t), fst m = c \/ string_of c (snd m) -> In x t) /\
  (forall ms t (_ : members_text ms t), (exists m, In m ms /\ (fst m = c \/ string_of c (snd m))) -> In x t).
Proof.
  intros c x Hx. apply json_text_ind.
  - intros l _ H. inversion H.
  - intros c' _ H. inversion H; subst. right. apply in_or_app. auto.
  - intros w _ H. inversion H; subst. destruct H1.
  - intros vs t _ IH H. inversion H; subst. apply in_or_app. right. apply in_or_app. left.
    apply IH. eexists; split; eassumption.
  - intros w _ H. inversion H; subst; destruct H1.
  - intros ms t _ IH H. apply in_or_app. right. apply in_or_app. left. apply IH.
    inversion H; subst; eexists; (split; [eassumption|]); cbn; auto.
  - intros v w1 t w2 _ _ IH _ H. apply in_or_app. right. apply in_or_app. left. auto.
  - intros v t _ IH (v' & [<- | []] & H). auto.
  - intros v t vs ts _ IH _ IHs (v' & [<- | Hin] & H).
    + apply in_or_app. auto.
    + apply in_or_app. right. apply in_or_app. right. apply IHs. eexists; split; eassumption.
  - intros c' v w1 w2 t _ _ _ _ IH [H | H]; cbn [fst snd] in H.
    + subst c'. apply in_or_app. right. apply in_or_app. left. right. apply in_or_app. auto.
    + do 4 (apply in_or_app; right). auto.
  - intros m t _ IH (m' & [<- | []] & H). auto.
  - intros m t ms ts _ IH _ IHs (m' & [<- | Hin] & H).
    + apply in_or_app. auto.
    + apply in_or_app. right. apply in_or_app. right. apply IHs. eexists; split; eassumption.
Qed.

Lemma control_in_string_corrupts : forall v s c x,
  json_document v s -> string_of c v -> In x c -> is_ascii_control x = true ->
  exists o, json_minify s = Ok o /\ ~ json_document v o.
Proof.
  intros v s c x Hd Hs Hx Hctl. exists (run new_minifier s). split; [apply json_minify_run|].
  intro H. destruct (string_of_occurs c x Hx) as (_ & A & _). specialize (A v _ H Hs).
  pose proof (run_no_control s new_minifier) as B. rewrite Forall_forall in B.
  rewrite (B x A) in Hctl. discriminate.
Qed.
