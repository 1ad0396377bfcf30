(** Proofs about src/js/utils.rs and the printers. *)
From Coq Require Import String List NArith ZArith Bool Lia ZifyBool ZifyN Arith.
From Verif Require Import Base JsModel JsUtilModel JsUtilSpec.
Import ListNotations.
Open Scope N_scope.

Lemma rchar_eqb_eq : forall a b, rchar_eqb a b = true <-> a = b.
Proof. intros a b. unfold rchar_eqb. destruct (rchar_eq_dec a b); split; congruence. Qed.

Lemma token_eqb_eq : forall a b, token_eqb a b = true <-> a = b.
Proof. intros a b. unfold token_eqb. destruct (token_eq_dec a b); split; congruence. Qed.

Lemma eq_char_eq : forall k t, eq_char k t = true <-> t = TChar k.
Proof.
  intros k t. destruct t; cbn [eq_char]; try (split; congruence).
  rewrite rchar_eqb_eq. split; congruence.
Qed.

Lemma is_blank_useless : forall t, is_blank t = useless t.
Proof. intro t. destruct t; try reflexivity; try (destruct c; reflexivity). Qed.

Lemma white_useless : forall t, is_white_character t = true -> useless t = true.
Proof. intros t H. destruct t; try discriminate H. destruct c; try discriminate H; reflexivity. Qed.

(** ** clean_tokens *)

Fixpoint drop_semicolons (l : list token) : list token :=
  match l with
  | t :: r => if eq_char SemiColon t then drop_semicolons r else l
  | [] => []
  end.

Lemma get_next_spec : forall ts,
  match get_next ts with
  | None => filter (fun t => negb (useless t)) ts = []
  | Some (t, r) =>
      useless t = false /\ (length r < length ts)%nat
      /\ filter (fun t => negb (useless t)) ts = t :: filter (fun t => negb (useless t)) r
  end.
Proof.
  induction ts as [|t r IH]; cbn [get_next filter length]; [reflexivity|].
  rewrite is_blank_useless. destruct (useless t) eqn:E; cbn [negb].
  - destruct (get_next r) as [[u r']|]; [|exact IH].
    destruct IH as (A & B & C). repeat split; auto.
  - repeat split; auto.
Qed.

Lemma clean_loop_spec : forall n ts v,
  (length ts < n)%nat ->
  clean_loop n ts v =
  Ok (rev v ++ match v with
               | [] => drop_semicolons (filter (fun t => negb (useless t)) ts)
               | _ => filter (fun t => negb (useless t)) ts
               end).
Proof.
  induction n as [|n IH]; intros ts v H; [lia|].
  cbn [clean_loop]. pose proof (get_next_spec ts) as G.
  destruct (get_next ts) as [[t r]|].
  - destruct G as (U & L & ->).
    replace (is_white_character t) with false
      by (symmetry; apply not_true_is_false; intro Hw; apply white_useless in Hw; congruence).
    destruct (eq_char SemiColon t) eqn:E.
    + destruct v as [|x v]; rewrite IH by lia.
      * cbn [drop_semicolons rev app]. rewrite E. reflexivity.
      * cbn [rev]. rewrite <- !app_assoc. reflexivity.
    + rewrite IH by lia. cbn [rev]. rewrite <- app_assoc. cbn [app].
      destruct v; [cbn [drop_semicolons]; rewrite E|]; reflexivity.
  - rewrite G. destruct v; rewrite app_nil_r; reflexivity.
Qed.

Lemma clean_tokens_eq : forall ts,
  clean_tokens ts = Ok (drop_semicolons (filter (fun t => negb (useless t)) ts)).
Proof. intro ts. unfold clean_tokens. rewrite clean_loop_spec by lia. reflexivity. Qed.

Lemma drop_semicolons_spec : forall l,
  exists semis, l = semis ++ drop_semicolons l /\ Forall is_semicolon semis
    /\ hd_error (drop_semicolons l) <> Some (TChar SemiColon).
Proof.
  induction l as [|t r IH]; cbn [drop_semicolons].
  - exists []. repeat split; auto. discriminate.
  - destruct (eq_char SemiColon t) eqn:E.
    + apply eq_char_eq in E. subst t. destruct IH as (s & A & B & C).
      exists (TChar SemiColon :: s). cbn [app]. rewrite <- A.
      split; [reflexivity|]. split; [constructor; [reflexivity|exact B]|exact C].
    + exists []. repeat split; auto. cbn [hd_error]. intro H.
      assert (X : t = TChar SemiColon) by congruence. apply eq_char_eq in X. congruence.
Qed.

Lemma filter_drop : forall f l, filter f (filter f l) = filter f (l : list token).
Proof.
  intros f l. induction l as [|t r IH]; cbn; [reflexivity|].
  destruct (f t) eqn:E; cbn; rewrite ?E, IH; reflexivity.
Qed.

Lemma clean_tokens_spec : forall ts, exists semis rest,
  clean_tokens ts = Ok rest
  /\ filter (fun t => negb (useless t)) ts = semis ++ rest
  /\ Forall is_semicolon semis /\ hd_error rest <> Some (TChar SemiColon).
Proof.
  intro ts. destruct (drop_semicolons_spec (filter (fun t => negb (useless t)) ts))
    as (s & A & B & C).
  exists s, (drop_semicolons (filter (fun t => negb (useless t)) ts)).
  rewrite clean_tokens_eq. auto.
Qed.

Lemma clean_tokens_fixed : forall ts,
  Forall (fun t => useless t = false) ts -> hd_error ts <> Some (TChar SemiColon) ->
  clean_tokens ts = Ok ts.
Proof.
  intros ts H Hs. rewrite clean_tokens_eq. f_equal.
  assert (E : filter (fun t => negb (useless t)) ts = ts).
  { clear Hs. induction H as [|t r Ht Hr IH]; cbn; [reflexivity|]. rewrite Ht. cbn. congruence. }
  rewrite E. destruct ts as [|t r]; cbn; [reflexivity|].
  destruct (eq_char SemiColon t) eqn:E2; [|reflexivity].
  apply eq_char_eq in E2. subst. cbn in Hs. congruence.
Qed.

Lemma clean_tokens_idem : forall ts r, clean_tokens ts = Ok r -> clean_tokens r = Ok r.
Proof.
  intros ts r H. destruct (clean_tokens_spec ts) as (s & r' & A & B & C & D).
  assert (r' = r) by congruence. subst r'. apply clean_tokens_fixed; [|exact D].
  assert (F : Forall (fun t => useless t = false) (s ++ r)).
  { rewrite <- B. apply Forall_forall. intros t Ht. apply filter_In in Ht.
    destruct Ht as [_ Ht]. now apply negb_true_iff in Ht. }
  apply Forall_app in F. apply F.
Qed.

(** ** clean_tokens_except *)

Lemma get_next_except_spec : forall f ts,
  match get_next_except f ts with
  | None => Forall (droppable f) ts
  | Some (t, r) =>
      exists pre, ts = pre ++ t :: r
        /\ Forall (droppable f) pre /\ ~ droppable f t
  end.
Proof.
  intros f ts. induction ts as [|t r IH]; cbn [get_next_except]; [constructor|].
  rewrite is_blank_useless. destruct (useless t && f t) eqn:E.
  - apply andb_true_iff in E. destruct (get_next_except f r) as [[u r']|].
    + destruct IH as (pre & -> & A & B). exists (t :: pre). split; [reflexivity|]. split; auto.
    + constructor; auto.
  - exists []. split; [reflexivity|]. split; [constructor|]. unfold droppable. intros [A B].
    rewrite A, B in E. discriminate.
Qed.

(** A cleaning run: each token is kept or dropped. *)
Inductive cleans (f : token -> bool) : list token -> list token -> list token -> Prop :=
| cl_nil : forall b, cleans f b [] []
| cl_keep : forall b t r out,
    may_keep f b t r -> cleans f (b ++ [t]) r out -> cleans f b (t :: r) (t :: out)
| cl_drop : forall b t r out,
    may_drop f b t r -> cleans f b r out -> cleans f b (t :: r) out.

Lemma cleans_skip : forall f b pre r out,
  Forall (droppable f) pre -> cleans f b r out -> cleans f b (pre ++ r) out.
Proof.
  intros f b pre r out H. induction H as [|t pre Ht Hp IH]; intro C; cbn [app]; [exact C|].
  apply cl_drop; [|auto]. destruct Ht as [A B]. split; [exact B|]. left. exact A.
Qed.

Lemma cleans_skip_all : forall f b pre,
  Forall (droppable f) pre -> cleans f b pre [].
Proof. intros f b pre H. rewrite <- (app_nil_r pre). apply cleans_skip; [exact H|constructor]. Qed.

Lemma rev_nonempty : forall (x : token) v, rev (x :: v) <> [].
Proof. intros x v H. cbn in H. destruct (rev v); discriminate. Qed.

Lemma keep_other : forall f b t r, ~ droppable f t -> t <> TChar SemiColon -> may_keep f b t r.
Proof.
  intros f b t r H N. unfold may_keep, droppable in *. destruct (f t); [|auto].
  right. split; [|congruence]. destruct (useless t); auto. exfalso. auto.
Qed.

Lemma closing_not : forall f pre t r,
  Forall (droppable f) pre -> ~ droppable f t -> t <> TChar CloseCurlyBrace ->
  ~ closing f (pre ++ t :: r).
Proof.
  intros f pre t r H Ht N [C|(pre' & r' & E & C)].
  - apply Forall_app in C. destruct C as [_ C]. inversion C; auto.
  - revert pre' E C. induction H as [|x pre Hx Hp IH]; intros pre' E C; destruct pre' as [|y pre'];
      cbn [app] in E.
    + injection E as E _. auto.
    + injection E as E _. subst y. inversion C; auto.
    + injection E as E _. subst x. destruct Hx as [U _]. discriminate U.
    + injection E as _ E. inversion C; subst. eapply IH; eauto.
Qed.

Lemma clean_except_loop_spec : forall n f ts v,
  (length ts < n)%nat ->
  exists out, clean_except_loop n f ts v = Ok (rev v ++ out) /\ cleans f (rev v) ts out.
Proof.
  induction n as [|n IH]; intros f ts v H; [lia|].
  cbn [clean_except_loop]. pose proof (get_next_except_spec f ts) as G.
  destruct (get_next_except f ts) as [[t r]|].
  2:{ exists []. rewrite app_nil_r. split; [reflexivity|]. apply cleans_skip_all; auto. }
  destruct G as (pre & -> & Hp & Ht). rewrite app_length in H. cbn [length] in H.
  assert (KEEP : may_keep f (rev v) t r -> exists out,
            clean_except_loop n f r (t :: v) = Ok (rev v ++ out) /\ cleans f (rev v) (pre ++ t :: r) out).
  { intro MK. destruct (IH f r (t :: v)) as (out & A & B); [lia|].
    exists (t :: out). rewrite A. cbn [rev] in *. rewrite <- app_assoc. split; [reflexivity|].
    apply cleans_skip; [exact Hp|]. apply cl_keep; auto. }
  destruct (is_white_character t) eqn:W.
  - pose proof (white_useless _ W) as U. destruct (f t) eqn:Ft.
    { exfalso. apply Ht. split; auto. }
    apply KEEP. left. exact Ft.
  - destruct (eq_char SemiColon t) eqn:E.
    2:{ apply KEEP. apply keep_other; [exact Ht|]. intro X. apply eq_char_eq in X. congruence. }
    apply eq_char_eq in E. subst t.
    destruct v as [|x v].
    + destruct (f (TChar SemiColon)) eqn:F.
      2:{ apply KEEP. left. exact F. }
      destruct (IH f r []) as (out & A & B); [lia|]. exists out. rewrite A. split; [reflexivity|].
      apply cleans_skip; [exact Hp|]. apply cl_drop; [|exact B].
      split; [exact F|]. right. split; [reflexivity|]. left. reflexivity.
    + pose proof (get_next_except_spec f r) as G2.
      destruct (get_next_except f r) as [[nx r']|].
      * destruct G2 as (pre2 & -> & Hp2 & Hn). rewrite app_length in H. cbn [length] in H.
        destruct (negb (token_eqb nx (TChar CloseCurlyBrace)) || negb (f (TChar SemiColon))) eqn:K.
        -- destruct (IH f r' (nx :: TChar SemiColon :: x :: v)) as (out & A & B); [lia|].
           exists (TChar SemiColon :: nx :: out). rewrite A. split.
           { cbn [rev]. rewrite <- !app_assoc. reflexivity. }
           apply cleans_skip; [exact Hp|]. apply cl_keep.
           { unfold may_keep. destruct (f (TChar SemiColon)); [right|auto].
             cbn [negb orb] in K. rewrite orb_false_r in K. split; [reflexivity|]. intros _.
             split; [apply rev_nonempty|]. left. apply closing_not; auto.
             intros ->. rewrite (proj2 (token_eqb_eq _ _) eq_refl) in K. discriminate. }
           apply cleans_skip; [exact Hp2|]. apply cl_keep.
           { unfold may_keep. destruct (f nx) eqn:Fn; [right|auto]. split.
             - destruct (useless nx) eqn:U; auto. exfalso. apply Hn. split; auto.
             - intros _. split; [destruct (rev (x :: v)); discriminate|]. right. eauto. }
           cbn [rev] in B |- *. rewrite <- !app_assoc in *. exact B.
        -- apply orb_false_iff in K. destruct K as [K1 K2].
           apply negb_false_iff in K1. apply negb_false_iff in K2. apply token_eqb_eq in K1. subst nx.
           destruct (IH f r' (TChar CloseCurlyBrace :: x :: v)) as (out & A & B); [lia|].
           exists (TChar CloseCurlyBrace :: out). rewrite A. split.
           { cbn [rev]. rewrite <- !app_assoc. reflexivity. }
           apply cleans_skip; [exact Hp|]. apply cl_drop.
           { split; [exact K2|]. right. split; [reflexivity|]. right. right.
             exists pre2, r'. auto. }
           apply cleans_skip; [exact Hp2|]. apply cl_keep; [|exact B].
           apply keep_other; [exact Hn|discriminate].
      * destruct (f (TChar SemiColon)) eqn:F.
        -- destruct (IH f [] (x :: v)) as (out & A & B); [cbn; lia|].
           inversion B; subst. exists []. rewrite A. split; [reflexivity|].
           apply cleans_skip; [exact Hp|]. apply cl_drop; [|apply cleans_skip_all; exact G2].
           split; [exact F|]. right. split; [reflexivity|]. right. left. exact G2.
        -- destruct (IH f [] (TChar SemiColon :: x :: v)) as (out & A & B); [cbn; lia|].
           inversion B; subst. exists [TChar SemiColon]. rewrite A. split.
           { cbn [rev]. rewrite <- !app_assoc. reflexivity. }
           apply cleans_skip; [exact Hp|]. apply cl_keep; [left; exact F|].
           apply cleans_skip_all; exact G2.
Qed.

(** The same with a mask. *)
Lemma cleans_mask : forall f b ts out, cleans f b ts out ->
  exists mask, length mask = length ts /\ out = select mask ts
  /\ forall i t k, nth_error ts i = Some t -> nth_error mask i = Some k ->
     (k = true -> may_keep f (b ++ select (firstn i mask) ts) t (skipn (S i) ts))
     /\ (k = false -> may_drop f (b ++ select (firstn i mask) ts) t (skipn (S i) ts)).
Proof.
  intros f b ts out H. induction H as [b|b t r out Hk H IH|b t r out Hd H IH].
  - exists []. split; [reflexivity|]. split; [reflexivity|].
    intros i t k Hi. destruct i; discriminate.
  - destruct IH as (m & L & -> & P). exists (true :: m).
    split; [cbn; congruence|]. split; [reflexivity|].
    intros i u k Hi Hm. destruct i as [|i]; cbn [nth_error] in Hi, Hm.
    + injection Hi as ->. cbn [firstn select skipn]. rewrite app_nil_r.
      split; [auto|intro; congruence].
    + cbn [firstn select skipn]. specialize (P i u k Hi Hm). rewrite <- app_assoc in P. exact P.
  - destruct IH as (m & L & -> & P). exists (false :: m).
    split; [cbn; congruence|]. split; [reflexivity|].
    intros i u k Hi Hm. destruct i as [|i]; cbn [nth_error] in Hi, Hm.
    + injection Hi as ->. cbn [firstn select skipn]. rewrite app_nil_r.
      split; [intro; congruence|auto].
    + cbn [firstn select skipn]. exact (P i u k Hi Hm).
Qed.

(** ** Printing *)

Lemma opt_blank_concat : forall b, concat (opt_blank b) = if b then [0x20] else [].
Proof. destruct b; reflexivity. Qed.

Lemma separator_eq : forall a b,
  separator a b = concat (opt_blank (blank_after a (Some b))) ++ concat (opt_blank (blank_before (Some a) b)).
Proof.
  intros a b. rewrite !opt_blank_concat. unfold separator, blank_after, blank_before.
  destruct a; cbn [word_left andb orb char_or_string negb is_keyword is_other is_reserved_char is_string];
    destruct b; try destruct k; try destruct k0;
    reflexivity.
Qed.

Lemma print_chunks_joined : forall ts prev,
  concat (print_chunks prev ts) =
  (match ts with t :: _ => concat (opt_blank (blank_before prev t)) | [] => [] end) ++ joined ts.
Proof.
  induction ts as [|t r IH]; intro prev; cbn [print_chunks joined]; [reflexivity|].
  rewrite !concat_app, IH. fold (token_show t). f_equal. f_equal.
  destruct r as [|u r]; cbn [hd_error].
  - destruct t; reflexivity.
  - rewrite separator_eq, <- !app_assoc. reflexivity.
Qed.

Lemma tokens_show_joined : forall ts, tokens_show ts = joined ts.
Proof. intro ts. unfold tokens_show. rewrite print_chunks_joined. destruct ts; reflexivity. Qed.

(** ** Writing *)

Lemma write1_text : forall ch w o b w', write1 ch w = (o, b, w') ->
  (b = true -> o = encode ch) /\ exists q, encode ch = o ++ q.
Proof.
  intros ch w o b w' H. destruct ch as [|c ch]; cbn [write1] in H.
  - injection H as <- <- <-. split; [reflexivity|]. exists []. reflexivity.
  - destruct w as [|[k|] w]; injection H as <- <- <-.
    + split; [reflexivity|]. exists []. rewrite app_nil_r. reflexivity.
    + split; [discriminate|]. exists (skipn k (encode (c :: ch))). rewrite firstn_skipn. reflexivity.
    + split; [reflexivity|]. exists []. rewrite app_nil_r. reflexivity.
Qed.

Lemma write_all_text : forall chs w o b w', write_all chs w = (o, b, w') ->
  (b = true -> o = encode (concat chs)) /\ exists q, encode (concat chs) = o ++ q.
Proof.
  induction chs as [|ch r IH]; intros w o b w' H; cbn [write_all concat] in *.
  - injection H as <- <- <-. split; [reflexivity|]. exists []. reflexivity.
  - destruct (write1 ch w) as [[o1 b1] w1] eqn:E1. apply write1_text in E1. destruct E1 as [A1 [q1 B1]].
    rewrite encode_app. destruct b1.
    + destruct (write_all r w1) as [[o2 b2] w2] eqn:E2. apply IH in E2. destruct E2 as [A2 [q2 B2]].
      injection H as <- <- <-. rewrite (A1 eq_refl) in *. split.
      * intros ->. rewrite A2; auto.
      * exists q2. rewrite B2, app_assoc. reflexivity.
    + injection H as <- <- <-. split; [discriminate|].
      exists (q1 ++ encode (concat r)). rewrite B1, <- app_assoc. reflexivity.
Qed.

Lemma write1_accept : forall ch w, Forall (fun x => x = None) w ->
  exists w', write1 ch w = (encode ch, true, w') /\ Forall (fun x => x = None) w'.
Proof.
  intros ch w H. destruct ch as [|c ch]; cbn [write1]; [eauto|].
  destruct w as [|x w]; [eauto|]. inversion H; subst. eauto.
Qed.

Lemma write_all_accept : forall chs w, Forall (fun x => x = None) w ->
  exists w', write_all chs w = (encode (concat chs), true, w') /\ Forall (fun x => x = None) w'.
Proof.
  induction chs as [|ch r IH]; intros w H; cbn [write_all concat]; [eauto|].
  destruct (write1_accept ch w H) as (w1 & -> & H1). destruct (IH w1 H1) as (w2 & -> & H2).
  rewrite encode_app. eauto.
Qed.

(** A regex with flags: the only token after whose failure something may still be written. *)
Definition flagged (t : token) : bool :=
  match t with TRegex _ g i => g || i | _ => false end.

Lemma write_token_plain : forall t w, flagged t = false -> write_token t w = write_all (token_chunks t) w.
Proof.
  intros t w H. destruct t; try reflexivity. cbn [flagged] in H. apply orb_false_iff in H.
  destruct H as [-> ->]. cbn [write_token token_chunks].
  destruct (write_all [S_ "/"; regex; S_ "/"] w) as [[o b] w'] eqn:E. cbn [app].
  rewrite E. cbn [andb]. rewrite !app_nil_r. reflexivity.
Qed.

Lemma write_all_app : forall a b w,
  write_all (a ++ b) w =
  let '(o, k, w1) := write_all a w in
  if k then let '(o2, k2, w2) := write_all b w1 in (o ++ o2, k2, w2) else (o, false, w1).
Proof.
  induction a as [|x a IH]; intros b w; cbn [app write_all].
  - destruct (write_all b w) as [[o k] w']. reflexivity.
  - destruct (write1 x w) as [[o1 k1] w1]. destruct k1; [|reflexivity].
    rewrite IH. destruct (write_all a w1) as [[o2 k2] w2]. destruct k2; [|reflexivity].
    destruct (write_all b w2) as [[o3 k3] w3]. rewrite app_assoc. reflexivity.
Qed.

Lemma write_all_single : forall x w, write_all [x] w = write1 x w.
Proof.
  intros x w. cbn [write_all]. destruct (write1 x w) as [[o k] w']. destruct k; [|reflexivity].
  rewrite app_nil_r. reflexivity.
Qed.

(** When everything is accepted the text is the Display text. *)
Lemma write_token_ok : forall t w o w', write_token t w = (o, true, w') ->
  o = encode (token_show t).
Proof.
  intros t w o w' H. destruct (flagged t) eqn:F.
  2:{ rewrite write_token_plain in H by exact F. apply write_all_text in H.
      destruct H as [A _]. auto. }
  destruct t; try discriminate F. cbn [write_token] in H.
  destruct (write_all [S_ "/"; regex; S_ "/"] w) as [[o1 b1] w1] eqn:E1.
  apply write_all_text in E1. destruct E1 as [A1 _].
  destruct (if is_global then write1 (S_ "g") w1 else ([], true, w1)) as [[o2 b2] w2] eqn:E2.
  destruct b2; [|discriminate].
  destruct (if is_interactive then write1 (S_ "i") w2 else ([], true, w2)) as [[o3 b3] w3] eqn:E3.
  injection H as <- H <-. apply andb_true_iff in H. destruct H as [-> ->].
  rewrite (A1 eq_refl). unfold token_show. cbn [token_chunks]. rewrite !concat_app, !encode_app.
  f_equal. f_equal.
  - destruct is_global.
    + apply write1_text in E2. destruct E2 as [A _]. cbn [concat]. rewrite app_nil_r. auto.
    + injection E2 as <- _. reflexivity.
  - destruct is_interactive.
    + apply write1_text in E3. destruct E3 as [A _]. cbn [concat]. rewrite app_nil_r. auto.
    + injection E3 as <- _. reflexivity.
Qed.

Lemma write_token_accept : forall t w, Forall (fun x => x = None) w ->
  exists w', write_token t w = (encode (token_show t), true, w') /\ Forall (fun x => x = None) w'.
Proof.
  intros t w H. destruct (flagged t) eqn:F.
  2:{ rewrite write_token_plain by exact F. apply write_all_accept; exact H. }
  destruct t; try discriminate F. cbn [write_token].
  destruct (write_all_accept [S_ "/"; regex; S_ "/"] w H) as (w1 & E1 & H1).
  rewrite E1.
  assert (X : exists w', write_token (TRegex regex is_global is_interactive) w = (encode (token_show (TRegex regex is_global is_interactive)), true, w') /\ Forall (fun x => x = None) w').
  { cbn [write_token]. rewrite E1.
    destruct is_global, is_interactive;
      repeat match goal with |- context [write1 (S_ ?x) ?w] =>
        let w' := fresh "w" in let E := fresh "E" in let H' := fresh "H" in
        destruct (write1_accept (S_ x) w ltac:(assumption)) as (w' & E & H'); rewrite E end;
      cbn [andb]; eexists; (split; [|eassumption]);
      unfold token_show; cbn [token_chunks]; rewrite !concat_app, !encode_app;
      cbn [app concat]; rewrite ?app_nil_r; reflexivity. }
  cbn [write_token] in X. rewrite E1 in X. exact X.
Qed.

Lemma write_tokens_ok : forall ts prev w o, write_tokens prev ts w = (o, true) ->
  o = encode (concat (print_chunks prev ts)).
Proof.
  induction ts as [|t r IH]; intros prev w o H; cbn [write_tokens print_chunks] in *.
  - injection H as <-. reflexivity.
  - destruct (write_all (opt_blank (blank_before prev t)) w) as [[o1 b1] w1] eqn:E1.
    apply write_all_text in E1. destruct E1 as [A1 _]. destruct b1; [|discriminate].
    destruct (write_token t w1) as [[o2 b2] w2] eqn:E2. destruct b2; [|discriminate].
    apply write_token_ok in E2.
    destruct (write_all (opt_blank (blank_after t (hd_error r))) w2) as [[o3 b3] w3] eqn:E3.
    apply write_all_text in E3. destruct E3 as [A3 _]. destruct b3; [|discriminate].
    destruct (write_tokens (Some t) r w3) as [o4 b4] eqn:E4. injection H as <- ->.
    rewrite !concat_app, !encode_app. fold (token_show t).
    rewrite (A1 eq_refl), E2, (A3 eq_refl), (IH _ _ _ E4). reflexivity.
Qed.

Lemma write_tokens_accept : forall ts prev w, Forall (fun x => x = None) w ->
  write_tokens prev ts w = (encode (concat (print_chunks prev ts)), true).
Proof.
  induction ts as [|t r IH]; intros prev w H; cbn [write_tokens print_chunks]; [reflexivity|].
  destruct (write_all_accept (opt_blank (blank_before prev t)) w H) as (w1 & -> & H1).
  destruct (write_token_accept t w1 H1) as (w2 & -> & H2).
  destruct (write_all_accept (opt_blank (blank_after t (hd_error r))) w2 H2) as (w3 & -> & H3).
  rewrite (IH (Some t) w3 H3). rewrite !concat_app, !encode_app. reflexivity.
Qed.

Lemma write_tokens_prefix : forall ts prev w o b, Forall (fun t => flagged t = false) ts ->
  write_tokens prev ts w = (o, b) ->
  exists q, encode (concat (print_chunks prev ts)) = o ++ q.
Proof.
  induction ts as [|t r IH]; intros prev w o b F H; cbn [write_tokens print_chunks] in *.
  - injection H as <- <-. exists []. reflexivity.
  - inversion F; subst. rewrite !concat_app, !encode_app. fold (token_show t).
    destruct (write_all (opt_blank (blank_before prev t)) w) as [[o1 b1] w1] eqn:E1.
    apply write_all_text in E1. destruct E1 as [A1 [q1 B1]].
    destruct b1.
    2:{ injection H as <- <-. eexists. rewrite B1, <- !app_assoc. reflexivity. }
    rewrite (A1 eq_refl) in *. clear A1 B1.
    rewrite write_token_plain in H by assumption.
    destruct (write_all (token_chunks t) w1) as [[o2 b2] w2] eqn:E2.
    apply write_all_text in E2. fold (token_show t) in E2. destruct E2 as [A2 [q2 B2]].
    destruct b2.
    2:{ injection H as <- <-. eexists. rewrite B2, <- !app_assoc. reflexivity. }
    rewrite (A2 eq_refl) in *. clear A2 B2.
    destruct (write_all (opt_blank (blank_after t (hd_error r))) w2) as [[o3 b3] w3] eqn:E3.
    apply write_all_text in E3. destruct E3 as [A3 [q3 B3]].
    destruct b3.
    2:{ injection H as <- <-. eexists. rewrite B3, <- !app_assoc. reflexivity. }
    rewrite (A3 eq_refl) in *. clear A3 B3.
    destruct (write_tokens (Some t) r w3) as [o4 b4] eqn:E4. injection H as <- <-.
    destruct (IH _ _ _ _ H3 E4) as [q ->]. eexists. rewrite <- !app_assoc. reflexivity.
Qed.

Ltac near :=
  split; [try reflexivity; auto | split; [try reflexivity; auto | split;
    [first [now left | assumption] | first [assumption | congruence | auto]]]].

(** In general at most the flags of one regex follow the prefix. *)
Lemma write_token_near : forall t w o b w', write_token t w = (o, b, w') ->
  exists p q f, o = p ++ f /\ encode (token_show t) = p ++ q
    /\ In f [[]; S_ "g"; S_ "i"; S_ "gi"] /\ (f <> [] -> b = false).
Proof.
  intros t w o b w' H. destruct (flagged t) eqn:F.
  2:{ rewrite write_token_plain in H by exact F. apply write_all_text in H.
      destruct H as [_ [q B]]. exists o, q, []. rewrite app_nil_r. near. }
  destruct b.
  { apply write_token_ok in H. exists o, [], []. rewrite !app_nil_r. near. }
  destruct t; try discriminate F. cbn [write_token] in H.
  destruct (write_all [S_ "/"; regex; S_ "/"] w) as [[o1 b1] w1] eqn:E1.
  apply write_all_text in E1. destruct E1 as [A1 [q1 B1]].
  assert (W : forall x y o b w', (if x : bool then write1 [y] w1 else ([], true, w1)) = (o, b, w') -> True) by auto.
  clear W.
  unfold token_show. cbn [token_chunks]. rewrite !concat_app, !encode_app.
  destruct b1.
  - (* the body went through *)
    rewrite (A1 eq_refl) in *. clear B1.
    destruct is_global.
    + destruct (write1 (S_ "g") w1) as [[o2 b2] w2] eqn:E2. apply write1_text in E2.
      destruct E2 as [A2 [q2 B2]]. cbn [concat]. rewrite !app_nil_r.
      destruct b2.
      * rewrite (A2 eq_refl) in *. destruct is_interactive.
        -- destruct (write1 (S_ "i") w2) as [[o3 b3] w3] eqn:E3. apply write1_text in E3.
           destruct E3 as [A3 [q3 B3]]. injection H as <- _ <-. cbn [concat]. rewrite app_nil_r, B3.
           exists (encode (S_ "/" ++ regex ++ S_ "/") ++ encode (S_ "g") ++ o3), q3, [].
           rewrite app_nil_r, <- !app_assoc. near.
        -- cbn in H. discriminate.
      * injection H as <- <-.
        exists (encode (S_ "/" ++ regex ++ S_ "/") ++ o2), (q2 ++ encode (concat (if is_interactive then [S_ "i"] else []))), [].
        rewrite app_nil_r, B2, <- !app_assoc. near.
    + destruct is_interactive; [|cbn in H; discriminate].
      destruct (write1 (S_ "i") w1) as [[o3 b3] w3] eqn:E3. apply write1_text in E3.
      destruct E3 as [A3 [q3 B3]]. injection H as <- _ <-. cbn [concat app]. rewrite !app_nil_r, B3.
      exists (encode (S_ "/" ++ regex ++ S_ "/") ++ o3), q3, [].
      rewrite app_nil_r, <- !app_assoc. near.
  - cbn [concat] in B1. rewrite ?app_nil_r in B1. cbn [concat]. rewrite !app_nil_r, B1.
    assert (L : forall c w o b w', write1 [c] w = (o, b, w') -> c < 0x80 -> o = [] \/ o = [c]).
    { intros c ww oo bb ww' HH HC. cbn [write1] in HH.
      assert (EC : encode [c] = [c]).
      { cbn. unfold encode_char. apply N.ltb_lt in HC. rewrite HC. reflexivity. }
      rewrite EC in HH. destruct ww as [|[k|] ww]; injection HH as <- _ _; auto.
      destruct k as [|[|k]]; auto. }
    assert (X : exists f, o = o1 ++ f /\ In f [[]; S_ "g"; S_ "i"; S_ "gi"]).
    { destruct is_global.
      - destruct (write1 (S_ "g") w1) as [[o2 b2] w2] eqn:E2.
        apply (L 0x67) in E2; [|reflexivity].
        destruct b2.
        + destruct is_interactive.
          * destruct (write1 (S_ "i") w2) as [[o3 b3] w3] eqn:E3.
            apply (L 0x69) in E3; [|reflexivity]. injection H as <- _ _.
            exists (o2 ++ o3). split; [reflexivity|].
            destruct E2 as [-> | ->], E3 as [-> | ->]; cbn; tauto.
          * injection H as <- _. exists o2. rewrite app_nil_r. split; [reflexivity|].
            destruct E2 as [-> | ->]; cbn; tauto.
        + injection H as <- _. exists o2. split; [reflexivity|].
          destruct E2 as [-> | ->]; cbn; tauto.
      - destruct is_interactive.
        + destruct (write1 (S_ "i") w1) as [[o3 b3] w3] eqn:E3.
          apply (L 0x69) in E3; [|reflexivity]. injection H as <- _ _. cbn [app].
          exists o3. split; [reflexivity|]. destruct E3 as [-> | ->]; cbn; tauto.
        + injection H as <- _. exists []. cbn. rewrite app_nil_r. split; auto. }
    destruct X as (f & -> & IN). exists o1. rewrite <- !app_assoc. eexists. exists f.
    near.
Qed.

Lemma write_tokens_near : forall ts prev w o b,
  write_tokens prev ts w = (o, b) ->
  exists p q f, o = p ++ f /\ encode (concat (print_chunks prev ts)) = p ++ q
    /\ In f [[]; S_ "g"; S_ "i"; S_ "gi"] /\ (f <> [] -> b = false).
Proof.
  induction ts as [|t r IH]; intros prev w o b H; cbn [write_tokens print_chunks] in *.
  - injection H as <- <-. exists [], [], []. near.
  - rewrite !concat_app, !encode_app. fold (token_show t).
    assert (NF : forall p q, exists p' q' f, p = p' ++ f /\ p ++ q = p' ++ q'
                /\ In f [[]; S_ "g"; S_ "i"; S_ "gi"] /\ (f <> [] -> b = false)).
    { intros p q. exists p, q, []. rewrite app_nil_r. near. }
    destruct (write_all (opt_blank (blank_before prev t)) w) as [[o1 b1] w1] eqn:E1.
    apply write_all_text in E1. destruct E1 as [A1 [q1 B1]].
    destruct b1.
    2:{ injection H as <- <-. rewrite B1, <- app_assoc. apply NF. }
    rewrite (A1 eq_refl) in *. clear A1 B1.
    destruct (write_token t w1) as [[o2 b2] w2] eqn:E2.
    destruct b2.
    2:{ apply write_token_near in E2. destruct E2 as (p & q & f & -> & B & C & D).
        injection H as <- <-. rewrite B.
        exists (encode (concat (opt_blank (blank_before prev t))) ++ p). eexists. exists f.
        rewrite <- !app_assoc. near. }
    apply write_token_ok in E2. rewrite E2 in *. clear E2.
    destruct (write_all (opt_blank (blank_after t (hd_error r))) w2) as [[o3 b3] w3] eqn:E3.
    apply write_all_text in E3. destruct E3 as [A3 [q3 B3]].
    destruct b3.
    2:{ injection H as <- <-. rewrite B3.
        destruct (NF (encode (concat (opt_blank (blank_before prev t))) ++ encode (token_show t) ++ o3)
                     (q3 ++ encode (concat (print_chunks (Some t) r)))) as (p' & q' & f & X & Y & Z).
        exists p', q', f. rewrite <- Y, <- !app_assoc. split; [exact X|]. split; [reflexivity|exact Z]. }
    rewrite (A3 eq_refl) in *. clear A3 B3.
    destruct (write_tokens (Some t) r w3) as [o4 b4] eqn:E4. injection H as <- <-.
    destruct (IH _ _ _ _ E4) as (p & q & f & -> & B & C & D). rewrite B.
    exists (encode (concat (opt_blank (blank_before prev t))) ++ encode (token_show t)
            ++ encode (concat (opt_blank (blank_after t (hd_error r)))) ++ p), q, f.
    rewrite <- !app_assoc. near.
Qed.
