(** The size of the minified JS source. *)
From Coq Require Import String List NArith ZArith Bool Lia ZifyBool ZifyN Arith.
From Verif Require Import Base JsModel JsUtilModel JsUtilSpec JsUtilProofs JsUtilProofs2 JsLexSpec
  JsLexProofs1 JsLexProofs2 JsLexProofs3 JsWords JsLexProofs4 JsLexProofs6 JsRoundSpec JsRoundProofs1.
Import ListNotations.
Open Scope N_scope.

(** ** Words are not next to each other *)

Definition word_last (v : list token) : bool := match v with t :: _ => wordy t | [] => false end.

Fixpoint spread (v : list token) : Prop :=
  match v with t :: r => wordy t && word_last r = false /\ spread r | [] => True end.

Lemma spread_flush : forall w v, spread v -> word_last v = false -> spread (flush w v).
Proof.
  intros [|c w] v S L; [exact S|]. cbn [flush spread]. rewrite L. split; [apply andb_false_r|exact S].
Qed.

Lemma spread_step : forall v w s v' w' s', reads_token v w s v' w' s' ->
  spread v -> word_last v = false -> spread v' /\ word_last v' = false.
Proof.
  intros v w s v' w' s' H S L. pose proof (spread_flush w v S L) as F.
  assert (PUSH : forall t, wordy t = false -> spread (t :: flush w v) /\ word_last (t :: flush w v) = false).
  { intros t Wt. cbn [spread word_last]. rewrite Wt. auto. }
  destruct H; auto.
  - apply PUSH. unfold simple_punct in H.
    repeat match type of H with (if ?b then _ else _) = _ => destruct b; [injection H as <-; reflexivity|] end.
    discriminate.
  - apply PUSH. unfold operators in H. cbn [In] in H.
    repeat (destruct H as [H|H]; [injection H as <- <-; reflexivity|]). destruct H.
Qed.

Lemma reads_spread : forall v w s v' w' s', reads v w s v' w' s' ->
  spread v -> word_last v = false -> spread v' /\ word_last v' = false.
Proof.
  intros v w s v' w' s' H. induction H as [v w s|v w s v1 w1 s1 v2 w2 s2 H R IH]; intros S L; [auto|].
  destruct (spread_step _ _ _ _ _ _ H S L). now apply IH.
Qed.

(** In reading order. *)
Fixpoint sparse (a : option token) (ts : list token) : Prop :=
  match ts with
  | t :: r => (match a with Some a => wordy a && wordy t = false | None => True end) /\ sparse (Some t) r
  | [] => True
  end.

Lemma sparse_rev : forall v, spread v -> forall ts, sparse (hd_error v) ts -> sparse None (rev v ++ ts).
Proof.
  induction v as [|t v IH]; intros S ts H; [exact H|]. destruct S as [A B]. cbn [rev]. rewrite <- app_assoc.
  apply IH; [exact B|]. cbn [app sparse]. split; [|exact H].
  destruct v as [|u v]; [exact I|]. cbn [hd_error word_last] in *. rewrite andb_comm. exact A.
Qed.

Lemma lexes_sparse : forall s ts, lexes s ts -> sparse None ts.
Proof.
  intros s ts (v & w & R & ->). destruct (reads_spread _ _ _ _ _ _ R I eq_refl) as [A B].
  rewrite <- (app_nil_r (rev _)). apply sparse_rev; [now apply spread_flush|exact I].
Qed.

(** ** Sizes *)

Lemma blen_nonempty : forall p, p <> [] -> (1 <= blen p)%nat.
Proof. intros [|c p] H; [congruence|]. cbn [blen]. pose proof (len_utf8_pos c). lia. Qed.

Lemma spells_nonempty : forall p t, spells p t -> p <> [].
Proof.
  intros p t H. destruct H as [p t Ne W C| |c t C|o t O| | |q b Q B|b B|b n B Nl|b B|b B|b f B F]; try discriminate.
  - exact Ne.
  - intros ->. unfold operators in O. cbn [In] in O. repeat (destruct O as [O|O]; [discriminate|]). destruct O.
Qed.

Lemma reprints_size : forall p q, reprints p q -> (blen q <= blen p)%nat.
Proof. intros p q H. destruct H; [apply Nat.le_refl|apply Nat.le_refl|]. rewrite blen_app. apply Nat.le_add_l. Qed.

Lemma flags_size : forall f, Forall (fun c => flag c = true) f ->
  (blen ((if mem_char 0x67 f then S_ "g" else []) ++ (if mem_char 0x69 f then S_ "i" else [])) <= blen f)%nat.
Proof.
  intros f F.
  assert (H : ((if mem_char 0x67 f then 1 else 0) + (if mem_char 0x69 f then 1 else 0) <= blen f)%nat).
  { induction F as [|c f Hc F IH]; [cbn; lia|]. cbn [blen].
    assert (M : forall x, mem_char x (c :: f) = (x =? c) || mem_char x f) by reflexivity.
    rewrite !M. unfold flag in Hc. pose proof (len_utf8_pos c).
    destruct (N.eqb_spec 0x67 c), (N.eqb_spec 0x69 c), (mem_char 0x67 f), (mem_char 0x69 f); cbn [orb] in *; lia. }
  rewrite blen_app. destruct (mem_char 0x67 f), (mem_char 0x69 f); cbn [blen] in *; exact H.
Qed.

Lemma spells_size : forall p t, spells p t -> useless t = false -> (blen (token_show t) <= blen p)%nat.
Proof.
  intros p t H U. destruct (plain t) eqn:P; [apply reprints_size; now apply spells_show|].
  destruct t; try discriminate P; try discriminate U.
  - rewrite (license_show _ _ H). lia.
  - destruct (regex_show _ _ _ _ H) as (f & -> & F & ->). pose proof (flags_size f F) as X.
    set (g := _ ++ _) in X at 1. fold g. rewrite !blen_app. lia.
Qed.

(** What is printed from [l] on when [a] is the last token printed. *)
Definition after (a : option token) (l : list token) : str :=
  match l with
  | b :: _ => (match a with Some a => separator a b | None => [] end) ++ joined l
  | [] => []
  end.

Lemma after_cons : forall a b l, after a (b :: l) = (match a with Some a => separator a b | None => [] end) ++ token_show b ++ after (Some b) l.
Proof. intros a b [|c l]; reflexivity. Qed.

Lemma separator_size : forall a b, (blen (separator a b) <= 1)%nat.
Proof. intros a b. unfold separator. destruct (_ || _); cbn; lia. Qed.

Lemma spells_wordy : forall p t, spells p t -> word_right t = wordy t /\ (char_or_string t = false -> useless t = false -> wordy t = false ->
  match t with TLicense _ | TRegex _ _ _ | TOperation _ | TCondition _ => true | _ => false end = true).
Proof.
  intros p t H. destruct H as [p t Ne W C| |c t C|o t O| | |q b Q B|b B|b n B Nl|b B|b B|b f B F];
    try (split; [reflexivity|intros X Y Z; try reflexivity; discriminate]).
  - destruct C; split; try reflexivity; discriminate.
  - unfold simple_punct in C.
    repeat match type of C with (if ?b then _ else _) = _ => destruct b; [injection C as <-; split; [reflexivity|discriminate]|] end.
    discriminate.
  - unfold operators in O. cbn [In] in O.
    repeat (destruct O as [O|O]; [injection O as <- <-; split; [reflexivity|try discriminate; reflexivity]|]). destruct O.
Qed.

Lemma crowds_cons : forall a ts, (crowds ts <= crowds (a :: ts))%nat.
Proof. intros a [|b r]; [cbn; lia|]. change (crowds (a :: b :: r)) with ((if crowded a b then 1 else 0) + crowds (b :: r))%nat. lia. Qed.

Lemma size_after : forall ps ts, Forall2 spells ps ts -> forall a,
  sparse (Some a) ts -> useless a = false -> (exists q, spells q a) ->
  (forall u, (blen (after u (filter useful ts)) <= blen (concat ps) + 1 + crowds ts)%nat)
  /\ (blen (after (Some a) (filter useful ts)) <= blen (concat ps) + crowds (a :: ts))%nat.
Proof.
  induction 1 as [|p b ps ts H F IH]; intros a Sp Ua (q & Sa).
  - split; [intro u|]; cbn; lia.
  - destruct Sp as [Sp Sr]. cbn [filter concat]. rewrite blen_app.
    pose proof (blen_nonempty p (spells_nonempty p b H)) as Np.
    destruct (useful b) eqn:Ub.
    + assert (U : useless b = false) by (now apply negb_true_iff).
      destruct (IH b Sr U (ex_intro _ p H)) as [_ I2].
      pose proof (spells_size p b H U) as Sz.
      assert (ONE : forall u, (blen (after u (b :: filter useful ts)) <= blen p + blen (concat ps) + 1 + crowds (b :: ts))%nat).
      { intro u. rewrite after_cons, !blen_app.
        destruct u as [c|]; [pose proof (separator_size c b)|cbn [blen]]; lia. }
      split; [exact ONE|].
      change (crowds (a :: b :: ts)) with ((if crowded a b then 1 else 0) + crowds (b :: ts))%nat.
      destruct (crowded a b) eqn:Cr; [pose proof (ONE (Some a)); lia|].
      rewrite after_cons, !blen_app.
      assert (separator a b = []).
      { unfold separator. destruct (spells_wordy _ _ H) as [Wb _]. destruct (spells_wordy _ _ Sa) as [_ Wa].
        rewrite Wb.
        replace (word_left a && wordy b) with false.
        2:{ symmetry. destruct (word_left a) eqn:Wl; [|reflexivity]. cbn [andb].
            destruct a; try discriminate Wl; exact Sp. }
        cbn [orb]. destruct (is_in b) eqn:Ib; [|reflexivity]. cbn [andb].
        destruct (char_or_string a) eqn:Ca; [reflexivity|exfalso].
        unfold crowded in Cr. rewrite Ib in Cr. cbn [andb] in Cr.
        destruct (wordy a) eqn:Wy.
        - destruct b; try discriminate Ib. discriminate Sp.
        - rewrite (Wa eq_refl Ua eq_refl) in Cr. discriminate. }
      rewrite H0. cbn [blen]. lia.
    + assert (Sr' : forall u, (blen (after u (filter useful ts)) <= blen (concat ps) + 1 + crowds ts)%nat).
      { clear a Sp Ua q Sa. destruct F as [|p2 c ps2 ts2 H2 F2].
        - intro u. cbn. lia.
        - destruct (IH (TChar Comma)) as [I1 _]; [|reflexivity|exists [0x2C]; apply sp_punct; reflexivity|exact I1].
          split; [reflexivity|]. exact (proj2 Sr). }
      pose proof (crowds_cons b ts). pose proof (crowds_cons a (b :: ts)).
      split; [intro u|]; match goal with |- context [after ?x _] => pose proof (Sr' x) end; lia.
Qed.

Lemma drop_size : forall l, (blen (joined (drop_semicolons l)) <= blen (joined l))%nat.
Proof.
  induction l as [|t r IH]; [cbn; lia|]. cbn [drop_semicolons]. destruct (eq_char SemiColon t) eqn:E; [|lia].
  apply eq_char_eq in E. subst t. destruct r as [|b r]; [cbn; lia|].
  change (joined (TChar SemiColon :: b :: r)) with (token_show (TChar SemiColon) ++ separator (TChar SemiColon) b ++ joined (b :: r)).
  rewrite !blen_app. lia.
Qed.

Lemma joined_after : forall l, joined l = after None l.
Proof. intros [|b l]; reflexivity. Qed.

Theorem lexes_size : forall s ts d, lexes s ts -> js_minify s = Ok d -> (blen d <= blen s + crowds ts)%nat.
Proof.
  intros s ts d L M. unfold js_minify, js_minify_tokens in M. rewrite (lexes_tokenize s ts L) in M.
  cbn [obind] in M. rewrite clean_tokens_eq in M. cbn [obind] in M. injection M as <-. rewrite tokens_show_joined.
  destruct (lexes_tiles s ts L) as (ps & <- & F). pose proof (lexes_sparse _ _ L) as Sp.
  eapply Nat.le_trans; [apply drop_size|]. rewrite joined_after. change (fun t : token => negb (useless t)) with useful.
  assert (G : (blen (after (Some (TChar SemiColon)) (filter useful ts)) <= blen (concat ps) + crowds (TChar SemiColon :: ts))%nat).
  { apply (size_after ps ts F (TChar SemiColon)); [|reflexivity|exists [0x3B]; apply sp_punct; reflexivity].
    destruct ts as [|t r]; [exact I|]. split; [reflexivity|]. exact (proj2 Sp). }
  assert (C : crowds (TChar SemiColon :: ts) = crowds ts).
  { destruct ts as [|t r]; [reflexivity|].
    change (crowds (TChar SemiColon :: t :: r)) with ((if crowded (TChar SemiColon) t then 1 else 0) + crowds (t :: r))%nat.
    unfold crowded. rewrite andb_false_r. reflexivity. }
  rewrite C in G. destruct (filter useful ts) as [|b l]; [cbn; lia|].
  cbn [after] in G |- *. rewrite blen_app in G. cbn [app]. lia.
Qed.
