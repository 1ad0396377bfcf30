(** The round trip of the JS minifier: the printed text is read. *)
From Coq Require Import String List NArith ZArith Bool Lia ZifyBool ZifyN Arith.
From Verif Require Import Base JsModel JsUtilModel JsUtilSpec JsUtilProofs JsUtilProofs2 JsLexSpec
  JsLexProofs1 JsLexProofs2 JsLexProofs3 JsWords JsLexProofs4 JsLexProofs6 JsRoundSpec JsRoundProofs1.
Import ListNotations.
Open Scope N_scope.

(** ** Words *)

Lemma okword_inner : forall w s a b, okword w s -> w = a ++ 0x2E :: b -> b <> [] -> dot_joins a b = true.
Proof.
  intros w s a b [_ B] E Ne. rewrite <- (B a b E). apply dot_joins_hd. destruct b; [congruence|reflexivity].
Qed.

Lemma digits_wordlike : forall w, digits w -> wordlike w /\ ~ In 0x2E w.
Proof.
  intros w D. split.
  - eapply Forall_impl; [|exact D]. cbv beta. intros c H. left. unfold word_char, mem_char, punctuation.
    apply negb_true_iff. apply not_true_is_false. intro X. apply existsb_exists in X. destruct X as (d & I & E).
    apply N.eqb_eq in E. subst d. cbn in I. repeat (destruct I as [I|I]; [subst c; lia|]). exact I.
  - intro I. unfold digits in D. rewrite Forall_forall in D. specialize (D _ I). lia.
Qed.

Lemma no_dot : forall (w : str) a b, ~ In 0x2E w -> w <> a ++ 0x2E :: b.
Proof. intros w a b N ->. apply N. apply in_app_iff. right. now left. Qed.

Lemma ends_with_dot_snoc : forall a, ends_with_dot (a ++ [0x2E]) = true.
Proof. intro a. unfold ends_with_dot. rewrite rev_app_distr. reflexivity. Qed.

(** The text of a word token is a word that gives the token; a dot at its end is the end of a
    number. *)
Lemma word_show : forall w s, w <> [] -> okword w s -> starts_with word_char s = false ->
  let t := word_token w in let u := token_show t in
  u <> [] /\ word_token u = t /\ wordlike u
  /\ (forall a b, u = a ++ 0x2E :: b -> b <> [] -> dot_joins a b = true)
  /\ (forall a, u = a ++ [0x2E] -> t = TFloatingNumber u).
Proof.
  intros w s Ne O St t u. pose proof O as [W _].
  assert (C : exists t', t = t' /\ classified w t').
  { exists t. split; [reflexivity|]. apply word_token_classified; [now apply wordlike_unsigned|reflexivity]. }
  assert (SAME : u = w -> (forall a, w = a ++ [0x2E] -> t = TFloatingNumber w) ->
    u <> [] /\ word_token u = t /\ wordlike u
    /\ (forall a b, u = a ++ 0x2E :: b -> b <> [] -> dot_joins a b = true)
    /\ (forall a, u = a ++ [0x2E] -> t = TFloatingNumber u)).
  { intros -> L. split; [exact Ne|]. split; [reflexivity|]. split; [exact W|]. split; [|exact L].
    intros a b E B. eapply okword_inner; eauto. }
  assert (LAST : forall a, w = a ++ [0x2E] -> float_text w /\ ~ small_integer w).
  { intros a E. split.
    - pose proof (proj2 O a [] E) as D. cbn [app] in D. unfold dot_joins in D. apply andb_prop in D. destruct D as [_ D].
      assert (I : integer a = true).
      { destruct s as [|c s]; [exact D|]. cbn in St. apply orb_prop in D. destruct D as [D|D]; [|now apply andb_prop in D].
        exfalso. assert (word_char c = true); [|congruence].
        apply is_digit_iff in D. assert (X : digits [c]) by (constructor; [exact D|constructor]).
        apply digits_wordlike in X. destruct X as [X _]. inversion X as [|x y Y Z]; subst.
        destruct Y as [Y|Y]; [exact Y|]. subst c. exfalso. lia. }
      unfold integer in I. destruct (u64_of a) as [n|] eqn:U; [|discriminate].
      assert (F : Forall (fun c => c <> 0x2B) a).
      { subst w. apply Forall_app in W. destruct W as [W _]. eapply Forall_impl; [|exact W].
        cbv beta. intros c [H|H] ->; discriminate. }
      apply u64_of_spec in U; [|exact F]. destruct U as [(Na & Da & _) _].
      rewrite E. replace (a ++ [0x2E]) with (a ++ 0x2E :: [] ++ []) by reflexivity.
      apply ft_point; [rewrite app_nil_r; exact Na|exact Da|constructor|constructor].
    - intros (_ & D & _). apply digits_wordlike in D. destruct D as [_ D]. apply (no_dot w a [] D). exact E. }
  assert (SHOW : token_show t = u) by reflexivity. clearbody u.
  destruct C as (t' & T & C). clearbody t. destruct C as [k K|S|S Ft|K S Ft].
  - apply SAME; [rewrite <- SHOW, T; unfold token_show; cbn; rewrite app_nil_r; auto|].
    intros a E. exfalso. destruct (LAST a E) as [F _]. rewrite K in F. exact (proj2 (keyword_not_number k) F).
  - pose proof S as (_ & D & _).
    assert (U : u = number_show (value w)) by (rewrite <- SHOW, T; unfold token_show; cbn; apply app_nil_r).
    destruct (number_show_digits (value w)) as (D' & V & Ne'). rewrite <- U in D', V, Ne'.
    destruct (digits_wordlike u D') as [W' N'].
    split; [exact Ne'|]. split.
    + rewrite T, <- V. apply word_token_classified; [now apply wordlike_unsigned|].
      apply cl_number. split; [exact Ne'|]. split; [exact D'|]. rewrite V. apply S.
    + split; [exact W'|]. split; intros a; [intros b E|intro E]; exfalso; eapply no_dot; eauto.
  - apply SAME; [rewrite <- SHOW, T; unfold token_show; cbn; apply app_nil_r|]. intros a _. exact T.
  - apply SAME; [rewrite <- SHOW, T; unfold token_show; cbn; apply app_nil_r|].
    intros a E. exfalso. destruct (LAST a E) as [F _]. contradiction.
Qed.

(** Reading a word, character by character. *)
Lemma reads_snoc : forall v w s v1 w1 s1 v2 w2 s2,
  reads v w s v1 w1 s1 -> reads_token v1 w1 s1 v2 w2 s2 -> reads v w s v2 w2 s2.
Proof.
  intros v w s v1 w1 s1 v2 w2 s2 H. induction H; intro K.
  - eapply reads_more; [exact K|constructor].
  - eapply reads_more; eauto.
Qed.

Lemma reads_trans : forall v w s v1 w1 s1 v2 w2 s2,
  reads v w s v1 w1 s1 -> reads v1 w1 s1 v2 w2 s2 -> reads v w s v2 w2 s2.
Proof. intros v w s v1 w1 s1 v2 w2 s2 H. induction H; intro K; [exact K|]. eapply reads_more; eauto. Qed.

Lemma reads_word : forall b a v x, okword (a ++ b) x -> reads v a (b ++ x) v (a ++ b) x.
Proof.
  induction b as [|c b IH]; intros a v x O.
  - rewrite app_nil_r. constructor.
  - replace (a ++ c :: b) with ((a ++ [c]) ++ b) in * by (rewrite <- app_assoc; reflexivity).
    cbn [app]. eapply reads_more; [|apply IH; exact O].
    destruct O as [W D]. assert (C : word_char c = true \/ c = 0x2E).
    { unfold wordlike in W. rewrite Forall_forall in W. apply W. rewrite !in_app_iff. left. right. now left. }
    destruct C as [C|C]; [now apply rd_word|]. subst c. apply rd_word_dot. apply D. rewrite <- app_assoc. reflexivity.
Qed.

(** ** What follows *)

Lemma readable_text : forall t, readable t -> useless t = false -> token_show t <> [].
Proof.
  intros t R U. destruct R as [w s Ne O St| |c t C|o t O| | |q b Q B|b B|b|b B|b g i B H]; try discriminate.
  - apply (word_show w s Ne O St).
  - unfold simple_punct in C.
    repeat match type of C with (if ?b then _ else _) = _ => destruct b; [injection C as <-; discriminate|] end.
    discriminate.
  - unfold operators in O. cbn [In] in O.
    repeat (destruct O as [O|O]; [injection O as <- <-; discriminate|]). destruct O.
Qed.

Lemma follow_hd : forall a r, Forall readable r -> Forall (fun t => useless t = false) r ->
  hd_error (follow a (hd_error r)) = hd_error (match r with [] => [] | b :: _ => separator a b ++ joined r end).
Proof.
  intros a [|b r] R U; [reflexivity|]. cbn [hd_error follow]. apply hd_error_app.
  inversion R as [|x y Rb Rr]; inversion U as [|x' y' Ub Ur]; subst. cbn [joined].
  pose proof (readable_text b Rb Ub). destruct (token_show b); [congruence|reflexivity].
Qed.

Lemma starts_hd : forall f s s', hd_error s = hd_error s' -> starts_with f s = starts_with f s'.
Proof. intros f [|c s] [|c' s'] H; cbn in H; try discriminate; [reflexivity|]. injection H as ->. reflexivity. Qed.

Lemma starts_false : forall f s c, starts_with f s = false -> hd_error s = Some c -> f c = false.
Proof. intros f [|d s] c H E; [discriminate|]. injection E as <-. exact H. Qed.

Lemma extends_hd : forall o s s', hd_error s = hd_error s' -> extends o s = extends o s'.
Proof. intros o [|c s] [|c' s'] H; cbn in H; try discriminate; [reflexivity|]. injection H as ->. reflexivity. Qed.

Lemma prefix_of_app : forall p s, prefix p s = true -> exists r, s = p ++ r.
Proof. exact prefix_app. Qed.

(** Operators grow one character at a time. *)
Lemma operators_chain : forall o t q, In (o, t) operators -> In q operators ->
  prefix o (fst q) = true -> (length o < length (fst q))%nat ->
  exists c r, fst q = o ++ c :: r /\ existsb (fun x => str_eqb (fst x) (o ++ [c])) operators = true.
Proof.
  assert (H : forallb (fun p => forallb (fun q =>
     if prefix (fst p) (fst q) && Nat.ltb (length (fst p)) (length (fst q))
     then existsb (fun x => str_eqb (fst x) (firstn (S (length (fst p))) (fst q))) operators
     else true) operators) operators = true) by (vm_compute; reflexivity).
  intros o t q P Q Pr L. rewrite forallb_forall in H. specialize (H _ P). rewrite forallb_forall in H.
  specialize (H _ Q). cbn [fst] in H. rewrite Pr in H. apply Nat.ltb_lt in L. rewrite L in H. cbn [andb] in H.
  destruct (prefix_app _ _ Pr) as ([|c r] & E).
  - apply Nat.ltb_lt in L. rewrite E, app_nil_r in L. lia.
  - exists c, r. split; [exact E|]. rewrite E in H. rewrite firstn_app in H.
    replace (S (length o) - length o)%nat with 1%nat in H by lia. rewrite firstn_all2 in H by lia. exact H.
Qed.

Lemma prefix_refl : forall a s, prefix a (a ++ s) = true.
Proof. induction a as [|c a IH]; intro s; [reflexivity|]. cbn. rewrite N.eqb_refl. apply IH. Qed.

Lemma prefix_common : forall a b s, prefix a s = true -> prefix b s = true -> (length a <= length b)%nat -> prefix a b = true.
Proof.
  induction a as [|c a IH]; intros b s A B L; [reflexivity|]. destruct b as [|d b]; [cbn in L; lia|].
  destruct s as [|x s]; [discriminate|]. cbn [prefix length] in *.
  apply andb_prop in A, B. destruct A as [A1 A2], B as [B1 B2]. apply N.eqb_eq in A1, B1. subst.
  rewrite N.eqb_refl. apply (IH b s A2 B2). lia.
Qed.

Lemma longest_extends : forall o t s, In (o, t) operators -> extends o s = false -> longest o s = true.
Proof.
  intros o t s I E. unfold longest. apply forallb_forall. intros q Q. apply negb_true_iff.
  apply not_true_is_false. intro H. apply andb_prop in H. destruct H as [P L]. apply Nat.ltb_lt in L.
  assert (Pr : prefix o (fst q) = true) by (apply (prefix_common _ _ (o ++ s)); [apply prefix_refl|exact P|lia]).
  destruct (operators_chain _ _ _ I Q Pr L) as (c & r & Eq & X).
  destruct (prefix_app _ _ P) as (z & Z). rewrite Eq, <- app_assoc in Z. apply app_inv_head in Z.
  subst s. cbn [app extends] in E. congruence.
Qed.

Lemma operator_glued : forall p o t b, In (o, t) operators ->
  token_show t = o /\ glued p t b = extends o (follow t b) /\ wordy t = false.
Proof.
  intros p o t b O. unfold operators in O. cbn [In] in O.
  repeat (destruct O as [O|O]; [injection O as <- <-; split; [reflexivity|split; reflexivity]|]). destruct O.
Qed.

Lemma punct_show : forall c t, simple_punct c = Some t -> useless t = false -> token_show t = [c] /\ wordy t = false.
Proof.
  intros c t C U. unfold simple_punct in C.
  repeat match type of C with (if ?b then _ else _) = _ => let X := fresh "X" in destruct b eqn:X;
    [injection C as <-; try discriminate U; apply N.eqb_eq in X; subst c; split; reflexivity|clear X] end.
  discriminate.
Qed.

Definition heads_word (ts : list token) : bool := match ts with t :: _ => word_right t | [] => false end.

Lemma word_right_wordy : forall t, readable t -> word_right t = wordy t.
Proof.
  intros t R. destruct R as [w s Ne O St| |c t C|o t O| | |q b Q B|b B|b|b B|b g i B H]; try reflexivity.
  - pose proof (word_token_wordy w) as W. rewrite W. destruct (word_token w); try discriminate W; reflexivity.
  - unfold simple_punct in C.
    repeat match type of C with (if ?b then _ else _) = _ => destruct b; [injection C as <-; reflexivity|] end.
    discriminate.
  - unfold operators in O. cbn [In] in O.
    repeat (destruct O as [O|O]; [injection O as <- <-; reflexivity|]). destruct O.
Qed.

(** One step of the reading: the token [a] with the pending word [w], before the text [x]. *)
Lemma reads_one : forall p a b v w x,
  readable a -> useless a = false -> glued p a b = false -> hd_error (follow a b) = hd_error x ->
  slash_ok a (flush w v) ->
  (a = TOperation Divide \/ a = TOperation DivideEqual -> regex_here (flush w v) = false \/ open_line x []) ->
  (if wordy a then w = [] else w = word_text p) ->
  exists v1 w1, reads v w (token_show a ++ x) v1 w1 x /\ flush w1 v1 = a :: flush w v
    /\ w1 = word_text (Some a).
Proof.
  intros p a b v w x R U G H S D W.
  destruct R as [u s Ne O St| |c t C|o t O| | |q bd Q B|bd B|bd|bd B|bd g i B Hd].
  - (* a word *)
    rewrite word_token_wordy in W. subst w.
    destruct (word_show u s Ne O St) as (Ne' & T & Wl & In' & La).
    set (t := word_token u) in *. set (y := token_show t) in *.
    exists v, y. split; [|split].
    + apply (reads_word y [] v x). cbn [app]. split; [exact Wl|]. intros a' b' E.
      destruct b' as [|c b'].
      * cbn [app]. pose proof (La a' E) as F.
        assert (GG : ends_with_dot y && negb (dot_joins (removelast y) (follow t b)) = false).
        { unfold glued in G. rewrite F in G at 1. apply orb_false_iff in G. destruct G as [_ G]. exact G. }
        rewrite E, ends_with_dot_snoc, removelast_last in GG. cbn [andb] in GG. apply negb_false_iff in GG.
        rewrite <- GG. symmetry. now apply dot_joins_hd.
      * rewrite <- (In' a' (c :: b') E) by discriminate. apply dot_joins_hd. reflexivity.
    + destruct y; [congruence|]. cbn [flush]. rewrite T. reflexivity.
    + cbn [word_text]. unfold t. rewrite word_token_wordy. reflexivity.
  - (* dot *)
    exists (TChar Dot :: flush w v), []. split; [|split; reflexivity].
    eapply reads_more; [|constructor]. apply rd_dot. cbn [wordy] in W. subst w.
    rewrite <- (dot_joins_hd _ _ _ H). exact G.
  - destruct (punct_show _ _ C U) as [E Wf]. exists (t :: flush w v), []. split; [|split; [reflexivity|]].
    + rewrite E. eapply reads_more; [|constructor]. now apply rd_punct.
    + cbn. rewrite Wf. reflexivity.
  - destruct (operator_glued p o t b O) as (E & X & Wf). exists (t :: flush w v), []. split; [|split; [reflexivity|]].
    + rewrite E. eapply reads_more; [|constructor]. apply rd_operator; [exact O|].
      apply (longest_extends o t); [exact O|]. rewrite <- (extends_hd _ _ _ H), <- X. exact G.
    + cbn. rewrite Wf. reflexivity.
  - exists (TOperation Divide :: flush w v), []. split; [|split; reflexivity].
    eapply reads_more; [|constructor].
    assert (X : forall c, hd_error x = Some c -> mem_char c (S_ "/*=") = false).
    { intros c E. apply (starts_false (fun c => mem_char c (S_ "/*=")) x); [|exact E].
      rewrite <- (starts_hd _ _ _ H). exact G. }
    destruct (regex_here (flush w v)) eqn:Rh; [|apply rd_divide; auto].
    destruct x as [|c x]; [apply rd_divide; auto|].
    destruct (D (or_introl eq_refl)) as [D'|D']; [discriminate|].
    rewrite <- (app_nil_r (c :: x)). apply (rd_open v w (c :: x) []); [exact Rh|exact D'|].
    exists c. split; [reflexivity|]. apply X. reflexivity.
  - exists (TOperation DivideEqual :: flush w v), []. split; [|split; reflexivity].
    eapply reads_more; [|constructor].
    destruct (regex_here (flush w v)) eqn:Rh; [|apply (rd_divide_equal v w x); exact Rh].
    destruct (D (or_intror eq_refl)) as [D'|D']; [discriminate|].
    rewrite <- (app_nil_r x). apply (rd_open_equal v w x []); [exact Rh|exact D'].
  - exists (TString (q :: bd ++ [q]) :: flush w v), []. split; [|split; reflexivity].
    eapply reads_more; [|constructor]. unfold token_show. cbn [token_chunks concat]. rewrite app_nil_r. norm.
    now apply (rd_string v w q bd x).
  - exists (TString (0x60 :: bd ++ [0x60]) :: flush w v), []. split; [|split; reflexivity].
    eapply reads_more; [|constructor]. unfold token_show. cbn [token_chunks concat]. rewrite app_nil_r. norm.
    now apply (rd_template v w bd x).
  - discriminate U.
  - exists (TLicense bd :: flush w v), []. split; [|split; reflexivity].
    eapply reads_more; [|constructor]. unfold token_show. cbn [token_chunks concat]. rewrite app_nil_r. norm.
    now apply (rd_license v w bd x).
  - exists (TRegex bd g i :: flush w v), []. split; [|split; reflexivity].
    set (f := (if g then S_ "g" else []) ++ (if i then S_ "i" else [])).
    assert (Eg : mem_char 0x67 f = g /\ mem_char 0x69 f = i /\ Forall (fun c => flag c = true) f).
    { unfold f. destruct g, i; (split; [reflexivity|]); (split; [reflexivity|]); repeat constructor. }
    destruct Eg as (Eg & Ei & Ff). eapply reads_more; [|constructor].
    replace (token_show (TRegex bd g i) ++ x) with (0x2F :: bd ++ 0x2F :: f ++ x).
    2:{ unfold token_show, f. cbn [token_chunks]. destruct g, i; cbn; norm; reflexivity. }
    rewrite <- Eg, <- Ei at 1. apply (rd_regex v w bd f x); try assumption.
    intros c E. apply (starts_false flag x); [|exact E]. rewrite <- (starts_hd _ _ _ H). exact G.
Qed.

Lemma separator_cases : forall a b, separator a b = [] \/ (separator a b = [0x20] /\ word_right b = true).
Proof.
  intros a b. unfold separator. destruct (word_left a && word_right b || is_in b && negb (char_or_string a)) eqn:E; [|auto].
  right. split; [reflexivity|]. apply orb_prop in E. destruct E as [E|E]; apply andb_prop in E; destruct E as [E F]; [exact F|].
  destruct b; try discriminate E. reflexivity.
Qed.

(** Without a separator a word is not followed by another one. *)
Lemma no_separator : forall p a b, wordy a = true -> glued p a (Some b) = false -> separator a b = [] -> word_right b = false.
Proof.
  intros p a b W G S. destruct (word_right b) eqn:Wr; [exfalso|reflexivity].
  unfold separator in S. rewrite Wr, andb_true_r in S.
  destruct a; try discriminate W; try discriminate S; cbn [word_left char_or_string negb orb] in S;
    cbn [glued] in G; rewrite Wr in G; destruct (is_in b); try discriminate S; discriminate G.
Qed.

(** The text behind a slash that is not stray. *)
Lemma quiet_joined : forall r, quiet_text r = true ->
  Forall (fun c => newline c = false /\ mem_char c [0x2F; 0x2E; 0x60; 0x5C] = false) (joined r).
Proof.
  induction r as [|a r IH]; intro Q; [constructor|]. cbn [quiet_text forallb] in Q. apply andb_prop in Q.
  destruct Q as [A Q]. specialize (IH Q). cbn [joined]. apply Forall_app. split.
  - rewrite forallb_forall in A. apply Forall_forall. intros c I. specialize (A c I). apply andb_prop in A.
    destruct A as [X Y]. now apply negb_true_iff in X, Y.
  - destruct r as [|b r]; [constructor|]. apply Forall_app. split; [|exact IH].
    destruct (separator_cases a b) as [-> | [-> _]]; repeat constructor.
Qed.

Lemma quiet_open : forall a r, quiet_text r = true ->
  open_line (match r with [] => [] | b :: _ => separator a b ++ joined r end) [].
Proof.
  intros a r Q. split; [|auto]. destruct r as [|b r]; [constructor|]. apply Forall_app.
  split; [|exact (quiet_joined _ Q)]. destruct (separator_cases a b) as [-> | [-> _]]; repeat constructor.
Qed.

Lemma reads_joined : forall ts u v w,
  Forall readable ts -> Forall (fun t => useless t = false) ts -> placed (flush w v) ts ->
  regex_here u = regex_here (flush w v) -> apart u ts = true ->
  (if heads_word ts then w = [] else w = word_text (hd_error u)) ->
  exists v' w', reads v w (joined ts) v' w' [] /\ flush w' v' = rev (spaced ts) ++ flush w v.
Proof.
  induction ts as [|a r IH]; intros u v w R U P Hu A W.
  - exists v, w. split; [constructor|reflexivity].
  - inversion R as [|x y Ra Rr]; inversion U as [|x' y' Ua Ur]; subst. destruct P as [Pa Pr].
    cbn [apart] in A. apply andb_prop in A. destruct A as [G A]. apply andb_prop in G. destruct G as [G St].
    apply negb_true_iff in G, St.
    set (x := match r with [] => [] | b :: _ => separator a b ++ joined r end).
    assert (H : hd_error (follow a (hd_error r)) = hd_error x) by now apply follow_hd.
    assert (W' : if wordy a then w = [] else w = word_text (hd_error u)).
    { cbn [heads_word] in W. rewrite (word_right_wordy a Ra) in W. exact W. }
    assert (D : a = TOperation Divide \/ a = TOperation DivideEqual ->
      regex_here (flush w v) = false \/ open_line x []).
    { intro E. assert (St' : regex_here u && negb (quiet_text r) = false) by (destruct E as [-> | ->]; exact St).
      rewrite Hu in St'. apply andb_false_iff in St'. destruct St' as [St'|St']; [left; exact St'|right].
      apply negb_false_iff in St'. now apply quiet_open. }
    destruct (reads_one (hd_error u) a (hd_error r) v w x Ra Ua G H Pa D W') as (v1 & w1 & R1 & F1 & W1).
    change (joined (a :: r)) with (token_show a ++ x).
    destruct r as [|b r].
    + exists v1, w1. split; [exact R1|]. rewrite F1. reflexivity.
    + assert (Hu' : regex_here (a :: u) = regex_here (flush w1 v1)).
      { rewrite F1. exact (regex_here_app [a] u (flush w v) Hu). }
      rewrite <- F1 in Pr. cbn [hd_error] in G. destruct (separator_cases a b) as [E|[E Wr]].
      * destruct (IH (a :: u) v1 w1 Rr Ur Pr Hu' A) as (v' & w' & R2 & F2).
        { cbn [heads_word]. destruct (word_right b) eqn:Wb; [|exact W1].
          rewrite W1. cbn [word_text]. destruct (wordy a) eqn:Wa; [|reflexivity].
          rewrite (no_separator (hd_error u) a b Wa G E) in Wb. discriminate. }
        exists v', w'. split.
        -- eapply reads_trans; [exact R1|]. subst x. rewrite E. exact R2.
        -- rewrite F2, F1. change (spaced (a :: b :: r)) with (a :: (match separator a b with [] => [] | _ => [TChar Space] end) ++ spaced (b :: r)).
           rewrite E. cbn [app]. change (rev (a :: spaced (b :: r))) with (rev (spaced (b :: r)) ++ [a]).
           rewrite <- app_assoc. reflexivity.
      * destruct (IH (a :: u) (TChar Space :: flush w1 v1) [] Rr Ur) as (v' & w' & R2 & F2).
        { cbn [flush]. apply (placed_ext (b :: r) (flush w1 v1)); [reflexivity|exact Pr]. }
        { rewrite Hu'. reflexivity. }
        { exact A. }
        { cbn [heads_word]. rewrite Wr. reflexivity. }
        exists v', w'. split.
        -- eapply reads_trans; [exact R1|]. subst x. rewrite E. cbn [app]. eapply reads_more; [|exact R2].
           now apply rd_punct.
        -- rewrite F2. cbn [flush]. rewrite F1. change (spaced (a :: b :: r)) with (a :: (match separator a b with [] => [] | _ => [TChar Space] end) ++ spaced (b :: r)).
           rewrite E. change (rev (a :: [TChar Space] ++ spaced (b :: r))) with ((rev (spaced (b :: r)) ++ [TChar Space]) ++ [a]).
           rewrite <- !app_assoc. reflexivity.
Qed.

(** ** The round trip *)

Theorem joined_lexes : forall ts,
  Forall readable ts -> Forall (fun t => useless t = false) ts -> placed [] ts -> apart [] ts = true ->
  lexes (joined ts) (spaced ts).
Proof.
  intros ts R U P A. destruct (reads_joined ts [] [] [] R U P eq_refl A) as (v & w & X & F).
  - destruct (heads_word ts); reflexivity.
  - exists v, w. split; [exact X|]. rewrite F. cbn [flush]. rewrite app_nil_r, rev_involutive. reflexivity.
Qed.

Lemma filter_spaced : forall ts, Forall (fun t => useless t = false) ts ->
  filter (fun t => negb (useless t)) (spaced ts) = ts.
Proof.
  induction ts as [|a r IH]; intro U; [reflexivity|]. inversion U as [|x y Ua Ur]; subst.
  destruct r as [|b r]; [cbn; rewrite Ua; reflexivity|].
  change (spaced (a :: b :: r)) with (a :: (match separator a b with [] => [] | _ => [TChar Space] end) ++ spaced (b :: r)).
  cbn [filter]. rewrite Ua. cbn [negb]. f_equal. rewrite filter_app, (IH Ur).
  destruct (separator a b); reflexivity.
Qed.

Theorem clean_spaced : forall ts, Forall (fun t => useless t = false) ts -> hd_error ts <> Some (TChar SemiColon) ->
  clean_tokens (spaced ts) = Ok ts.
Proof.
  intros ts U H. rewrite clean_tokens_eq, (filter_spaced ts U). f_equal.
  destruct ts as [|t r]; [reflexivity|]. cbn [drop_semicolons].
  destruct (eq_char SemiColon t) eqn:E; [|reflexivity]. apply eq_char_eq in E. subst t. cbn in H. congruence.
Qed.

Theorem round_trip : forall s ts0 ts, lexes s ts0 -> clean_tokens ts0 = Ok ts -> apart [] ts = true ->
  js_minify s = Ok (joined ts) /\ lexes (joined ts) (spaced ts) /\ clean_tokens (spaced ts) = Ok ts
  /\ js_minify (joined ts) = Ok (joined ts).
Proof.
  intros s ts0 ts L C A. destruct (cleaned_known s ts0 ts L C) as (R & U & P & H).
  pose proof (joined_lexes ts R U P A) as L2. pose proof (clean_spaced ts U H) as C2.
  assert (M : forall s' ts', lexes s' ts' -> clean_tokens ts' = Ok ts -> js_minify s' = Ok (joined ts)).
  { intros s' ts' L' C'. unfold js_minify, js_minify_tokens. rewrite (lexes_tokenize s' ts' L'). cbn [obind].
    rewrite C'. cbn [obind]. rewrite tokens_show_joined. reflexivity. }
  split; [eauto|]. split; [exact L2|]. split; [exact C2|]. eauto.
Qed.
