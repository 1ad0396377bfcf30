(** The tokens of a continued text. *)
From Coq Require Import String Arith List NArith ZArith Bool Lia ZifyBool ZifyN.
From Verif Require Import Base CssSpec CssGapSpec CssSyntaxSpec CssSyntaxProofs1.
Import ListNotations.
Open Scope N_scope.

(** ** Each token takes something from the front of the text *)

Definition sfx (s r : str) : Prop := exists a, s = a ++ r.

Lemma sfx_refl : forall s, sfx s s.
Proof. intro s. exists []. reflexivity. Qed.
Lemma sfx_nil : forall s, sfx s [].
Proof. intro s. exists s. now rewrite app_nil_r. Qed.
Lemma sfx_trans : forall s r q, sfx s r -> sfx r q -> sfx s q.
Proof. intros s r q [a ->] [b ->]. exists (a ++ b). apply app_assoc. Qed.
Lemma sfx_cons : forall c s r, sfx s r -> sfx (c :: s) r.
Proof. intros c s r [a ->]. exists (c :: a). reflexivity. Qed.
Lemma sfx_tl : forall s, sfx s (tl s).
Proof. intros [|c s]; [apply sfx_refl|]. apply sfx_cons, sfx_refl. Qed.
Lemma sfx_length : forall s r, sfx s r -> (length r <= length s)%nat.
Proof. intros s r [a ->]. rewrite app_length. lia. Qed.
Local Hint Resolve sfx_refl sfx_nil sfx_cons sfx_tl : sfx.

Lemma skip_white_sfx : forall s, sfx s (skip_white s).
Proof. induction s as [|c s IH]; [apply sfx_refl|]. cbn [skip_white]. destruct (white c); auto with sfx. Qed.

Lemma comment_sfx : forall s, sfx s (snd (take_comment s)).
Proof.
  induction s as [|c s IH]; [apply sfx_nil|]. cbn [take_comment]. destruct s as [|d s]; [apply sfx_nil|].
  destruct ((c =? 0x2A) && (d =? 0x2F)); cbn [snd]; auto with sfx.
Qed.

Lemma string_sfx : forall n q s a, sfx s (snd (take_string n q s a)).
Proof.
  induction n as [|n IH]; intros q s a; [apply sfx_nil|]. destruct s as [|c s]; [apply sfx_nil|]. cbn [take_string].
  destruct (c =? q); [cbn; auto with sfx|]. destruct (newline c); [cbn; auto with sfx|]. destruct (c =? 0x5C); [|auto with sfx].
  destruct s as [|d s]; [apply sfx_nil|]. destruct (newline d).
  - apply sfx_cons. eapply sfx_trans; [exact (eat_white_suffix (d :: s))|apply IH].
  - pose proof (take_escape_suffix (d :: s)) as K. destruct (take_escape (d :: s)) as [[x e] r]. cbn [snd] in K.
    apply sfx_cons. eapply sfx_trans; [exact K|apply IH].
Qed.

Lemma bad_url_sfx : forall n s, sfx s (after_bad_url n s).
Proof.
  induction n as [|n IH]; intros s; [apply sfx_nil|]. destruct s as [|c s]; [apply sfx_nil|]. cbn [after_bad_url].
  destruct (c =? 0x29); [auto with sfx|]. destruct (valid_escape (c :: s)); [|auto with sfx].
  apply sfx_cons. eapply sfx_trans; [exact (take_escape_suffix s)|apply IH].
Qed.

Lemma url_sfx : forall n s a, sfx s (snd (take_url n s a)).
Proof.
  induction n as [|n IH]; intros s a; [apply sfx_nil|]. destruct s as [|c s]; [apply sfx_nil|]. cbn [take_url].
  destruct (c =? 0x29); [cbn; auto with sfx|]. destruct (white c).
  - pose proof (skip_white_sfx s) as K. destruct (skip_white s) as [|d r]; [apply sfx_nil|]. destruct (d =? 0x29); cbn [snd].
    + apply sfx_cons. eapply sfx_trans; [exact K|auto with sfx].
    + apply sfx_cons. eapply sfx_trans; [exact K|apply bad_url_sfx].
  - destruct (quote c || (c =? 0x28) || non_printable c); [cbn [snd]; apply sfx_cons, bad_url_sfx|].
    destruct (c =? 0x5C); [|auto with sfx]. destruct (valid_escape (c :: s)); [|cbn [snd]; apply sfx_cons, bad_url_sfx].
    pose proof (take_escape_suffix s) as K. destruct (take_escape s) as [[x e] r]. cbn [snd] in K.
    apply sfx_cons. eapply sfx_trans; [exact K|apply IH].
Qed.

Lemma name_sfx : forall n c s, name_char c = true \/ valid_escape (c :: s) = true -> (0 < n)%nat -> sfx s (snd (take_name n (c :: s))).
Proof.
  intros [|n] c s H L; [lia|]. cbn [take_name]. destruct (name_char c).
  - pose proof (take_name_suffix n s) as K. destruct (take_name n s) as [[v e] x]. exact K.
  - destruct H as [H|H]; [discriminate H|]. rewrite H. pose proof (take_escape_suffix s) as K.
    destruct (take_escape s) as [[d e] x]. pose proof (take_name_suffix n x) as K2. destruct (take_name n x) as [[v e'] x'].
    cbn [snd] in *. eapply sfx_trans; eassumption.
Qed.

Lemma starts_name_char : forall c s, starts_name (c :: s) = true -> name_char c = true \/ valid_escape (c :: s) = true.
Proof.
  intros c s H. cbn [starts_name] in H. destruct (N.eqb_spec c 0x2D) as [->|C]; [left; reflexivity|].
  apply orb_true_iff in H. destruct H as [H|H]; [left; now apply start_name|now right].
Qed.

Lemma ident_sfx : forall c s, name_char c = true \/ valid_escape (c :: s) = true -> sfx s (snd (take_ident_like (c :: s))).
Proof.
  intros c s H. unfold take_ident_like. pose proof (name_sfx (length (c :: s)) c s H ltac:(cbn; lia)) as K.
  destruct (take_name (length (c :: s)) (c :: s)) as [[v e] r]. cbn [snd] in K. destruct r as [|x r]; [exact K|].
  destruct (x =? 0x28); [|exact K]. destruct (is_url v && _).
  - pose proof (url_sfx (length r) (skip_white r) []) as U. destruct (take_url (length r) (skip_white r) []) as [[t e'] y].
    cbn [snd] in *. eapply sfx_trans; [exact K|]. apply sfx_cons. eapply sfx_trans; [apply skip_white_sfx|exact U].
  - cbn [snd]. eapply sfx_trans; [exact K|]. auto with sfx.
Qed.

Lemma digits_sfx : forall c s, digit c = true -> sfx s (snd (take_digits (c :: s))).
Proof. intros c s H. cbn [take_digits]. rewrite H. exact (take_digits_suffix s). Qed.

Lemma fraction_sfx : forall s, sfx s (snd (take_fraction s)).
Proof.
  intro s. unfold take_fraction. destruct (starts_dot_digit s); [|apply sfx_refl]. cbn [snd].
  eapply sfx_trans; [apply sfx_tl|apply take_digits_suffix].
Qed.

Lemma exponent_sfx : forall s, sfx s (snd (take_exponent s)).
Proof.
  intros [|x s]; [apply sfx_refl|]. cbn [take_exponent].
  destruct (((x =? 0x65) || (x =? 0x45)) && starts_digit (snd (take_sign s))); [|apply sfx_refl]. cbn [snd]. apply sfx_cons.
  eapply sfx_trans; [|apply take_digits_suffix]. destruct s as [|y s]; [apply sfx_refl|]. cbn [take_sign].
  destruct ((y =? 0x2B) || (y =? 0x2D)); cbn [snd]; auto with sfx.
Qed.

Lemma number_sfx : forall c s, starts_number (c :: s) = true -> sfx s (snd (take_number (c :: s))).
Proof.
  intros c s H. pose proof (take_number_suffix (c :: s)) as [a E]. destruct a as [|x a]; [|exists a; cbn [app] in E; congruence].
  exfalso. cbn [app] in E. clear -H E. revert H E. unfold take_number, starts_number. cbn [take_sign starts_digit starts_dot_digit].
  destruct ((c =? 0x2B) || (c =? 0x2D)) eqn:Sg.
  - intros _ E. destruct (take_digits_suffix s) as [a1 E1]. destruct (take_digits s) as [b s2]. cbn [snd] in E1.
    pose proof (fraction_sfx s2) as S3.
    destruct (take_fraction s2) as [d s3]. cbn [snd] in S3.
    pose proof (exponent_sfx s3) as S4.
    destruct (take_exponent s3) as [f s4]. cbn [snd] in *. apply sfx_length in S3, S4. apply (f_equal (@length N)) in E, E1.
    rewrite ?app_length in E1. cbn [length] in E. lia.
  - cbn [andb]. rewrite orb_false_r. intros H E. cbn [take_digits] in E. destruct (digit c) eqn:D.
    + destruct (take_digits_suffix s) as [a1 E1]. cbn [fst snd] in E.
      set (s2 := snd (take_digits s)) in *.
      pose proof (fraction_sfx s2) as S3.
      destruct (take_fraction s2) as [d s3]. cbn [snd] in S3.
      pose proof (exponent_sfx s3) as S4.
      destruct (take_exponent s3) as [f s4]. cbn [snd] in *. apply sfx_length in S3, S4. apply (f_equal (@length N)) in E, E1.
      rewrite ?app_length in E1. cbn [length] in E. lia.
    + cbn [orb] in H. unfold take_fraction in E. cbn [starts_dot_digit] in E. rewrite H in E. cbn [tl] in E.
      pose proof (take_digits_suffix s) as S3. set (s3 := snd (take_digits s)) in *. change (sfx s s3) in S3.
      pose proof (exponent_sfx s3) as S4.
      destruct (take_exponent s3) as [f s4]. cbn [snd] in *. apply sfx_length in S3, S4. apply (f_equal (@length N)) in E.
      cbn [length] in E. lia.
Qed.

Lemma numeric_sfx : forall c s, starts_number (c :: s) = true -> sfx s (snd (take_numeric (c :: s))).
Proof.
  intros c s H. unfold take_numeric. pose proof (number_sfx c s H) as K. destruct (take_number (c :: s)) as [x r]. cbn [snd] in K.
  destruct (starts_name r).
  - pose proof (take_name_suffix (length r) r) as U. destruct (take_name (length r) r) as [[u e] z]. cbn [snd] in *.
    eapply sfx_trans; [exact K|exact U].
  - destruct r as [|y r]; [exact K|]. destruct (y =? 0x25); [|exact K]. cbn [snd]. eapply sfx_trans; [exact K|auto with sfx].
Qed.

Lemma consume_sfx : forall c s, sfx s (snd (consume (c :: s))).
Proof.
  intros c s. unfold consume. destruct (white c); [cbn [snd]; apply skip_white_sfx|].
  destruct ((c =? 0x2F) && _); [eapply sfx_trans; [apply sfx_tl|apply comment_sfx]|].
  destruct (quote c); [apply string_sfx|]. destruct (c =? 0x23).
  { destruct (_ || _); [|cbn; auto with sfx]. pose proof (take_name_suffix (length s) s) as K. destruct (take_name (length s) s) as [[v e] x]. exact K. }
  destruct ((c =? 0x2B) || (c =? 0x2E)).
  { destruct (starts_number (c :: s)) eqn:G; [now apply numeric_sfx|cbn; auto with sfx]. }
  destruct (N.eqb_spec c 0x2D) as [->|C3].
  { destruct (starts_number (0x2D :: s)) eqn:G; [now apply numeric_sfx|]. match goal with |- context [if ?b then (CCdc, _, _) else _] => destruct b end.
    - cbn [snd]. eapply sfx_trans; [apply sfx_tl|apply sfx_tl].
    - destruct (starts_name (0x2D :: s)); [|cbn; auto with sfx]. apply ident_sfx. left. reflexivity. }
  destruct (c =? 0x3C).
  { match goal with |- context [if ?b then (CCdo, _, _) else _] => destruct b end; [|cbn; auto with sfx]. cbn [snd]. eapply sfx_trans; [apply sfx_tl|]. eapply sfx_trans; apply sfx_tl. }
  destruct (c =? 0x40).
  { destruct (starts_name s); [|cbn; auto with sfx]. pose proof (take_name_suffix (length s) s) as K.
    destruct (take_name (length s) s) as [[v e] x]. exact K. }
  destruct (c =? 0x5C) eqn:C5.
  { destruct (valid_escape (c :: s)) eqn:V; [|cbn; auto with sfx]. apply ident_sfx. now right. }
  destruct (digit c) eqn:D.
  { apply numeric_sfx. unfold starts_number. cbn [starts_digit]. rewrite D. reflexivity. }
  destruct (name_start c) eqn:G; [|cbn; auto with sfx]. apply ident_sfx. left. now apply start_name.
Qed.

(** ** All tokens *)

Lemma tokens_fuel : forall n m s, (length s <= n)%nat -> (length s <= m)%nat -> tokens_of n s = tokens_of m s.
Proof.
  induction n as [|n IH]; intros [|m] [|c s] A B; cbn [length] in *; try lia; try reflexivity.
  cbn [tokens_of]. pose proof (consume_sfx c s) as K. destruct (consume (c :: s)) as [[t e] r]. apply sfx_length in K. cbn [snd] in K.
  f_equal. apply IH; lia.
Qed.

Lemma css_tokens_cons : forall c s, css_tokens (c :: s) =
  let '(t, e, r) := consume (c :: s) in (t, e) :: css_tokens r.
Proof.
  intros c s. unfold css_tokens at 1. cbn [length tokens_of]. pose proof (consume_sfx c s) as K.
  destruct (consume (c :: s)) as [[t e] r]. apply sfx_length in K. cbn [snd] in K. f_equal. apply tokens_fuel; lia.
Qed.

(** The tokens of a text stay when the text is continued where the last token ends. *)
Lemma tokens_app : forall n u v, (length u <= n)%nat -> u <> [] -> error_free u -> ext u v -> runs_on (last_token u) v = false ->
  css_tokens (u ++ v) = css_tokens u ++ css_tokens v.
Proof.
  induction n as [|n IH]; intros u v L N F H R; [destruct u; [congruence|cbn in L; lia]|].
  destruct u as [|c u]; [congruence|]. unfold error_free, last_token in F, R. rewrite css_tokens_cons in F, R. rewrite (css_tokens_cons c u).
  cbn [app]. rewrite (css_tokens_cons c (u ++ v)). pose proof (consume_sfx c u) as K.
  pose proof (consume_ext (c :: u) v) as X. destruct (consume (c :: u)) as [[t e] r]. cbn [snd] in K.
  inversion F as [|? ? F1 F2]. cbn [snd] in F1. subst e.
  cbn [app] in X. rewrite (X t r H ltac:(discriminate) eq_refl).
  - cbn [app]. f_equal. destruct r as [|d r]; [reflexivity|]. pose proof (sfx_length _ _ K) as Lr. cbn [length] in *.
    apply (IH (d :: r)); [cbn [length]; lia|discriminate|exact F2| |].
    + destruct K as [a K]. subst u. exact (ext_suffix (c :: a) (d :: r) v H ltac:(discriminate)).
    + unfold last_token. cbn [map] in R. rewrite css_tokens_cons in *. destruct (consume (d :: r)) as [[t' e'] r']. exact R.
  - intros ->. exact R.
Qed.

Lemma tokens_app' : forall u v, u <> [] -> error_free u -> ext u v -> runs_on (last_token u) v = false ->
  css_tokens (u ++ v) = css_tokens u ++ css_tokens v.
Proof. intros u v. apply (tokens_app (length u)). apply le_n. Qed.

(** ** A plus sign at the end of a text is a token of its own *)

Lemma comment_last : forall s t, take_comment s = (t, false, []) -> exists a, s = a ++ [0x2F].
Proof.
  induction s as [|c s IH]; intros t H; [discriminate H|]. destruct s as [|d s]; [discriminate H|]. cbn [take_comment] in *.
  destruct ((c =? 0x2A) && (d =? 0x2F)) eqn:E.
  - injection H as <- ->. apply andb_true_iff in E. destruct E as [_ E]. apply N.eqb_eq in E. subst d. exists [c]. reflexivity.
  - destruct (IH t H) as [a Ea]. exists (c :: a). cbn [app]. congruence.
Qed.

Lemma sfx_last : forall s r d, sfx s (r ++ [d]) -> exists a, s = a ++ [d].
Proof. intros s r d [a ->]. exists (a ++ r). apply app_assoc. Qed.

Lemma string_last : forall n q s a t, take_string n q s a = (t, false, []) -> exists k, s = k ++ [q].
Proof.
  induction n as [|n IH]; intros q s a t H; [discriminate H|]. destruct s as [|c s]; [discriminate H|]. cbn [take_string] in H.
  destruct (N.eqb_spec c q) as [->|C]; [injection H as <- ->; exists []; reflexivity|]. destruct (newline c); [discriminate H|].
  destruct (c =? 0x5C).
  - destruct s as [|d s]; [discriminate H|]. destruct (newline d).
    + destruct (IH _ _ _ _ H) as [k E]. destruct (eat_white_suffix (d :: s)) as [b Eb]. rewrite E in Eb.
      exists (c :: b ++ k). cbn [app]. rewrite <- app_assoc. congruence.
    + destruct (take_escape_suffix (d :: s)) as [b Eb]. destruct (take_escape (d :: s)) as [[x e] r']. cbn [snd] in Eb.
      destruct (IH _ _ _ _ H) as [k E]. rewrite E in Eb. exists (c :: b ++ k). cbn [app]. rewrite <- app_assoc. congruence.
  - destruct (IH _ _ _ _ H) as [k E]. exists (c :: k). cbn [app]. congruence.
Qed.

Lemma url_last : forall n s a t, take_url n s a = (t, false, []) -> exists k, s = k ++ [0x29].
Proof.
  induction n as [|n IH]; intros s a t H; [discriminate H|]. destruct s as [|c s]; [discriminate H|]. cbn [take_url] in H.
  destruct (N.eqb_spec c 0x29) as [->|C]; [injection H as <- ->; exists []; reflexivity|]. destruct (white c).
  - pose proof (skip_white_sfx s) as [b K]. destruct (skip_white s) as [|d r]; [discriminate H|].
    destruct (N.eqb_spec d 0x29) as [->|D]; [|discriminate H]. injection H as <- ->. exists (c :: b). cbn [app]. congruence.
  - destruct (quote c || (c =? 0x28) || non_printable c); [discriminate H|]. destruct (c =? 0x5C).
    + destruct (valid_escape (c :: s)); [|discriminate H]. destruct (take_escape_suffix s) as [b Eb].
      destruct (take_escape s) as [[x e] r']. cbn [snd] in Eb. destruct (IH _ _ _ H) as [k E]. rewrite E in Eb.
      exists (c :: b ++ k). cbn [app]. rewrite <- app_assoc. congruence.
    + destruct (IH _ _ _ H) as [k E]. exists (c :: k). cbn [app]. congruence.
Qed.

Lemma not_last : forall (s a b : str) x y, s = a ++ [x] -> s = b ++ [y] -> x <> y -> False.
Proof. intros s a b x y -> E N. apply app_inj_tail in E. destruct E as [_ E]. contradiction. Qed.

Definition a_mark : str := [0x61].
Lemma plus_ext : forall s, ~ bs_end s -> ext (s ++ [0x2B]) a_mark.
Proof. intros s B. right. exists s, 0x2B. split; [reflexivity|]. split; [reflexivity|]. split; [exact B|reflexivity]. Qed.
Lemma marked : forall r, ext r a_mark -> r <> [].
Proof. intros r [(S & _)|H] ->; [discriminate S|exact (nil_ext2 _ H)]. Qed.

Lemma name_stays : forall s, ext s a_mark -> snd (take_name (length s) s) <> [].
Proof. intros s H. apply marked. now apply name_rest. Qed.

Lemma ident_stays : forall s k t, ext s a_mark -> s = k ++ [0x2B] -> take_ident_like s <> (t, false, []).
Proof.
  intros s k t H Es E. unfold take_ident_like in E. pose proof (name_stays s H) as N. destruct (take_name_suffix (length s) s) as [b Eb].
  destruct (take_name (length s) s) as [[v e] x]. cbn [snd] in *. destruct x as [|c x]; [congruence|].
  destruct (N.eqb_spec c 0x28) as [->|C]; [|injection E as _ _ E; discriminate E].
  destruct (is_url v && _).
  - destruct (take_url (length x) (skip_white x) []) as [[t' e'] y] eqn:U. injection E as <- E ->. apply orb_false_iff in E.
    destruct E as [_ ->]. apply url_last in U. destruct U as [j U]. destruct (skip_white_sfx x) as [i I]. rewrite U in I.
    eapply (not_last s (b ++ 0x28 :: i ++ j) k 0x29 0x2B); [|exact Es|discriminate].
    rewrite Eb, I. rewrite <- app_assoc. cbn [app]. rewrite <- app_assoc. reflexivity.
  - injection E as _ _ ->. eapply (not_last s b k 0x28 0x2B); [exact Eb|exact Es|discriminate].
Qed.

Lemma numeric_stays : forall s k t, ext s a_mark -> s = k ++ [0x2B] -> starts_number s = true -> take_numeric s <> (t, false, []).
Proof.
  intros s k t H Es G E. unfold take_numeric in E. pose proof (number_rest s _ H G) as N. destruct (take_number_suffix s) as [b Eb].
  destruct (take_number s) as [x r]. cbn [snd] in *. destruct (starts_name r).
  - pose proof (name_stays r N) as K. destruct (take_name (length r) r) as [[u e] z]. cbn [snd] in K. injection E as _ _ ->. congruence.
  - apply marked in N. destruct r as [|c r]; [congruence|]. destruct (N.eqb_spec c 0x25) as [->|C]; [|discriminate E].
    injection E as _ ->. eapply (not_last s b k 0x25 0x2B); [exact Eb|exact Es|discriminate].
Qed.

Lemma last_cons : forall (c d : N) s k, c :: s = k ++ [d] -> s <> [] -> exists k', s = k' ++ [d].
Proof. intros c d s [|x k] E N; cbn [app] in E; injection E as -> E; [subst s; congruence|eauto]. Qed.

Lemma consume_stays : forall c s k t, c :: s = k ++ [0x2B] -> ~ bs_end k -> s <> [] -> consume (c :: s) <> (t, false, []).
Proof.
  intros c s k t Es B N E. assert (H : ext (c :: s) a_mark) by (rewrite Es; now apply plus_ext).
  assert (Hs : ext s a_mark) by exact (ext_cons _ _ _ H N). destruct (last_cons _ _ _ _ Es N) as [k' Ek].
  unfold consume in E. destruct (white c).
  { injection E as _ E. apply skip_white_all in E; [|exact N]. destruct E as (a & d & Ea & W). rewrite Ea in Ek. apply app_inj_tail in Ek.
    destruct Ek as [_ ->]. discriminate W. }
  destruct ((c =? 0x2F) && _).
  { apply comment_last in E. destruct E as [a Ea]. destruct s as [|d s]; [congruence|]. cbn [tl] in Ea. subst s.
    eapply (not_last (d :: a ++ [0x2F]) (d :: a) k' 0x2F 0x2B); [reflexivity|exact Ek|discriminate]. }
  destruct (quote c) eqn:Q.
  { apply string_last in E. destruct E as [a Ea]. eapply (not_last s a k' c 0x2B); [exact Ea|exact Ek|]. intros ->. discriminate Q. }
  destruct (c =? 0x23).
  { destruct (_ || _); [|congruence]. pose proof (name_stays s Hs) as K. destruct (take_name (length s) s) as [[v e] x]. cbn in K. congruence. }
  destruct ((c =? 0x2B) || (c =? 0x2E)).
  { destruct (starts_number (c :: s)) eqn:G; [|congruence]. exact (numeric_stays _ k t H Es G E). }
  destruct (N.eqb_spec c 0x2D) as [->|C3].
  { destruct (starts_number (0x2D :: s)) eqn:G; [exact (numeric_stays _ k t H Es G E)|].
    destruct s as [|d [|f s]]; [congruence| |].
    - destruct (starts_name [0x2D; d]); [exact (ident_stays _ k t H Es E)|congruence].
    - destruct (N.eqb_spec d 0x2D) as [->|D]; cbn [andb] in E.
      + destruct (N.eqb_spec f 0x3E) as [->|Ff]; cbn [andb] in E.
        * cbn [tl] in E. injection E as _ ->. destruct k' as [|? [|? [|? ?]]]; discriminate Ek.
        * destruct (starts_name (0x2D :: 0x2D :: f :: s)); [exact (ident_stays _ k t H Es E)|congruence].
      + destruct (starts_name (0x2D :: d :: f :: s)); [exact (ident_stays _ k t H Es E)|congruence]. }
  destruct (c =? 0x3C).
  { destruct s as [|d [|f [|g s]]]; try congruence. destruct ((d =? 0x21) && (f =? 0x2D) && (g =? 0x2D)) eqn:Z; [|congruence].
    cbn [tl] in E. injection E as _ ->. apply andb_true_iff in Z. destruct Z as [_ Z]. apply N.eqb_eq in Z. subst g.
    destruct k' as [|? [|? [|? [|? ?]]]]; discriminate Ek. }
  destruct (c =? 0x40).
  { destruct (starts_name s); [|congruence]. pose proof (name_stays s Hs) as K. destruct (take_name (length s) s) as [[v e] x]. cbn in K. congruence. }
  destruct (c =? 0x5C) eqn:C5.
  { destruct (valid_escape (c :: s)); [|congruence]. exact (ident_stays _ k t H Es E). }
  destruct (digit c) eqn:Dc.
  { assert (G : starts_number (c :: s) = true) by (unfold starts_number; cbn [starts_digit]; rewrite Dc; reflexivity).
    exact (numeric_stays _ k t H Es G E). }
  destruct (name_start c); [exact (ident_stays _ k t H Es E)|congruence].
Qed.

Lemma plus_last : forall n u k, (length u <= n)%nat -> u = k ++ [0x2B] -> ~ bs_end k -> error_free u -> last_token u = CDelim 0x2B.
Proof.
  induction n as [|n IH]; intros u k L E B F; [destruct u; [destruct k; discriminate E|cbn in L; lia]|].
  destruct u as [|c u]; [destruct k; discriminate E|]. unfold error_free in F. unfold last_token. rewrite css_tokens_cons in *.
  pose proof (consume_sfx c u) as K. pose proof (consume_stays c u k) as X. destruct (consume (c :: u)) as [[t e] r] eqn:Ec. cbn [snd] in K.
  inversion F as [|x0 l0 F1 F2]. clear x0 l0 H H0. cbn [snd] in F1. subst e. destruct u as [|d u].
  - assert (c = 0x2B) by (destruct k as [|x [|y k]]; try discriminate E; injection E as ->; reflexivity). subst c.
    vm_compute in Ec. injection Ec as <- <-. reflexivity.
  - destruct r as [|x r]; [exfalso; exact (X t E B ltac:(discriminate) eq_refl)|].
    destruct K as [b Eb]. destruct (last_cons _ _ _ _ E ltac:(discriminate)) as [k' Ek].
    assert (exists j, x :: r = j ++ [0x2B] /\ k = c :: b ++ j) as (j & Ej & Ek2).
    { destruct (exists_last (l := x :: r)) as (j & y & Ej); [discriminate|]. exists j. rewrite Eb, Ej in E.
      change (c :: b ++ j ++ [y]) with ((c :: b) ++ j ++ [y]) in E. rewrite app_assoc in E. apply app_inj_tail in E.
      destruct E as [<- ->]. split; [exact Ej|reflexivity]. }
    assert (Bj : ~ bs_end j) by (intro Z; apply B; rewrite Ek2; exact (bs_suffix (c :: b) j Z)).
    assert (Lr : (length (x :: r) <= n)%nat) by (cbn [length] in L; assert (length (d :: u) = length (b ++ x :: r)) by congruence; rewrite app_length in *; cbn [length] in *; lia).
    specialize (IH (x :: r) j Lr Ej Bj F2). unfold last_token in IH. rewrite css_tokens_cons in *.
    destruct (consume (x :: r)) as [[t' e'] r']. cbn [map last] in *. exact IH.
Qed.
