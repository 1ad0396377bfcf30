(** The round trip of the JS minifier: printed tokens that are not glued are read back. *)
From Coq Require Import String List NArith ZArith Bool Lia ZifyBool ZifyN Arith.
From Verif Require Import Base JsModel JsUtilModel JsUtilSpec JsUtilProofs JsUtilProofs2 JsLexSpec
  JsLexProofs1 JsLexProofs2 JsLexProofs3 JsWords JsLexProofs4 JsRoundSpec.
Import ListNotations.
Open Scope N_scope.

(** ** What is known of the tokens of a source *)

(** A word as it is read before the text [s]. *)
Definition okword (w s : str) : Prop :=
  wordlike w /\ forall a b, w = a ++ 0x2E :: b -> dot_joins a (b ++ s) = true.

Inductive readable : token -> Prop :=
| re_word : forall w s, w <> [] -> okword w s -> starts_with word_char s = false -> readable (word_token w)
| re_dot : readable (TChar Dot)
| re_punct : forall c t, simple_punct c = Some t -> readable t
| re_operator : forall o t, In (o, t) operators -> readable t
| re_divide : readable (TOperation Divide)
| re_divide_equal : readable (TOperation DivideEqual)
| re_string : forall q b, (q = 0x22 \/ q = 0x27) -> string_body q b -> readable (TString (q :: b ++ [q]))
| re_template : forall b, template_body 0 b -> readable (TString (0x60 :: b ++ [0x60]))
| re_comment : forall b, readable (TComment b)
| re_license : forall b, comment_body b = true -> readable (TLicense b)
| re_regex : forall b g i, regex_body b ->
    (exists c, hd_error b = Some c /\ mem_char c (S_ "/*") = false) -> readable (TRegex b g i).

(** Where regular expressions are, [v] being the tokens last first. *)
Definition slash_ok (t : token) (v : list token) : Prop :=
  match t with
  | TRegex _ _ _ => regex_here v = true
  | _ => True
  end.

Fixpoint slashes (v : list token) : Prop :=
  match v with [] => True | t :: r => slash_ok t r /\ slashes r end.

Lemma dot_joins_hd : forall w s s', hd_error s = hd_error s' -> dot_joins w s = dot_joins w s'.
Proof. intros w [|c s] [|c' s'] H; cbn in H; try discriminate; [reflexivity|]. injection H as ->. reflexivity. Qed.

Lemma hd_error_app : forall (a : str) b b', hd_error b = hd_error b' -> hd_error (a ++ b) = hd_error (a ++ b').
Proof. intros [|c a] b b' H; [exact H|reflexivity]. Qed.

Lemma okword_hd : forall w s s', hd_error s = hd_error s' -> okword w s -> okword w s'.
Proof.
  intros w s s' H [A B]. split; [exact A|]. intros a b E. rewrite <- (B a b E).
  apply dot_joins_hd. now apply hd_error_app.
Qed.

Lemma okword_nil : forall s, okword [] s.
Proof. intro s. split; [constructor|]. intros [|x a] b E; discriminate. Qed.

Lemma snoc_split : forall (w : str) (c : N) a d b, w ++ [c] = a ++ d :: b ->
  (a = w /\ d = c /\ b = []) \/ exists b', b = b' ++ [c] /\ w = a ++ d :: b'.
Proof.
  intros w c a d b E. destruct (rev b) as [|x y] eqn:R.
  - left. apply (f_equal (@rev N)) in R. rewrite rev_involutive in R. cbn in R. subst b.
    change (a ++ [d]) with (a ++ [d]) in E. apply app_inj_tail in E. destruct E. subst. auto.
  - right. apply (f_equal (@rev N)) in R. rewrite rev_involutive in R. cbn in R. subst b.
    rewrite app_comm_cons, app_assoc in E. apply app_inj_tail in E. destruct E as [-> ->]. eauto.
Qed.

Lemma okword_char : forall w c s, word_char c = true -> okword w (c :: s) -> okword (w ++ [c]) s.
Proof.
  intros w c s C [A B]. split; [apply Forall_app; split; [exact A|constructor; [auto|constructor]]|].
  intros a b E. destruct (snoc_split _ _ _ _ _ E) as [(_ & X & _)|(b' & -> & ->)].
  - subst c. discriminate C.
  - rewrite <- app_assoc. cbn [app]. now apply B.
Qed.

Lemma okword_dot : forall w s, dot_joins w s = true -> okword w (0x2E :: s) -> okword (w ++ [0x2E]) s.
Proof.
  intros w s D [A B]. split; [apply Forall_app; split; [exact A|constructor; [auto|constructor]]|].
  intros a b E. destruct (snoc_split _ _ _ _ _ E) as [(-> & _ & ->)|(b' & -> & ->)].
  - exact D.
  - rewrite <- app_assoc. cbn [app]. now apply B.
Qed.

Lemma word_token_wordy : forall w, wordy (word_token w) = true.
Proof.
  intro w. unfold word_token. destruct (keyword_of w); [reflexivity|].
  destruct (u64_of w); [reflexivity|]. destruct (f64_ok w); reflexivity.
Qed.

Lemma word_token_slash : forall w v, slash_ok (word_token w) v.
Proof. intros w v. pose proof (word_token_wordy w) as H. destruct (word_token w); try discriminate H; exact I. Qed.

Lemma slashes_flush : forall w v, slashes v -> slashes (flush w v).
Proof. intros [|c w] v H; [exact H|]. cbn [flush slashes]. split; [apply word_token_slash|exact H]. Qed.

Lemma readable_flush : forall w v s, Forall readable v -> okword w s -> starts_with word_char s = false ->
  Forall readable (flush w v).
Proof.
  intros [|c w] v s H O E; [exact H|]. cbn [flush]. constructor; [|exact H].
  eapply re_word; [discriminate|exact O|exact E].
Qed.

Lemma simple_punct_slash : forall c t v, simple_punct c = Some t -> slash_ok t v.
Proof.
  intros c t v C. unfold simple_punct in C.
  repeat match type of C with (if ?b then _ else _) = _ => destruct b; [injection C as <-; exact I|] end.
  discriminate.
Qed.

Lemma operators_slash : forall o t v, In (o, t) operators -> slash_ok t v.
Proof.
  intros o t v O. unfold operators in O. cbn [In] in O.
  repeat (destruct O as [O|O]; [injection O as <- <-; exact I|]). destruct O.
Qed.

Lemma simple_punct_word : forall c t, simple_punct c = Some t -> word_char c = false.
Proof.
  intros c t C. unfold simple_punct in C.
  repeat match type of C with (if ?b then _ else _) = _ => let X := fresh "X" in destruct b eqn:X;
    [try (apply N.eqb_eq in X; subst c; reflexivity)|clear X] end; [|discriminate].
  unfold newline in X. apply orb_prop in X. destruct X as [X|X]; apply N.eqb_eq in X; subst c; reflexivity.
Qed.

Lemma operators_word : forall o t s, In (o, t) operators -> starts_with word_char (o ++ s) = false.
Proof.
  intros o t s O. unfold operators in O. cbn [In] in O.
  repeat (destruct O as [O|O]; [injection O as <- <-; reflexivity|]). destruct O.
Qed.

Definition known (v : list token) (w s : str) : Prop :=
  Forall readable v /\ okword w s /\ slashes v.

Lemma known_step : forall v w s v' w' s', reads_token v w s v' w' s' -> known v w s ->
  known v' w' s'.
Proof.
  intros v w s v' w' s' H (A & B & C).
  assert (PUSH : forall t s0, readable t -> slash_ok t (flush w v) -> starts_with word_char s = false ->
    known (t :: flush w v) [] s0).
  { intros t s0 R P E. split; [constructor; [exact R|exact (readable_flush _ _ _ A B E)]|].
    split; [apply okword_nil|]. split; [exact P|now apply slashes_flush]. }
  destruct H as
    [v w c s Hc
    |v w s Hd
    |v w s Hd
    |v w c t s Hc
    |v w o t s Ho Hl
    |v w s Hr Hh
    |v w s Hr
    |v w q b s Hq Hb
    |v w b s Hb
    |v w b nl s Hb Hnl
    |v w b s Hb Hh
    |v w b s Hb
    |v w b f s Hr Hb Hh Hf Hs'
    |v w l s Hr Ho Hh
    |v w l s Hr Ho].
  - split; [exact A|]. split; [now apply okword_char|exact C].
  - split; [exact A|]. split; [now apply okword_dot|exact C].
  - apply PUSH; [constructor|exact I|reflexivity].
  - apply PUSH; [eapply re_punct; exact Hc|eapply simple_punct_slash; exact Hc|].
    exact (simple_punct_word _ _ Hc).
  - apply PUSH; [eapply re_operator; exact Ho|eapply operators_slash; exact Ho|].
    exact (operators_word _ _ _ Ho).
  - apply PUSH; [constructor|exact I|reflexivity].
  - apply PUSH; [constructor|exact I|reflexivity].
  - apply PUSH; [now constructor|exact I|]. destruct Hq as [-> | ->]; reflexivity.
  - apply PUSH; [now constructor|exact I|reflexivity].
  - apply PUSH; [constructor|exact I|reflexivity].
  - apply PUSH; [constructor|exact I|reflexivity].
  - apply PUSH; [now constructor|exact I|reflexivity].
  - apply PUSH; [now constructor|exact Hr|reflexivity].
  - apply PUSH; [constructor|exact I|reflexivity].
  - apply PUSH; [constructor|exact I|reflexivity].
Qed.

Lemma reads_known : forall v w s v' w' s', reads v w s v' w' s' -> known v w s -> known v' w' s'.
Proof.
  intros v w s v' w' s' H. induction H as [v w s|v w s v1 w1 s1 v2 w2 s2 H R IH]; intro K; [exact K|].
  apply IH. exact (known_step _ _ _ _ _ _ H K).
Qed.

Theorem lexes_known : forall s ts, lexes s ts -> Forall readable ts /\ slashes (rev ts).
Proof.
  intros s ts (v & w & R & ->).
  assert (K : known [] [] s) by (split; [constructor|]; split; [apply okword_nil|exact I]).
  rewrite rev_involutive.
  destruct (reads_known _ _ _ _ _ _ R K) as (A & B & C).
  split; [apply Forall_rev; exact (readable_flush _ _ _ A B eq_refl)|now apply slashes_flush].
Qed.

(** ** Dropping blanks and leading semicolons *)

Definition useful (t : token) : bool := negb (useless t).

Lemma significant_filter : forall v, significant (filter useful v) = significant v.
Proof.
  induction v as [|t r IH]; [reflexivity|]. cbn [filter significant].
  destruct (useful t) eqn:U; cbn [significant].
  - rewrite IH. reflexivity.
  - unfold useful in U. rewrite IH. replace (insignificant t) with true; [reflexivity|].
    destruct t; try discriminate U; [|reflexivity]. destruct c; try discriminate U; reflexivity.
Qed.

Lemma regex_here_filter : forall v, regex_here (filter useful v) = regex_here v.
Proof. intro v. unfold regex_here. rewrite significant_filter. reflexivity. Qed.

Lemma slashes_filter : forall v, slashes v -> slashes (filter useful v).
Proof.
  induction v as [|t r IH]; intros H; [exact I|]. destruct H as [A B]. cbn [filter].
  destruct (useful t); [|auto]. split; [|auto].
  destruct t; try exact I. cbn [slash_ok] in *. rewrite regex_here_filter. exact A.
Qed.

Lemma filter_rev : forall (f : token -> bool) l, filter f (rev l) = rev (filter f l).
Proof.
  intros f l. induction l as [|t r IH]; [reflexivity|]. cbn [rev filter].
  rewrite filter_app, IH. cbn [filter]. destruct (f t); cbn [rev]; [reflexivity|apply app_nil_r].
Qed.

(** In reading order: [v] are the tokens before [ts]. *)
Fixpoint placed (v ts : list token) : Prop :=
  match ts with
  | [] => True
  | t :: r => slash_ok t v /\ placed (t :: v) r
  end.

Lemma slashes_app : forall a b, slashes (a ++ b) -> slashes b.
Proof. induction a as [|t a IH]; intros b H; [exact H|]. apply IH. exact (proj2 H). Qed.

Lemma placed_slashes : forall ts v, slashes (rev ts ++ v) -> placed v ts.
Proof.
  induction ts as [|t r IH]; intros v H; [exact I|]. cbn [rev] in H. rewrite <- app_assoc in H. cbn [app] in H.
  split; [|now apply IH]. apply slashes_app in H. exact (proj1 H).
Qed.

Lemma significant_app : forall a b, significant (a ++ b) = match significant a with Some t => Some t | None => significant b end.
Proof. induction a as [|t a IH]; intro b; cbn [app significant]; [reflexivity|]. destruct (insignificant t); auto. Qed.

Lemma regex_here_app : forall a b b', regex_here b = regex_here b' -> regex_here (a ++ b) = regex_here (a ++ b').
Proof. intros a b b' H. unfold regex_here in *. rewrite !significant_app. destruct (significant a); auto. Qed.

Lemma placed_ext : forall ts v v', regex_here v = regex_here v' -> placed v ts -> placed v' ts.
Proof.
  induction ts as [|t r IH]; intros v v' H P; [exact I|]. destruct P as [A B]. split.
  - destruct t; try exact I. cbn [slash_ok] in *. congruence.
  - apply (IH (t :: v)); [|exact B]. exact (regex_here_app [t] v v' H).
Qed.

Lemma regex_here_semis : forall s, Forall is_semicolon s -> regex_here s = true.
Proof. intros [|t s] H; [reflexivity|]. inversion H as [|x y X Y]; subst. rewrite X. reflexivity. Qed.

Theorem cleaned_known : forall s ts0 ts, lexes s ts0 -> clean_tokens ts0 = Ok ts ->
  Forall readable ts /\ Forall (fun t => useless t = false) ts /\ placed [] ts
  /\ hd_error ts <> Some (TChar SemiColon).
Proof.
  intros s ts0 ts L C. destruct (lexes_known _ _ L) as [R S].
  destruct (clean_tokens_spec ts0) as (semis & rest & E & F & X & Y).
  rewrite C in E. injection E as <-.
  assert (A : Forall readable (semis ++ ts) /\ Forall (fun t => useless t = false) (semis ++ ts)).
  { rewrite <- F. split; apply Forall_forall; intros t I; apply filter_In in I; destruct I as [I U].
    - rewrite Forall_forall in R. now apply R.
    - now apply negb_true_iff. }
  destruct A as [A1 A2]. apply Forall_app in A1, A2.
  split; [apply A1|]. split; [apply A2|]. split; [|exact Y].
  apply (placed_ext _ (rev semis)); [rewrite regex_here_semis; [reflexivity|now apply Forall_rev]|].
  apply placed_slashes. rewrite <- rev_app_distr, <- F.
  change (fun t0 : token => negb (useless t0)) with useful. rewrite <- filter_rev. now apply slashes_filter.
Qed.
