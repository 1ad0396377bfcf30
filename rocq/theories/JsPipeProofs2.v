(** Programs aggregated into an array are read back. *)
From Coq Require Import String List NArith ZArith Bool Lia ZifyBool ZifyN ZifyNat Arith Permutation.
From Verif Require Import Base JsModel JsUtilModel JsUtilSpec JsUtilProofs JsUtilProofs2 JsLexSpec
  JsLexProofs1 JsLexProofs2 JsLexProofs3 JsWords JsLexProofs4 JsRoundSpec JsRoundProofs1 JsRoundProofs2
  JsAggModel JsAggSpec JsAggProofs3 JsArrSpec JsArrProofs1 JsArrProofs3 JsArrProofs4 JsPipeSpec JsPipeProofs.
Import ListNotations.
Open Scope N_scope.

(** ** Names and indices *)
Definition name_char (c : N) : Prop := alnum c = true \/ c = 0x5F \/ c = 0x24.

Lemma name_char_word : forall c, name_char c -> word_char c = true /\ c <> 0x2E.
Proof.
  intros c H. unfold name_char in H. split; [|unfold alnum in H; lia]. unfold word_char. apply negb_true_iff. unfold mem_char. apply not_true_iff_false. intro E.
  apply existsb_exists in E. destruct E as (d & I & E). apply N.eqb_eq in E. subst d.
  unfold punctuation in I. repeat (apply in_app_or in I; destruct I as [I|I]); cbn in I;
    repeat (destruct I as [I|I]; [subst c; unfold alnum in H; lia|]); destruct I.
Qed.

Lemma word_read : forall w, w <> [] -> wordlike w -> ~ In 0x2E w -> tokenize w = Ok [word_token w].
Proof.
  intros w Ne W D. apply lexes_tokenize. exists [], w. split.
  - pose proof (reads_word w [] [] []) as R. rewrite app_nil_r in R. cbn [app] in R. apply R. split; [exact W|]. intros a b E. exfalso. exact (no_dot w a b D E).
  - destruct w; [congruence|reflexivity].
Qed.

Section Name.
Variable name : str.
Hypothesis name_ok : array_name name.

Lemma name_wordlike : wordlike name /\ ~ In 0x2E name.
Proof.
  destruct name_ok as (F & _ & _). split.
  - eapply Forall_impl; [|exact F]. intros c H. left. exact (proj1 (name_char_word c H)).
  - intro I. rewrite Forall_forall in F. exact (proj2 (name_char_word _ (F _ I)) eq_refl).
Qed.

Lemma name_nonempty : name <> [].
Proof. destruct name_ok as (_ & _ & T). intro E. rewrite E in T. vm_compute in T. discriminate T. Qed.

Lemma name_token : word_token name = TOther name.
Proof.
  destruct name_wordlike as [W D]. pose proof (word_read name name_nonempty W D) as T. destruct name_ok as (_ & _ & T'). rewrite T in T'. now injection T'.
Qed.

Lemma name_readable : readable (TOther name).
Proof.
  rewrite <- name_token. destruct name_wordlike as [W D]. apply (re_word name []); [exact name_nonempty| |reflexivity]. split; [exact W|]. intros a b E. exfalso. exact (no_dot name a b D E).
Qed.

Lemma name_head : exists c r, name = c :: r /\ name_char c /\ is_digit c = false.
Proof.
  pose proof name_nonempty as Ne. destruct name_ok as (F & H & _). destruct name as [|c r]; [congruence|]. inversion F; subst. exists c, r. split; [reflexivity|]. split; [assumption|]. now apply (H c r).
Qed.
End Name.

Lemma index_word : forall n, n < 2 ^ 64 -> word_token (number_show n) = TNumber n.
Proof.
  intros n H. destruct (number_show_digits n) as (D & V & Ne). destruct (digits_wordlike _ D) as [W _].
  apply word_token_classified; [now apply wordlike_unsigned|]. rewrite <- V at 2. apply cl_number. split; [exact Ne|]. split; [exact D|]. now rewrite V.
Qed.

Lemma index_readable : forall n, n < 2 ^ 64 -> readable (TNumber n).
Proof.
  intros n H. rewrite <- (index_word n H). destruct (number_show_digits n) as (D & V & Ne). destruct (digits_wordlike _ D) as [W X].
  apply (re_word _ []); [exact Ne| |reflexivity]. split; [exact W|]. intros a b E. exfalso. exact (no_dot _ a b X E).
Qed.

Lemma digit_facts : forall n c, In c (number_show n) -> 0x30 <= c <= 0x39.
Proof. intros n c I. destruct (number_show_digits n) as (D & _). unfold digits in D. rewrite Forall_forall in D. now apply D. Qed.

Lemma index_no_dot : forall n, ends_with_dot (number_show n) = false.
Proof.
  intro n. unfold ends_with_dot. destruct (rev (number_show n)) as [|c r] eqn:E; [reflexivity|].
  assert (I : In c (number_show n)) by (apply in_rev; rewrite E; now left). apply digit_facts in I. lia.
Qed.

(** ** Literals replaced by references *)
Section Via.
Variable name : str.
Hypothesis name_ok : array_name name.
Variable whole : list token.
Variable elems : list str.
Hypothesis elems_small : N.of_nat (length elems) <= 2 ^ 64.

Definition spelt (k : nat) : list token := [TOther name; TChar OpenBracket; TNumber (N.of_nat k); TChar CloseBracket].

Inductive via : token -> token -> list token -> Prop :=
| via_same : forall t, (forall x, t <> TCreatedVar x) -> via t t [t]
| via_ref : forall x k, shared whole (TString x) = true -> nth_error elems k = Some (content x) ->
    via (TString x) (reference name k) (spelt k).

Inductive vias : list token -> list token -> list token -> Prop :=
| vias_nil : vias [] [] []
| vias_cons : forall t t' l us body flat, via t t' l -> vias us body flat -> vias (t :: us) (t' :: body) (l ++ flat).

Lemma small : forall k x, nth_error elems k = Some x -> N.of_nat k < 2 ^ 64.
Proof. intros k x H. assert (k < length elems)%nat by (apply nth_error_Some; congruence). lia. Qed.

Lemma open_readable : readable (TChar OpenBracket).
Proof. apply (re_punct 0x5B); reflexivity. Qed.
Lemma close_readable : readable (TChar CloseBracket).
Proof. apply (re_punct 0x5D); reflexivity. Qed.

Lemma vias_readable : forall us body flat, vias us body flat -> Forall readable us -> Forall readable flat.
Proof.
  induction 1 as [|t t' l us body flat V W IH]; intro R; [constructor|]. inversion R; subst. apply Forall_app. split; [|auto].
  destruct V as [t N|x k S E]; [repeat constructor; assumption|]. unfold spelt. constructor; [now apply name_readable|].
  constructor; [exact open_readable|]. constructor; [exact (index_readable _ (small k _ E))|]. constructor; [exact close_readable|constructor].
Qed.

Lemma vias_useless : forall us body flat, vias us body flat -> Forall (fun t => useless t = false) us -> Forall (fun t => useless t = false) flat.
Proof.
  induction 1 as [|t t' l us body flat V W IH]; intro R; [constructor|]. inversion R; subst. apply Forall_app. split; [|auto].
  destruct V as [t N|x k S E]; repeat constructor; assumption.
Qed.

Lemma spelt_regex : forall x k v v', regex_here (TString x :: v) = regex_here (rev (spelt k) ++ v').
Proof. reflexivity. Qed.

Lemma vias_placed : forall us body flat, vias us body flat -> forall v v', regex_here v = regex_here v' -> placed v us -> placed v' flat.
Proof.
  induction 1 as [|t t' l us body flat V W IH]; intros v v' H P; [exact I|]. destruct P as [A B].
  destruct V as [t N|x k S E]; cbn [app spelt placed].
  - split; [destruct t; try exact I; cbn [slash_ok] in *; congruence|]. apply (IH (t :: v)); [exact (regex_here_app [t] v v' H)|exact B].
  - repeat (split; [exact I|]). apply (IH (TString x :: v)); [reflexivity|exact B].
Qed.

Definition quiet_char (c : N) : bool := negb (newline c) && negb (mem_char c [0x2F; 0x2E; 0x60; 0x5C]).

Lemma name_quiet : forallb quiet_char name = true.
Proof.
  apply forallb_forall. intros c I. destruct name_ok as (F & _ & _). rewrite Forall_forall in F. specialize (F c I). unfold quiet_char, newline, mem_char. cbn. unfold alnum in F. lia.
Qed.

Lemma index_quiet : forall n, forallb quiet_char (number_show n) = true.
Proof. intro n. apply forallb_forall. intros c I. apply digit_facts in I. unfold quiet_char, newline, mem_char. cbn. lia. Qed.

Lemma show_number : forall n, token_show (TNumber n) = number_show n.
Proof. intro n. unfold token_show. cbn. apply app_nil_r. Qed.

Lemma quiet_app : forall a b, quiet_text (a ++ b) = quiet_text a && quiet_text b.
Proof. intros a b. unfold quiet_text. apply forallb_app. Qed.

Lemma spelt_quiet : forall k, quiet_text (spelt k) = true.
Proof.
  intro k. unfold quiet_text, spelt. cbn [forallb]. rewrite show_other, show_number. fold quiet_char. change (fun c : N => negb (newline c) && negb (mem_char c [0x2F; 0x2E; 0x60; 0x5C])) with quiet_char.
  rewrite name_quiet, index_quiet. reflexivity.
Qed.

Lemma vias_quiet : forall us body flat, vias us body flat -> quiet_text us = true -> quiet_text flat = true.
Proof.
  induction 1 as [|t t' l us body flat V W IH]; intro Q; [reflexivity|]. change (t :: us) with ([t] ++ us) in Q. rewrite quiet_app in *. apply andb_true_iff in Q. destruct Q as [A B].
  rewrite (IH B), andb_true_r. destruct V as [t N|x k S E]; [exact A|apply spelt_quiet].
Qed.

(** No operator is made longer by a name. *)
Lemma extends_name : forall o c r, name_char c -> extends o (c :: r) = false.
Proof.
  intros o c r H. cbn [extends]. apply not_true_iff_false. intro E. apply existsb_exists in E. destruct E as (q & I & E). apply str_eqb_eq in E.
  apply (f_equal (@rev N)) in E. rewrite rev_app_distr in E. cbn [rev app] in E. unfold name_char, alnum in H.
  unfold operators in I. cbn in I. repeat (destruct I as [I|I]; [subst q; cbn in E; injection E as E _; lia|]). destruct I.
Qed.

Lemma name_follows : forall a, wordy a = false -> exists c r, follow a (Some (TOther name)) = c :: r /\ name_char c /\ is_digit c = false.
Proof.
  intros a W. destruct (name_head name name_ok) as (c & r & E & C & D). exists c, r. split; [|auto]. unfold follow, separator.
  assert (L : word_left a = false) by (destruct a; try reflexivity; discriminate W). rewrite L. cbn [andb orb is_in app]. rewrite show_other. exact E.
Qed.

Lemma glued_name : forall p a, wordy a = false -> (forall b g i, a <> TRegex b g i) -> glued p a (Some (TOther name)) = false.
Proof.
  intros p a W R. destruct (name_follows a W) as (c & r & E & C & D).
  assert (Ex : forall o, extends o (c :: r) = false) by (intro o; now apply extends_name).
  destruct a as [k|k|s0|s0|s0|s0|b0 g i|o|o|s0|s0|n|s0]; try reflexivity; try discriminate W; unfold glued; rewrite E.
  - destruct k; try apply Ex. unfold dot_joins. rewrite D. cbn [orb].
    assert (X : number_delimiter c = false) by (unfold name_char, alnum in C; unfold number_delimiter, mem_char; cbn; lia). rewrite X, andb_false_r. apply andb_false_r.
  - exfalso. exact (R _ _ _ eq_refl).
  - apply Ex.
  - destruct o; try apply Ex. cbn [starts_with]. unfold name_char, alnum in C. unfold mem_char. cbn. lia.
Qed.

Lemma open_apart : forall p b, glued p (TChar OpenBracket) b = false.
Proof. intros p b. cbn [glued]. unfold extends. destruct (follow (TChar OpenBracket) b); reflexivity. Qed.
Lemma close_apart : forall p b, glued p (TChar CloseBracket) b = false.
Proof. intros p b. cbn [glued]. unfold extends. destruct (follow (TChar CloseBracket) b); reflexivity. Qed.

Lemma index_apart : forall p n, glued p (TNumber n) (Some (TChar CloseBracket)) = false.
Proof. intros p n. cbn [glued word_right andb orb]. rewrite show_number, index_no_dot. reflexivity. Qed.

Lemma clear_tail : forall a r, clear_for_array whole (a :: r) = true -> clear_for_array whole r = true.
Proof. intros a r C. cbn [clear_for_array] in C. destruct r; [reflexivity|]. apply andb_true_iff in C. exact (proj2 C). Qed.

Lemma vias_apart : forall us body flat, vias us body flat -> forall v v', word_text (hd_error v) = word_text (hd_error v') -> regex_here v = regex_here v' ->
  clear_for_array whole us = true -> apart v us = true -> apart v' flat = true.
Proof.
  induction 1 as [|t t' l us body flat V W IH]; intros v v' Hw Hr C A; [reflexivity|]. cbn [apart] in A. apply andb_true_iff in A. destruct A as [A A3]. apply andb_true_iff in A. destruct A as [A1 A2].
  apply negb_true_iff in A1, A2. pose proof (clear_tail _ _ C) as C'.
  destruct V as [t N|x k S E].
  - cbn [app apart]. rewrite (IH (t :: v) (t :: v') eq_refl (regex_here_app [t] v v' Hr) C' A3), andb_true_r. apply andb_true_iff. split; apply negb_true_iff.
    + assert (G : glued (hd_error v') t (hd_error us) = false).
      { revert A1. destruct t as [k|c|s|s|s|s|b0 g i|o|o|s|s|n|s]; try exact (fun y => y). destruct c; try exact (fun y => y). cbn [glued]. now rewrite Hw. }
      inversion W as [|b b' lb us' body' flat' Vb Wb E1 E2 E3]; subst; [exact G|]. inversion Vb; subst; [exact G|]. cbn [spelt app hd_error].
      cbn [clear_for_array] in C. rewrite H in C. apply glued_name; [destruct (wordy t); [discriminate C|reflexivity]|]. intros b0 g i ->. discriminate C.
    + destruct t as [k|c|s|s|s|s|b0 g i|o|o|s|s|n|s]; try reflexivity; destruct o; try reflexivity; cbn [stray] in *; rewrite <- Hr; destruct (regex_here v); try reflexivity;
        cbn [andb] in *; apply negb_false_iff in A2; apply negb_false_iff; exact (vias_quiet _ _ _ W A2).
  - cbn [app apart spelt hd_error]. rewrite open_apart, close_apart, index_apart. cbn [glued stray negb andb]. apply (IH (TString x :: v)); [reflexivity|reflexivity|exact C'|exact A3].
Qed.

(** ** The text of the body *)
Lemma show_reference : forall k, token_show (reference name k) = joined (spelt k).
Proof.
  intro k. unfold spelt. cbn [joined]. rewrite show_other, show_number. unfold separator. cbn [word_left word_right is_in char_or_string andb orb negb app].
  unfold token_show, reference. cbn [token_chunks concat]. rewrite app_nil_r. reflexivity.
Qed.

Lemma joined_spelt : forall k r, joined (spelt k ++ r) = joined (spelt k) ++ match r with [] => [] | b :: _ => separator (TChar CloseBracket) b ++ joined r end.
Proof.
  intros k r. unfold spelt. cbn [app]. rewrite !joined_cons. cbn [joined]. rewrite <- !app_assoc. rewrite ?app_nil_r. rewrite <- ?app_assoc. reflexivity.
Qed.

Lemma vias_joined : forall us body flat, vias us body flat -> Forall readable us -> clear_for_array whole us = true -> joined body = joined flat.
Proof.
  induction 1 as [|t t' l us body flat V W IH]; intros R C; [reflexivity|]. inversion R as [|? ? Rt Rr]; subst. specialize (IH Rr (clear_tail _ _ C)).
  rewrite joined_cons. destruct V as [t N|x k S E].
  - cbn [app]. rewrite joined_cons. f_equal. inversion W as [|b b' lb us' body' flat' Vb Wb E1 E2 E3]; subst; [reflexivity|].
    inversion Vb; subst; cbn [app] in *; [now rewrite IH|]. rewrite IH. cbn [spelt app]. f_equal. cbn [clear_for_array] in C. rewrite H in C.
    assert (L : word_left t = false) by (destruct t; try reflexivity; discriminate C). unfold separator. rewrite L. reflexivity.
  - rewrite joined_spelt, show_reference. f_equal. inversion W as [|b b' lb us' body' flat' Vb Wb E1 E2 E3]; subst; [reflexivity|].
    cbn [clear_for_array] in C. rewrite S in C. inversion Rr as [|? ? Rb _]; subst.
    inversion Vb; subst; cbn [app] in *.
    + rewrite IH. f_equal. assert (Ib : is_in b' = false) by (destruct (is_in b'); [|reflexivity]; rewrite andb_false_r in C; discriminate C).
      unfold separator. rewrite Ib. reflexivity.
    + rewrite H, orb_true_r in C. discriminate C.
Qed.

(** ** Looking the elements up *)
Lemma looked_other : forall t r, t <> TOther name -> looked_up name elems (t :: r) = t :: looked_up name elems r.
Proof.
  intros t r N. destruct t as [k|c|s|s|s|s|b0 g i|o|o|s|s|n|s]; try reflexivity. cbn [looked_up].
  assert (E : str_eqb s name = false) by (apply not_true_iff_false; intro E; apply str_eqb_eq in E; congruence). rewrite E.
  destruct r as [|[] r]; try reflexivity. destruct c; try reflexivity. destruct r as [|[] r]; try reflexivity. destruct r as [|[] r]; try reflexivity. destruct c; reflexivity.
Qed.

Lemma looked_spelt : forall k s r, nth_error elems k = Some s -> looked_up name elems (spelt k ++ r) = double_quoted s :: looked_up name elems r.
Proof. intros k s r E. unfold spelt. cbn [app looked_up]. rewrite str_eqb_refl, Nnat.Nat2N.id, E. reflexivity. Qed.

Lemma vias_looked : forall us body flat, vias us body flat -> ~ In (TOther name) us ->
  (forall x, In (TString x) us -> shared whole (TString x) = true -> hd_error x <> Some 0x60) -> Forall2 same_content us (looked_up name elems flat).
Proof.
  induction 1 as [|t t' l us body flat V W IH]; intros N Q; [constructor|].
  assert (N' : ~ In (TOther name) us) by (intro J; apply N; now right). specialize (IH N' (fun x J => Q x (or_intror J))).
  destruct V as [t Nc|x k S E].
  - cbn [app]. rewrite looked_other by (intros ->; apply N; now left). constructor; [now left|exact IH].
  - rewrite (looked_spelt k (content x) _ E). constructor; [|exact IH]. right. exists x. split; [reflexivity|]. split; [|reflexivity]. apply Q; [now left|exact S].
Qed.
End Via.

(** ** The declaration *)
Lemma show_element : forall s, token_show (element s) = token_show (double_quoted s).
Proof. reflexivity. Qed.

Lemma commas_cons : forall t r, commas (t :: r) = t :: match r with [] => [] | _ => TChar Comma :: commas r end.
Proof. intros t [|u r]; reflexivity. Qed.

Definition bracketed (l : list token) : list token := commas l ++ [TChar CloseBracket; TChar SemiColon].

Lemma joined_end : forall b b', joined b = joined b' -> (match b, b' with [] , [] => True | _ :: _, _ :: _ => True | _, _ => False end) ->
  joined ([TChar CloseBracket; TChar SemiColon] ++ b) = joined ([TChar CloseBracket; TChar SemiColon] ++ b').
Proof.
  intros b b' E K. cbn [app]. rewrite !joined_cons. do 4 f_equal. destruct b as [|t b], b' as [|t' b']; try contradiction; [reflexivity|]. rewrite E. f_equal.
  unfold separator. cbn [word_left char_or_string negb]. rewrite !andb_false_r. reflexivity.
Qed.

Lemma joined_listed : forall news b b', joined b = joined b' -> (match b, b' with [] , [] => True | _ :: _, _ :: _ => True | _, _ => False end) -> news <> [] ->
  joined (listed news ++ [TChar CloseBracket; TChar SemiColon] ++ b) = joined (commas (map double_quoted news) ++ [TChar CloseBracket; TChar SemiColon] ++ b').
Proof.
  intros news b b' E K Ne. destruct news as [|s r]; [congruence|]. clear Ne. cbn [listed map]. rewrite commas_cons. revert s. induction r as [|s2 r IH]; intro s.
  - cbn [appended map concat app]. pose proof (joined_end b b' E K) as J. cbn [app] in J. rewrite (joined_cons (element s)), (joined_cons (double_quoted s)), J, show_element. reflexivity.
  - specialize (IH s2). unfold appended in *. cbn [map concat app] in *. rewrite commas_cons. rewrite (joined_cons (element s)), (joined_cons (double_quoted s)), show_element.
    rewrite (joined_cons (TChar Comma)). rewrite (joined_cons (TChar Comma)). f_equal. cbn [app] in *. rewrite IH. reflexivity.
Qed.

Lemma joined_array : forall name news b b', joined b = joined b' -> (match b, b' with [] , [] => True | _ :: _, _ :: _ => True | _, _ => False end) -> news <> [] ->
  joined (array_declaration name news ++ b) = joined (declared_array name news ++ b').
Proof.
  intros name news b b' E K Ne. pose proof (joined_listed news b b' E K Ne) as J. unfold array_declaration, declared_array. destruct news as [|s r]; [congruence|].
  rewrite <- !app_assoc. cbn [app] in *.
  assert (X : exists y z, listed (s :: r) ++ [TChar CloseBracket; TChar SemiColon] ++ b = element y :: z) by (cbn; eauto).
  assert (Y : exists y z, commas (map double_quoted (s :: r)) ++ [TChar CloseBracket; TChar SemiColon] ++ b' = double_quoted y :: z) by (cbn [map]; rewrite commas_cons; cbn; eauto).
  destruct X as (y1 & z1 & X), Y as (y2 & z2 & Y). cbn [app] in X, Y. rewrite X in J |- *. rewrite Y in J |- *.
  rewrite !(joined_cons (TCreatedVarDecl _)), !(joined_cons (TKeyword _)), !(joined_cons (TOther _)), !(joined_cons (TOperation _)), !(joined_cons (TChar OpenBracket)), J, show_other.
  unfold separator, double_quoted, element, token_show. cbn [word_left word_right is_in char_or_string andb orb negb app token_chunks concat keyword_show].
  rewrite !app_nil_r. rewrite <- !app_assoc. reflexivity.
Qed.

Lemma quoted_ok : forall s, string_body 0x22 s -> readable (double_quoted s).
Proof. intros s B. apply re_string; [now left|exact B]. Qed.

Lemma string_glued : forall p x b, glued p (TString x) b = false.
Proof. reflexivity. Qed.

Lemma open_before : forall p b, glued p (TChar OpenBracket) b = false.
Proof. exact open_apart. Qed.

Lemma commas_parts : forall news b, Forall (string_body 0x22) news -> news <> [] ->
  (forall v, placed (TChar SemiColon :: v) b /\ apart (TChar SemiColon :: v) b = true) -> forall v,
  placed v (bracketed (map double_quoted news) ++ b) /\ apart v (bracketed (map double_quoted news) ++ b) = true.
Proof.
  intros news b F Ne H. destruct news as [|s r]; [congruence|]. clear Ne. revert s F. unfold bracketed. induction r as [|s2 r IH]; intros s F v.
  - cbn [map commas app placed apart double_quoted hd_error]. rewrite close_apart, semicolon_apart. destruct (H (TChar CloseBracket :: double_quoted s :: v)) as [P A]. unfold double_quoted in *. rewrite A. cbn. auto 10.
  - inversion F as [|? ? F1 F2]; subst. destruct (IH s2 F2 (TChar Comma :: double_quoted s :: v)) as [P A]. cbn [map] in *. rewrite commas_cons. cbn [app] in *. cbn [placed apart].
    unfold double_quoted in *. rewrite comma_apart, string_glued. rewrite A. cbn. auto 10.
Qed.

Lemma array_parts : forall name news b, array_name name -> Forall (string_body 0x22) news -> news <> [] ->
  (forall v, placed (TChar SemiColon :: v) b /\ apart (TChar SemiColon :: v) b = true) ->
  placed [] (declared_array name news ++ b) /\ apart [] (declared_array name news ++ b) = true.
Proof.
  intros name news b N F Ne H. destruct (commas_parts news b F Ne H [TChar OpenBracket; TOperation Equal; TOther name; TKeyword KVar]) as [P A].
  unfold declared_array. destruct news as [|s r]; [congruence|]. unfold bracketed in P, A. cbn [app placed apart hd_error].
  rewrite open_apart. split; [do 4 (split; [exact I|]); exact P|]. rewrite A. reflexivity.
Qed.

Lemma array_readable : forall name news, array_name name -> Forall (string_body 0x22) news ->
  Forall readable (declared_array name news) /\ Forall (fun t => useless t = false) (declared_array name news).
Proof.
  intros name news N F.
  assert (K : readable (TKeyword KVar)) by (apply (re_word (S_ "var") []); [discriminate| |reflexivity]; split; [repeat (constructor; [left; reflexivity|]); constructor|];
    intros a b E; exfalso; assert (I : In 0x2E (S_ "var")) by (rewrite E; apply in_or_app; right; now left); cbn in I; intuition discriminate).
  assert (C : readable (TChar Comma)) by (apply (re_punct 0x2C); reflexivity).
  assert (S : readable (TChar SemiColon)) by (apply (re_punct 0x3B); reflexivity).
  assert (Q : readable (TOperation Equal)) by (apply (re_operator [0x3D]); cbn; auto).
  destruct news as [|s r]; [split; constructor|]. unfold declared_array. generalize dependent (s :: r). clear s r. intros l F.
  assert (M : Forall readable (commas (map double_quoted l)) /\ Forall (fun t => useless t = false) (commas (map double_quoted l))).
  { induction F as [|s l B F IH]; [split; constructor|]. cbn [map]. rewrite commas_cons. destruct IH as [I1 I2]. destruct (map double_quoted l) as [|t r'] eqn:E.
    - split; [constructor; [now apply quoted_ok|constructor]|repeat constructor].
    - split; constructor; try (now apply quoted_ok); try reflexivity; constructor; try assumption; reflexivity. }
  destruct M as [M1 M2]. split.
  - apply Forall_app. split; [repeat constructor; try assumption; [now apply name_readable|exact open_readable]|]. apply Forall_app. split; [exact M1|]. repeat constructor; [exact close_readable|exact S].
  - apply Forall_app. split; [repeat constructor|]. apply Forall_app. split; [exact M2|repeat constructor].
Qed.

(** ** The whole text *)
Theorem array_read_back : forall name whole news us body flat, array_name name -> vias name whole news us body flat -> news <> [] ->
  N.of_nat (length news) <= 2 ^ 64 -> Forall (string_body 0x22) news ->
  Forall readable us -> Forall (fun t => useless t = false) us -> placed [] us -> apart [] us = true -> clear_for_array whole us = true ->
  js_minify_tokens (tokens_show (array_declaration name news ++ body)) = Ok (declared_array name news ++ flat).
Proof.
  intros name whole news us body flat N V Ne Sm B R U P A C.
  pose proof (vias_readable name N whole news Sm _ _ _ V R) as R'. pose proof (vias_useless name whole news _ _ _ V U) as U'.
  assert (Q : forall v, placed (TChar SemiColon :: v) flat /\ apart (TChar SemiColon :: v) flat = true).
  { intro v. split; [now apply (vias_placed name whole news us body flat V [])|]. now apply (vias_apart name N whole news Sm us body flat V []). }
  destruct (array_parts name news flat N B Ne Q) as [P2 A2]. destruct (array_readable name news N B) as [R2 U2].
  assert (T : tokens_show (array_declaration name news ++ body) = joined (declared_array name news ++ flat)).
  { rewrite tokens_show_joined. apply joined_array; [exact (vias_joined name whole news us body flat V R C)| |exact Ne].
    destruct V as [|t t' l us' body' flat' V W]; [exact I|]. destruct V; exact I. }
  rewrite T.
  assert (R3 : Forall readable (declared_array name news ++ flat)) by (apply Forall_app; auto).
  assert (U3 : Forall (fun t => useless t = false) (declared_array name news ++ flat)) by (apply Forall_app; auto).
  pose proof (joined_lexes _ R3 U3 P2 A2) as L. unfold js_minify_tokens. rewrite (lexes_tokenize _ _ L). cbn [obind]. apply clean_spaced; [exact U3|].
  unfold declared_array. destruct news as [|d r]; [congruence|discriminate].
Qed.

(** ** Counting *)
Lemma contents_app : forall a b, contents (a ++ b) = contents a ++ contents b.
Proof. intros a b. unfold contents. apply flat_map_app. Qed.

Lemma contents_useful : forall ts, contents (filter (fun t => negb (useless t)) ts) = contents ts.
Proof.
  induction ts as [|t ts IH]; [reflexivity|]. cbn [filter]. change (t :: ts) with ([t] ++ ts). rewrite contents_app, <- IH. destruct (useless t) eqn:U; cbn [negb].
  - destruct t; try reflexivity. discriminate U.
  - change (t :: filter (fun t => negb (useless t)) ts) with ([t] ++ filter (fun t => negb (useless t)) ts). apply contents_app.
Qed.

Lemma contents_semis : forall semis, Forall is_semicolon semis -> contents semis = [].
Proof. intros semis F. induction F as [|t r H F IH]; [reflexivity|]. rewrite H. exact IH. Qed.

Lemma contents_in : forall ts s, In s (contents ts) <-> exists x, In (TString x) ts /\ content x = s.
Proof.
  intros ts s. unfold contents. rewrite in_flat_map. split.
  - intros (t & I & J). destruct t; try destruct J. eauto. destruct H.
  - intros (x & I & <-). exists (TString x). split; [exact I|now left].
Qed.

Lemma contents_length : forall ts, (length (contents ts) <= length ts)%nat.
Proof. induction ts as [|t ts IH]; [apply le_n|]. change (t :: ts) with ([t] ++ ts). rewrite contents_app, !app_length. destruct t; cbn; lia. Qed.

Lemma shared_ext : forall a b t, contents a = contents b -> shared a t = shared b t.
Proof. intros a b [] H; try reflexivity. cbn [shared]. now rewrite H. Qed.

Lemma clear_array_ext : forall a b l, contents a = contents b -> clear_for_array a l = clear_for_array b l.
Proof.
  intros a b l H. induction l as [|x l IH]; [reflexivity|]. cbn [clear_for_array]. destruct l as [|y l]; [reflexivity|]. rewrite !(shared_ext a b _ H), IH. reflexivity.
Qed.

Lemma uses_count : forall ts s, uses ts (fun _ _ => true) [] s = length (filter (str_eqb s) (contents ts)).
Proof.
  intros ts s. unfold uses.
  assert (G : forall pre, length (List.filter (fun i => match nth_error (pre ++ ts) i with Some (TString t) => str_eqb (content t) s && negb (existsb (Nat.eqb i) []) && true | _ => false end) (seq (length pre) (length ts)))
     = length (filter (str_eqb s) (contents ts))).
  { induction ts as [|t ts IH]; intro pre; [reflexivity|]. cbn [length seq List.filter]. rewrite nth_error_app2, Nat.sub_diag by lia. cbn [nth_error].
    specialize (IH (pre ++ [t])). rewrite <- app_assoc in IH. cbn [app] in IH. rewrite app_length in IH. cbn [length] in IH. rewrite Nat.add_1_r in IH.
    rewrite (contents_app [t] ts : contents (t :: ts) = _), filter_app, app_length, <- IH.
    destruct t as [k|c|s0|s0|s0|s0|b0 g i|o|o|s0|s0|n|s0]; try reflexivity. unfold contents. cbn [flat_map app filter existsb negb]. rewrite !andb_true_r.
    destruct (str_eqb (content s0) s) eqn:E.
    - apply str_eqb_eq in E. subst s. rewrite str_eqb_refl. reflexivity.
    - assert (E' : str_eqb s (content s0) = false) by (apply not_true_iff_false; intro K; apply str_eqb_eq in K; subst s; rewrite str_eqb_refl in E; discriminate E). rewrite E'. reflexivity. }
  exact (G []).
Qed.

(** ** What the aggregation gives *)
Lemma array_vias : forall name ts news ts', array_aggregation ts (fun _ _ => true) [] name [] news ts' ->
  (forall x, ~ In (TCreatedVar x) ts) -> requotable ts ->
  (exists flat, vias name ts news ts ts' flat)
  /\ (forall s, In s news -> (2 <= length (filter (str_eqb s) (contents ts)))%nat) /\ Forall (string_body 0x22) news
  /\ (length news <= length (contents ts))%nat.
Proof.
  intros name ts news ts' A NC RQ.
  assert (Pays : forall s, In s news -> (2 <= length (filter (str_eqb s) (contents ts)))%nat).
  { intros s I. apply In_nth_error in I. destruct I as [k E]. rewrite <- uses_count. exact (proj1 (aa_pays _ _ _ _ _ _ _ A k s E)). }
  assert (Has : forall s, In s news -> In s (contents ts)).
  { intros s I. specialize (Pays s I). destruct (filter (str_eqb s) (contents ts)) as [|y l] eqn:F; [cbn in Pays; lia|].
    assert (J : In y (y :: l)) by now left. rewrite <- F in J. apply filter_In in J. destruct J as [J M]. apply str_eqb_eq in M. now subst. }
  split; [|split; [exact Pays|split]].
  - assert (Z : forall i t, nth_error ts i = Some t -> exists t', nth_error ts' i = Some t' /\ exists l, via name ts news t t' l).
    { intros i t E. destruct (aa_tokens _ _ _ _ _ _ _ A i t E) as (t' & E' & G). cbn [app] in G. exists t'. split; [exact E'|].
      destruct G as [x k El Ek|t H].
      - exists (spelt name k). apply via_ref; [|exact Ek]. cbn [shared]. apply Nat.leb_le. apply Pays. now apply nth_error_In in Ek.
      - exists [t]. apply via_same. intros x ->. apply nth_error_In in E. exact (NC x E). }
    pose proof (aa_length _ _ _ _ _ _ _ A) as L. clear - Z L.
    assert (G : forall us ts', (forall i t, nth_error us i = Some t -> exists t', nth_error ts' i = Some t' /\ exists l, via name ts news t t' l) -> length ts' = length us -> exists flat, vias name ts news us ts' flat).
    { clear. induction us as [|t us IH]; intros [|t' ts'] Z L; try discriminate L; [exists []; constructor|].
      destruct (Z 0%nat t eq_refl) as (y & E & l & V). cbn in E. injection E as ->.
      destruct (IH ts') as [flat W]; [intros i x E; exact (Z (S i) x E)|now injection L|]. exists (l ++ flat). now constructor. }
    exact (G ts ts' Z L).
  - apply Forall_forall. intros s I. pose proof (Has s I) as J. apply contents_in in J. destruct J as (x & J & <-). apply (RQ x J). cbn [shared]. apply Nat.leb_le. now apply Pays.
  - apply NoDup_incl_length; [exact (aa_news _ _ _ _ _ _ _ A)|exact Has].
Qed.

Lemma via_useful : forall name whole news t t' l, via name whole news t t' l -> useless t' = useless t /\ (useless t = true -> l = [t]).
Proof. intros name whole news t t' l []; split; try reflexivity. intro H1. discriminate H1. Qed.

Lemma vias_useful : forall name whole news us body flat, vias name whole news us body flat ->
  vias name whole news (filter (fun t => negb (useless t)) us) (filter (fun t => negb (useless t)) body) (filter (fun t => negb (useless t)) flat).
Proof.
  intros name whole news us body flat V. induction V as [|t t' l us body flat V W IH]; [constructor|]. cbn [filter]. destruct (via_useful _ _ _ _ _ _ V) as [E1 E2]. rewrite E1. rewrite filter_app.
  destruct V as [t N|x k S E].
  - cbn [filter]. destruct (useless t); cbn [negb app]; [exact IH|]. change (t :: filter (fun t0 => negb (useless t0)) flat) with ([t] ++ filter (fun t0 => negb (useless t0)) flat). constructor; [now constructor|exact IH].
  - cbn [useless negb filter spelt]. change ([TOther name; TChar OpenBracket; TNumber (N.of_nat k); TChar CloseBracket]) with (spelt name k). constructor; [now constructor|exact IH].
Qed.

Lemma vias_ext : forall name a b news us body flat, contents a = contents b -> vias name a news us body flat -> vias name b news us body flat.
Proof.
  intros name a b news us body flat H V. induction V as [|t t' l us body flat V W IH]; [constructor|]. constructor; [|exact IH].
  destruct V; [now constructor|]. constructor; [|assumption]. rewrite <- (shared_ext a b _ H). assumption.
Qed.

Lemma vias_semis : forall name whole news semis u body flat, Forall is_semicolon semis -> vias name whole news (semis ++ u) body flat ->
  exists b f, body = semis ++ b /\ flat = semis ++ f /\ vias name whole news u b f.
Proof.
  intros name whole news semis u body flat X. revert body flat. induction X as [|t r H X IH]; intros body flat V; [exists body, flat; auto|]. cbn [app] in V. inversion V as [|? ? ? ? ? ? V1 V2]; subst.
  destruct (IH _ _ V2) as (b & f & -> & -> & W). exists b, f. rewrite H in *. inversion V1; subst. auto.
Qed.

Lemma clear_array_semis : forall semis whole u, Forall is_semicolon semis -> clear_for_array whole (semis ++ u) = clear_for_array whole u.
Proof.
  intros semis whole u F. induction F as [|t r H F IH]; [reflexivity|]. rewrite H. cbn [app clear_for_array]. rewrite IH. destruct (r ++ u) as [|b l] eqn:E.
  - apply app_eq_nil in E. destruct E as [-> ->]. reflexivity.
  - cbn [wordy shared]. cbn [orb andb]. rewrite andb_false_r. reflexivity.
Qed.

Lemma array_useful : forall name news, filter (fun t => negb (useless t)) (array_declaration name news) = array_declaration name news.
Proof.
  intros name news. unfold array_declaration. rewrite !filter_app. f_equal. f_equal. destruct news as [|s r]; [reflexivity|]. cbn [listed filter useless negb element]. f_equal.
  unfold appended. induction r as [|e r IH]; [reflexivity|]. cbn [map concat app filter useless negb element]. do 2 f_equal. exact IH.
Qed.

Lemma same_refl : forall u, Forall2 same_content u u.
Proof. induction u as [|t u IH]; constructor; [now left|exact IH]. Qed.

Lemma no_head : forall name ts, ~ In (TOther name) ts -> forall p h r, ts = p ++ h ++ r -> array_head name h -> ~ In (TChar CloseBracket) r.
Proof.
  intros name ts N p h r E (kw & b1 & b2 & b3 & _ & -> & _). exfalso. apply N. rewrite E. apply in_or_app. right. apply in_or_app. left. right. apply in_or_app. right. now left.
Qed.

Lemma looked_nil : forall name elems u, ~ In (TOther name) u -> looked_up name elems u = u.
Proof.
  intros name elems u N. induction u as [|t u IH]; [reflexivity|]. rewrite looked_other by (intros ->; apply N; now left). rewrite IH; [reflexivity|]. intro J. apply N. now right.
Qed.

Section Order.
Variable order : forall A : Type, list A -> list A.
Hypothesis order_ok : forall A (l : list A), Permutation (order A l) l.

Theorem array_pipelines : forall name s ts0 u, array_name name -> lexes s ts0 -> js_minify_tokens s = Ok u ->
  ~ In (TOther name) u -> apart [] u = true -> clear_for_array u u = true -> requotable u -> N.of_nat (length u) <= 2 ^ 64 ->
  forall run, run = documented_array order name \/ run = clean_first_array order name ->
  exists d elems semis body, run s = Ok d /\ js_minify_tokens d = Ok (declared_array name elems ++ semis ++ body)
    /\ Forall is_semicolon semis /\ (elems = [] -> semis = [])
    /\ NoDup elems /\ (forall l, In l elems -> (2 <= length (filter (str_eqb l) (contents u)))%nat)
    /\ Forall2 same_content u (looked_up name elems body).
Proof.
  intros name s ts0 u Nm L M N A C Q Sz run Run. pose proof (lexes_tokenize s ts0 L) as T. unfold js_minify_tokens in M. rewrite T in M. cbn [obind] in M.
  destruct (lexes_known s ts0 L) as [R0 S0]. destruct (cleaned_known s ts0 u L M) as (R & U & P & H).
  destruct (clean_tokens_spec ts0) as (semis & rest & E & F & X & _). rewrite M in E. injection E as <-.
  destruct (round_trip s ts0 u L M A) as (RT1 & RT2 & RT3 & RT4).
  assert (RT : js_minify_tokens (tokens_show u) = Ok u) by (rewrite tokens_show_joined; unfold js_minify_tokens; rewrite (lexes_tokenize _ _ RT2); exact RT3).
  assert (Ct : contents ts0 = contents u) by (rewrite <- (contents_useful ts0), F, contents_app, (contents_semis semis X); reflexivity).
  assert (In0 : forall t, useless t = false -> ~ is_semicolon t -> In t ts0 -> In t u).
  { intros t Ut Nt I. assert (J : In t (filter (fun t => negb (useless t)) ts0)) by (apply filter_In; rewrite Ut; auto). rewrite F in J.
    apply in_app_or in J. destruct J as [J|J]; [|exact J]. rewrite Forall_forall in X. now apply X in J. }
  assert (N0 : ~ In (TOther name) ts0) by (intro I; apply N; apply In0; [reflexivity|discriminate|exact I]).
  assert (Q0 : requotable ts0).
  { intros x I Hs. apply Q; [apply In0; [reflexivity|discriminate|exact I]|]. now rewrite <- (shared_ext ts0 u _ Ct). }
  pose proof (lexes_quoted s ts0 L) as Qt.
  assert (Qu : Forall quoted_token u).
  { apply Forall_forall. intros t I. rewrite Forall_forall in Qt. apply Qt. assert (J : In t (semis ++ u)) by (apply in_or_app; now right). rewrite <- F in J. now apply filter_In in J. }
  pose proof (contents_length u) as Lc.
  destruct Run as [-> | ->].
  - (* documented *)
    destruct (array_new order order_ok ts0 name None (fun _ _ => true) Qt (no_head name ts0 N0)) as (news & ts' & E & G).
    destruct (array_vias name ts0 news ts' G (known_plain ts0 R0) Q0) as ((flat & V) & O & B & Ln). rewrite Ct in O, Ln.
    unfold documented_array, aggregate_strings_into_array. rewrite T. cbn [obind]. rewrite E. cbn [obind]. destruct news as [|n0 nr].
    + rewrite M. cbn [obind]. exists (tokens_show u), [], [], u. split; [reflexivity|]. split; [exact RT|]. split; [constructor|]. split; [reflexivity|]. split; [constructor|]. split; [intros l []|].
      rewrite (looked_nil name [] u N). apply same_refl.
    + remember (n0 :: nr) as news eqn:En. assert (Ne : news <> []) by (rewrite En; discriminate). cbn [app].
      rewrite clean_tokens_eq, filter_app, array_useful. cbn [obind].
      assert (D : forall l, drop_semicolons (array_declaration name news ++ l) = array_declaration name news ++ l) by reflexivity. rewrite D.
      pose proof (vias_useful _ _ _ _ _ _ V) as Vu. rewrite F in Vu. destruct (vias_semis _ _ _ _ _ _ _ X Vu) as (b & f & EB & EF & W).
      assert (All : Forall readable (semis ++ u) /\ Forall (fun t => useless t = false) (semis ++ u) /\ placed [] (semis ++ u)).
      { rewrite <- F. split; [|split].
        - apply Forall_forall. intros t I. apply filter_In in I. rewrite Forall_forall in R0. now apply R0.
        - apply Forall_forall. intros t I. apply filter_In in I. now apply negb_true_iff.
        - apply placed_slashes. rewrite app_nil_r. change (fun t0 : token => negb (useless t0)) with useful. rewrite <- filter_rev. now apply slashes_filter. }
      destruct All as (A1 & A2 & A3).
      assert (A4 : apart [] (semis ++ u) = true) by (apply (apart_semis semis u X []); try reflexivity; try assumption; intros g Y; exact Y).
      assert (A5 : clear_for_array ts0 (semis ++ u) = true) by (rewrite clear_array_semis, (clear_array_ext ts0 u _ Ct); assumption).
      eexists. exists news, semis, f. split; [reflexivity|].
      split; [|split; [exact X|split; [intro K; congruence|split; [exact (aa_news _ _ _ _ _ _ _ G)|split; [exact O|]]]]].
      * rewrite EB, EF in *. apply (array_read_back name ts0 news (semis ++ u)); try assumption. lia.
      * apply (vias_looked name ts0 news u b f W N). intros x J Hs. apply (Q x J). now rewrite <- (shared_ext ts0 u _ Ct).
  - (* clean first *)
    destruct (array_new order order_ok u name None (fun _ _ => true) Qu (no_head name u N)) as (news & ts' & E & G).
    destruct (array_vias name u news ts' G (known_plain u R) Q) as ((flat & V) & O & B & Ln).
    unfold clean_first_array, aggregate_strings_into_array. rewrite T. cbn [obind]. rewrite M. cbn [obind]. rewrite E. cbn [obind]. destruct news as [|n0 nr].
    + exists (tokens_show u), [], [], u. split; [reflexivity|]. split; [exact RT|]. split; [constructor|]. split; [reflexivity|]. split; [constructor|]. split; [intros l []|].
      rewrite (looked_nil name [] u N). apply same_refl.
    + remember (n0 :: nr) as news eqn:En. assert (Ne : news <> []) by (rewrite En; discriminate). cbn [app].
      eexists. exists news, [], flat. split; [reflexivity|].
      split; [|split; [constructor|split; [reflexivity|split; [exact (aa_news _ _ _ _ _ _ _ G)|split; [exact O|apply (vias_looked name u news u ts' flat V N); intros x J Hs; exact (proj1 (Q x J Hs))]]]]].
      cbn [app]. apply (array_read_back name u news u); try assumption. lia.
Qed.
End Order.
