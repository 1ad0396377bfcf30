(** Aggregated programs are read back. *)
From Coq Require Import String List NArith ZArith Bool Lia ZifyBool ZifyN Arith Permutation.
From Verif Require Import Base JsModel JsUtilModel JsUtilSpec JsUtilProofs JsUtilProofs2 JsLexSpec
  JsLexProofs1 JsLexProofs2 JsLexProofs3 JsWords JsLexProofs4 JsRoundSpec JsRoundProofs1 JsRoundProofs2
  JsAggModel JsAggSpec JsAggProofs3 JsPipeSpec.
Import ListNotations.
Open Scope N_scope.

(** ** Names *)
Definition new_name (x : str) : Prop := exists l, x = S_ "r_" ++ l /\ Forall (fun c => alnum c = true) l.

Lemma new_name_chars : forall x, new_name x -> Forall (fun c => alnum c = true \/ c = 0x5F) x.
Proof.
  intros x (l & -> & F). cbn. constructor; [left; reflexivity|]. constructor; [right; reflexivity|].
  eapply Forall_impl; [|exact F]. cbn. auto.
Qed.

Lemma new_name_other : forall x, new_name x -> word_token x = TOther x.
Proof.
  intros x (l & -> & F). unfold word_token.
  assert (K : keyword_of (S_ "r_" ++ l) = None) by (destruct l; reflexivity). rewrite K.
  assert (U : u64_of (S_ "r_" ++ l) = None) by (unfold u64_of; cbn; destruct (uint_of l); reflexivity). rewrite U.
  assert (D : f64_ok (S_ "r_" ++ l) = false) by reflexivity. rewrite D. reflexivity.
Qed.

Lemma alnum_word : forall c, alnum c = true \/ c = 0x5F -> word_char c = true /\ c <> 0x2E.
Proof.
  intros c H. split; [|unfold alnum in H; lia]. unfold word_char. apply negb_true_iff. unfold mem_char. apply not_true_iff_false. intro E.
  apply existsb_exists in E. destruct E as (d & I & E). apply N.eqb_eq in E. subst d.
  unfold punctuation in I. repeat (apply in_app_or in I; destruct I as [I|I]); cbn in I;
    repeat (destruct I as [I|I]; [subst c; unfold alnum in H; lia|]); destruct I.
Qed.

Lemma new_name_readable : forall x, new_name x -> readable (TOther x).
Proof.
  intros x N. rewrite <- (new_name_other x N). apply (re_word x []); [|split|reflexivity].
  - destruct N as (l & -> & _). discriminate.
  - eapply Forall_impl; [|exact (new_name_chars x N)]. intros c H. left. exact (proj1 (alnum_word c H)).
  - intros a b E. exfalso. pose proof (new_name_chars x N) as F. rewrite E in F. apply Forall_app in F. destruct F as [_ F].
    inversion F as [|? ? H _]; subst. exact (proj2 (alnum_word _ H) eq_refl).
Qed.

Lemma new_name_quiet : forall x, new_name x -> forallb (fun c => negb (newline c) && negb (mem_char c [0x2F; 0x2E; 0x60; 0x5C])) x = true.
Proof.
  intros x N. apply forallb_forall. intros c I. pose proof (new_name_chars x N) as F. rewrite Forall_forall in F. specialize (F c I).
  unfold newline. unfold mem_char. cbn. unfold alnum in F. lia.
Qed.

(** ** Literals replaced by names *)
Section Swap.
Variable whole : list token.

Definition swap1 (t t' : token) : Prop :=
  t' = t \/ exists s x, t = TString s /\ twice whole t = true /\ new_name x /\ t' = TOther x.

Lemma swap_useless : forall t t', swap1 t t' -> useless t' = useless t.
Proof. intros t t' [->|(s & x & -> & _ & _ & ->)]; reflexivity. Qed.

Lemma swap_readable : forall t t', swap1 t t' -> readable t -> readable t'.
Proof. intros t t' [->|(s & x & -> & _ & N & ->)] H; [exact H|]. now apply new_name_readable. Qed.

Lemma swap_regex : forall t t' v v', swap1 t t' -> regex_here v = regex_here v' -> regex_here (t :: v) = regex_here (t' :: v').
Proof. intros t t' v v' [->|(s & x & -> & _ & N & ->)] H; [exact (regex_here_app [t] v v' H)|reflexivity]. Qed.

Lemma swap_placed : forall us pb, Forall2 swap1 us pb -> forall v v', regex_here v = regex_here v' -> placed v us -> placed v' pb.
Proof.
  induction 1 as [|t t' us pb S F IH]; intros v v' H P; [exact I|]. destruct P as [A B]. split.
  - destruct S as [->|(s & x & -> & _ & _ & ->)]; [|exact I]. destruct t; try exact I. cbn [slash_ok] in *. congruence.
  - apply (IH (t :: v)); [|exact B]. now apply swap_regex.
Qed.

Lemma swap_quiet : forall us pb, Forall2 swap1 us pb -> quiet_text us = true -> quiet_text pb = true.
Proof.
  intros us pb F. unfold quiet_text. induction F as [|t t' us pb S F IH]; intro H; [reflexivity|]. cbn [forallb] in *. apply andb_true_iff in H. destruct H as [A B].
  rewrite (IH B), andb_true_r. destruct S as [->|(s & x & -> & _ & N & ->)]; [exact A|]. unfold token_show. cbn [token_chunks concat]. rewrite app_nil_r. now apply new_name_quiet.
Qed.

(** Behind a token that is no word, a literal and a name begin alike. *)
Lemma name_starts : forall a x, wordy a = false -> new_name x -> exists r, follow a (Some (TOther x)) = 0x72 :: r.
Proof.
  intros a x W (l & -> & _). assert (L : word_left a = false) by (destruct a; try reflexivity; discriminate W).
  unfold follow, separator. rewrite L. cbn. eauto.
Qed.

Lemma extends_r : forall o r, extends o (0x72 :: r) = false.
Proof.
  intros o r. cbn [extends]. apply not_true_iff_false. intro E. apply existsb_exists in E. destruct E as (q & I & E). apply str_eqb_eq in E.
  unfold operators in I. cbn in I. repeat (destruct I as [I|I]; [subst q; cbn [fst] in E; apply (f_equal (@rev N)) in E; rewrite rev_app_distr in E; discriminate E|]). destruct I.
Qed.

Definition before_ok (v v' : list token) : Prop :=
  forall f, dot_joins (word_text (hd_error v)) f = false -> dot_joins (word_text (hd_error v')) f = false.

Lemma swap_before : forall t t' v v', swap1 t t' -> before_ok (t :: v) (t' :: v').
Proof.
  intros t t' v v' [->|(s & x & -> & _ & N & ->)] f H; [exact H|]. cbn [hd_error word_text wordy] in *. unfold token_show. cbn [token_chunks concat]. rewrite app_nil_r.
  unfold dot_joins in *. cbn in H. destruct N as (l & -> & _). assert (U : integer (S_ "r_" ++ l) = false) by (unfold integer, u64_of; cbn; destruct (uint_of l); reflexivity).
  rewrite U. destruct f as [|c f]; [apply andb_false_r|]. cbn [andb]. rewrite orb_false_r in *. rewrite H. apply andb_false_r.
Qed.

Lemma glued_swap : forall v v' a b b', before_ok v v' ->
  match b, b' with
  | Some b, Some b' => swap1 b b' /\ (b' = b \/ wordy a = false)
  | None, None => True
  | _, _ => False
  end -> glued (hd_error v) a b = false -> glued (hd_error v') a b' = false.
Proof.
  intros v v' a b b' Bf B G. destruct b as [b|], b' as [b'|]; try (exfalso; exact B).
  - destruct B as [S W]. destruct S as [->|(s & x & -> & T & N & ->)].
    + destruct a as [k|c|s|s|s|s|b0 g i|o|o|s|s|n|s]; try exact G. destruct c; try exact G. cbn [glued] in *. now apply Bf.
    + destruct W as [W|W]; [discriminate W|]. destruct (name_starts a x W N) as [r E].
      destruct a as [k|c|s0|s0|s0|s0|b0 g i|o|o|s0|s0|n|s0]; try reflexivity; try discriminate W; unfold glued in *; rewrite E.
      * destruct c; try apply extends_r. unfold dot_joins. cbn. rewrite andb_false_r. apply andb_false_r.
      * reflexivity.
      * apply extends_r.
      * destruct o; try apply extends_r. reflexivity.
  - destruct a as [k|c|s|s|s|s|b0 g i|o|o|s|s|n|s]; try exact G. destruct c; try exact G. cbn [glued] in *. now apply Bf.
Qed.

Lemma apart_swap : forall us pb, Forall2 swap1 us pb -> forall v v', before_ok v v' -> regex_here v = regex_here v' ->
  clear_of_words whole us = true -> apart v us = true -> apart v' pb = true.
Proof.
  induction 1 as [|a a' us pb S F IH]; intros v v' Bf Hr C A; [reflexivity|]. cbn [apart] in *. apply andb_true_iff in A. destruct A as [A A3]. apply andb_true_iff in A. destruct A as [A1 A2].
  apply negb_true_iff in A1, A2.
  assert (C' : clear_of_words whole us = true).
  { cbn [clear_of_words] in C. destruct us; [reflexivity|]. apply andb_true_iff in C. exact (proj2 C). }
  rewrite (IH (a :: v) (a' :: v') (swap_before a a' v v' S) (swap_regex a a' v v' S Hr) C' A3), andb_true_r.
  destruct S as [->|(s & x & -> & T & N & ->)]; [|reflexivity]. apply andb_true_iff. split; apply negb_true_iff.
  - revert A1. apply glued_swap; [exact Bf|]. inversion F as [|b b' r r' Sb Fr E1 E2]; subst; [exact I|]. cbn [hd_error]. split; [exact Sb|].
    destruct Sb as [->|(s & x & -> & T & N & ->)]; [now left|right]. cbn [clear_of_words] in C. rewrite T in C. destruct (wordy a); [discriminate C|reflexivity].
  - destruct a as [k|c|s|s|s|s|b0 g i|o|o|s|s|n|s]; try reflexivity; destruct o; try reflexivity; cbn [stray] in *; rewrite <- Hr; destruct (regex_here v); try reflexivity;
      cbn [andb] in *; apply negb_false_iff in A2; apply negb_false_iff; exact (swap_quiet _ _ F A2).
Qed.

End Swap.

(** ** The result of the aggregation *)
Definition plain (t : token) : token := match t with TCreatedVar x => TOther x | _ => t end.

Definition swapped (whole : list token) (ds : list (str * str)) (t t' : token) : Prop :=
  (t' = t /\ forall x, t <> TCreatedVar x)
  \/ exists s x, t = TString s /\ twice whole t = true /\ In (x, s) ds /\ t' = TCreatedVar x.

Definition good (ds : list (str * str)) : Prop :=
  NoDup (map fst ds) /\ forall x s, In (x, s) ds -> new_name x /\ readable (TString s).

Lemma swapped_plain : forall whole ds t t', good ds -> swapped whole ds t t' -> swap1 whole t (plain t').
Proof.
  intros whole ds t t' [_ G] [[-> N]|(s & x & -> & T & I & ->)].
  - left. destruct t; try reflexivity. exfalso. exact (N _ eq_refl).
  - right. exists s, x. split; [reflexivity|]. split; [exact T|]. split; [exact (proj1 (G x s I))|reflexivity].
Qed.

Lemma swapped_plains : forall whole ds us body, good ds -> Forall2 (swapped whole ds) us body -> Forall2 (swap1 whole) us (map plain body).
Proof. intros whole ds us body G F. induction F as [|t t' us body S F IH]; [constructor|]. cbn [map]. constructor; [now apply (swapped_plain whole ds)|exact IH]. Qed.

Lemma show_plain : forall t, token_show (plain t) = token_show t.
Proof. intros []; reflexivity. Qed.

(** The text of the body. *)
Lemma joined_body : forall whole ds us body, Forall2 (swapped whole ds) us body -> Forall readable us -> clear_of_words whole us = true ->
  joined body = joined (map plain body).
Proof.
  intros whole ds us body F. induction F as [|a a' us body S F IH]; intros R C; [reflexivity|]. inversion R as [|? ? Ra Rr]; subst.
  assert (C' : clear_of_words whole us = true).
  { cbn [clear_of_words] in C. destruct us; [reflexivity|]. apply andb_true_iff in C. exact (proj2 C). }
  specialize (IH Rr C'). cbn [map joined]. rewrite show_plain. f_equal. inversion F as [|b b' r r' Sb Fr E1 E2]; subst; [reflexivity|]. cbn [map] in *.
  cbn [clear_of_words] in C. apply andb_true_iff in C. destruct C as [C _]. apply andb_true_iff in C. destruct C as [C1 C2]. apply negb_true_iff in C1, C2.
  inversion Rr as [|? ? Rb _]; subst. rewrite IH. f_equal.
  destruct S as [[-> N]|(s & x & -> & T & I & ->)].
  - assert (Pa : plain a = a) by (destruct a; try reflexivity; exfalso; exact (N _ eq_refl)). rewrite Pa.
    destruct Sb as [[-> Nb]|(sb & xb & -> & Tb & Ib & ->)].
    + assert (Pb : plain b = b) by (destruct b; try reflexivity; exfalso; exact (Nb _ eq_refl)). now rewrite Pb.
    + rewrite Tb in C1. cbn [andb] in C1. apply orb_false_iff in C1. destruct C1 as [C1 _]. unfold separator. cbn [plain word_right is_in]. rewrite andb_false_r, andb_true_r.
      assert (L : word_left a = false) by (destruct a; try reflexivity; discriminate C1). rewrite L. reflexivity.
  - destruct Sb as [[-> Nb]|(sb & xb & -> & Tb & Ib & ->)].
    + assert (Pb : plain b = b) by (destruct b; try reflexivity; exfalso; exact (Nb _ eq_refl)). rewrite Pb.
      rewrite T in C2. cbn [andb] in C2. unfold separator. cbn [plain word_left char_or_string negb]. cbn [andb orb]. rewrite andb_true_r.
      rewrite (word_right_wordy b Rb). destruct (wordy b), (is_in b); try reflexivity. discriminate C2.
    + rewrite T, Tb, orb_true_r in C1. discriminate C1.
Qed.

(** The text of the declarations. *)
Definition more (r : list (str * str)) : list token := flat_map (fun d => TChar Comma :: declarator d) r ++ [TChar SemiColon].

Lemma joined_cons : forall a r, joined (a :: r) = token_show a ++ match r with [] => [] | b :: _ => separator a b ++ joined r end.
Proof. reflexivity. Qed.

Lemma show_other : forall x, token_show (TOther x) = x.
Proof. intro x. unfold token_show. cbn. apply app_nil_r. Qed.
Lemma show_string : forall x, token_show (TString x) = x.
Proof. intro x. unfold token_show. cbn. apply app_nil_r. Qed.

Lemma show_declaration : forall x s, token_show (declaration (x, s)) = x ++ token_show (TOperation Equal) ++ s.
Proof. intros x s. unfold token_show, declaration. cbn. rewrite app_nil_r. reflexivity. Qed.

Lemma joined_more : forall r b b', joined b = joined b' -> (match b, b' with [] , [] => True | _ :: _, _ :: _ => True | _, _ => False end) ->
  (forall x y, hd_error b = Some x -> hd_error b' = Some y -> separator (TChar SemiColon) x = separator (TChar SemiColon) y) ->
  joined (concat (map (fun d => [TChar Comma; declaration d]) r) ++ [TChar SemiColon] ++ b)
  = joined (more r ++ b').
Proof.
  intros r b b' E K H. unfold more. induction r as [|[x s] r IH].
  - cbn [map concat flat_map app]. rewrite !joined_cons. destruct b as [|t b], b' as [|t' b']; try contradiction; [reflexivity|]. rewrite (H t t' eq_refl eq_refl), E. reflexivity.
  - cbn [map concat flat_map app declarator fst snd]. rewrite !joined_cons.
    assert (X : exists y z, concat (map (fun d => [TChar Comma; declaration d]) r) ++ [TChar SemiColon] ++ b = y :: z /\ (y = TChar Comma \/ y = TChar SemiColon)) by (destruct r; cbn; eauto).
    assert (Y : exists y z, (flat_map (fun d => TChar Comma :: declarator d) r ++ [TChar SemiColon]) ++ b' = y :: z /\ (y = TChar Comma \/ y = TChar SemiColon)) by (destruct r; cbn; eauto).
    destruct X as (y1 & z1 & X1 & X2), Y as (y2 & z2 & Y1 & Y2). cbn [app] in X1, IH |- *. rewrite X1 in IH |- *. rewrite Y1 in IH |- *. rewrite IH.
    rewrite show_other, show_string, show_declaration.
    destruct X2 as [-> | ->], Y2 as [-> | ->]; unfold separator; cbn [word_left word_right is_in char_or_string andb orb negb app declaration];
      rewrite <- ?app_assoc; reflexivity.
Qed.

Lemma joined_declared : forall ds b b', ds <> [] -> joined b = joined b' -> (match b, b' with [] , [] => True | _ :: _, _ :: _ => True | _, _ => False end) ->
  (forall x y, hd_error b = Some x -> hd_error b' = Some y -> separator (TChar SemiColon) x = separator (TChar SemiColon) y) ->
  joined (declarations ds ++ b) = joined (declared ds ++ b').
Proof.
  intros [|[x s] r] b b' Ne E K H; [congruence|]. unfold declarations, declared. pose proof (joined_more r b b' E K H) as M. unfold more in M.
  cbn [app declarator fst snd]. rewrite <- !app_assoc. rewrite <- !app_assoc in M. rewrite !joined_cons.
  assert (X : exists y z, concat (map (fun d => [TChar Comma; declaration d]) r) ++ [TChar SemiColon] ++ b = y :: z /\ (y = TChar Comma \/ y = TChar SemiColon)) by (destruct r; cbn; eauto).
  assert (Y : exists y z, flat_map (fun d => TChar Comma :: declarator d) r ++ [TChar SemiColon] ++ b' = y :: z /\ (y = TChar Comma \/ y = TChar SemiColon)) by (destruct r; cbn; eauto).
  destruct X as (y1 & z1 & X1 & X2), Y as (y2 & z2 & Y1 & Y2). rewrite X1 in M |- *. rewrite Y1 in M |- *. rewrite M, show_other, show_string, show_declaration.
  destruct X2 as [-> | ->], Y2 as [-> | ->]; unfold separator; cbn [word_left word_right is_in char_or_string andb orb negb app declaration];
    rewrite <- ?app_assoc; reflexivity.
Qed.

(** ** The declarations are read back *)
Lemma comma_apart : forall p b, glued p (TChar Comma) b = false.
Proof. intros p b. cbn [glued]. unfold extends. destruct (follow (TChar Comma) b); reflexivity. Qed.
Lemma semicolon_apart : forall p b, glued p (TChar SemiColon) b = false.
Proof. intros p b. cbn [glued]. unfold extends. destruct (follow (TChar SemiColon) b); reflexivity. Qed.

Lemma equal_apart : forall p s, readable (TString s) -> glued p (TOperation Equal) (Some (TString s)) = false.
Proof.
  intros p s R. cbn [glued]. unfold follow, separator. cbn [word_left andb is_in orb app]. rewrite show_string.
  inversion R as [w t Ne O St E| |c t C E|o t O E| | |q b Q B E|b B E|b|b B|b g i B Hd].
  - pose proof (word_token_wordy w) as W. rewrite E in W. discriminate W.
  - exfalso. subst t. unfold simple_punct in C. repeat match type of C with (if ?b then _ else _) = _ => destruct b; [discriminate C|] end. discriminate C.
  - exfalso. subst t. unfold operators in O. cbn in O. repeat (destruct O as [O|O]; [congruence|]). exact O.
  - destruct Q as [-> | ->]; reflexivity.
  - reflexivity.
Qed.

Lemma declarator_parts : forall x s v r, readable (TString s) -> placed (TString s :: TOperation Equal :: TOther x :: v) r ->
  apart (TString s :: TOperation Equal :: TOther x :: v) r = true ->
  placed v (declarator (x, s) ++ r) /\ apart v (declarator (x, s) ++ r) = true.
Proof.
  intros x s v r R P A. split; [cbn; auto|]. cbn [declarator fst snd app apart hd_error]. rewrite A, (equal_apart _ s R). reflexivity.
Qed.

Lemma more_parts : forall r b, Forall (fun d => readable (TString (snd d))) r ->
  (forall v, placed (TChar SemiColon :: v) b /\ apart (TChar SemiColon :: v) b = true) -> forall v,
  placed v (more r ++ b) /\ apart v (more r ++ b) = true.
Proof.
  intros r b F H. unfold more. induction F as [|[x s] r R F IH]; intro v.
  - cbn [flat_map app placed apart]. rewrite semicolon_apart. destruct (H v) as [A B]. rewrite B. cbn. auto.
  - cbn [flat_map app placed apart]. rewrite comma_apart.
    change (declarator (x, s) ++ flat_map (fun d => TChar Comma :: declarator d) r) with (declarator (x, s) ++ flat_map (fun d => TChar Comma :: declarator d) r).
    rewrite <- !app_assoc. destruct (IH (TString s :: TOperation Equal :: TOther x :: TChar Comma :: v)) as [A B]. rewrite <- app_assoc in A, B.
    destruct (declarator_parts x s (TChar Comma :: v) _ R A B) as [A' B']. rewrite B'. cbn. auto.
Qed.

Lemma declared_parts : forall ds b, ds <> [] -> good ds ->
  (forall v, placed (TChar SemiColon :: v) b /\ apart (TChar SemiColon :: v) b = true) ->
  placed [] (declared ds ++ b) /\ apart [] (declared ds ++ b) = true.
Proof.
  intros [|[x s] r] b Ne [_ G] H; [congruence|]. unfold declared. cbn [app placed apart]. rewrite <- !app_assoc.
  assert (R : readable (TString s)) by exact (proj2 (G x s (or_introl eq_refl))).
  assert (F : Forall (fun d => readable (TString (snd d))) r) by (apply Forall_forall; intros [y t] I; exact (proj2 (G y t (or_intror I)))).
  destruct (more_parts r b F H (TString s :: TOperation Equal :: TOther x :: [TKeyword KVar])) as [A B]. unfold more in A, B. rewrite <- app_assoc in A, B.
  destruct (declarator_parts x s [TKeyword KVar] _ R A B) as [A' B']. rewrite B'. cbn. auto.
Qed.

Lemma declared_readable : forall ds, good ds -> Forall readable (declared ds) /\ Forall (fun t => useless t = false) (declared ds).
Proof.
  intros ds [_ G].
  assert (K : readable (TKeyword KVar)) by (apply (re_word (S_ "var") []); [discriminate| |reflexivity]; split; [repeat (constructor; [left; reflexivity|]); constructor|];
    intros a b E; exfalso; assert (I : In 0x2E (S_ "var")) by (rewrite E; apply in_or_app; right; now left); cbn in I; intuition discriminate).
  assert (D : forall x s, In (x, s) ds -> Forall readable (declarator (x, s)) /\ Forall (fun t => useless t = false) (declarator (x, s))).
  { intros x s I. destruct (G x s I) as [A B]. split; repeat constructor; try assumption.
    - now apply new_name_readable.
    - apply (re_operator [0x3D]). cbn. auto. }
  assert (C : readable (TChar Comma)) by (apply (re_punct 0x2C); reflexivity).
  assert (S : readable (TChar SemiColon)) by (apply (re_punct 0x3B); reflexivity).
  destruct ds as [|[x s] r]; [split; constructor|]. unfold declared.
  assert (M : forall f : token -> Prop, f (TChar Comma) -> f (TChar SemiColon) -> (forall y t, In (y, t) r -> Forall f (declarator (y, t))) -> Forall f (flat_map (fun d => TChar Comma :: declarator d) r ++ [TChar SemiColon])).
  { intros f F1 F2 F3. clear D G. induction r as [|[y t] r IH]; [repeat constructor; exact F2|]. cbn [flat_map]. rewrite <- app_assoc. cbn [app]. constructor; [exact F1|].
    apply Forall_app. split; [apply F3; now left|]. apply IH. intros z w I. apply F3. now right. }
  destruct (D x s (or_introl eq_refl)) as [D1 D2].
  split.
  - constructor; [exact K|]. apply Forall_app. split; [exact D1|]. apply M; [exact C|exact S|]. intros y t I. exact (proj1 (D y t (or_intror I))).
  - constructor; [reflexivity|]. apply Forall_app. split; [exact D2|]. apply M; [reflexivity|reflexivity|]. intros y t I. exact (proj2 (D y t (or_intror I))).
Qed.

(** ** The whole text *)
Lemma swapped_head : forall whole ds us body, Forall2 (swapped whole ds) us body ->
  forall x y, hd_error body = Some x -> hd_error (map plain body) = Some y -> separator (TChar SemiColon) x = separator (TChar SemiColon) y.
Proof.
  intros whole ds us body F x y X Y. destruct body as [|t body]; [discriminate X|]. cbn in X, Y. injection X as ->. injection Y as <-.
  unfold separator. cbn [word_left char_or_string negb]. rewrite !andb_false_r. reflexivity.
Qed.

Theorem text_read_back : forall whole ds us body, good ds -> Forall2 (swapped whole ds) us body -> ds <> [] ->
  Forall readable us -> Forall (fun t => useless t = false) us -> placed [] us -> apart [] us = true -> clear_of_words whole us = true ->
  js_minify_tokens (tokens_show (declarations ds ++ body)) = Ok (declared ds ++ map plain body).
Proof.
  intros whole ds us body G F Ne R U P A C. pose proof (swapped_plains whole ds us body G F) as Fp.
  assert (R' : Forall readable (map plain body)).
  { clear - R Fp. induction Fp as [|t t' us pb S F IH]; [constructor|]. inversion R; subst. constructor; [now apply (swap_readable whole t)|auto]. }
  assert (U' : Forall (fun t => useless t = false) (map plain body)).
  { clear - U Fp. induction Fp as [|t t' us pb S F IH]; [constructor|]. inversion U; subst. constructor; [now rewrite (swap_useless whole t)|auto]. }
  assert (Q : forall v, placed (TChar SemiColon :: v) (map plain body) /\ apart (TChar SemiColon :: v) (map plain body) = true).
  { intro v. split; [now apply (swap_placed whole us _ Fp [])|]. apply (apart_swap whole us _ Fp []); try assumption; [|reflexivity]. intros f H. exact H. }
  destruct (declared_parts ds (map plain body) Ne G Q) as [P2 A2]. destruct (declared_readable ds G) as [R2 U2].
  assert (T : tokens_show (declarations ds ++ body) = joined (declared ds ++ map plain body)).
  { rewrite tokens_show_joined. apply joined_declared; [exact Ne|exact (joined_body whole ds us body F R C)|destruct body; exact I|exact (swapped_head whole ds us body F)]. }
  rewrite T.
  assert (R3 : Forall readable (declared ds ++ map plain body)) by (apply Forall_app; auto).
  assert (U3 : Forall (fun t => useless t = false) (declared ds ++ map plain body)) by (apply Forall_app; auto).
  pose proof (joined_lexes _ R3 U3 P2 A2) as L. unfold js_minify_tokens. rewrite (lexes_tokenize _ _ L). cbn [obind]. apply clean_spaced; [exact U3|].
  destruct ds as [|d r]; [congruence|discriminate].
Qed.

(** ** Back to the program *)
Lemma value_of_in : forall ds x s, NoDup (map fst ds) -> In (x, s) ds -> value_of ds x = Some s.
Proof.
  induction ds as [|[y t] ds IH]; intros x s N I; [destruct I|]. cbn [map fst] in N. inversion N as [|? ? N1 N2]; subst. cbn [value_of]. destruct I as [I|I].
  - injection I as -> ->. rewrite str_eqb_refl. reflexivity.
  - destruct (str_eqb x y) eqn:E; [|now apply IH]. apply str_eqb_eq in E. subst y. exfalso. apply N1. apply in_map_iff. exists (x, s). auto.
Qed.

Lemma value_of_some : forall ds x s, value_of ds x = Some s -> In (x, s) ds.
Proof.
  induction ds as [|[y t] ds IH]; intros x s H; [discriminate H|]. cbn [value_of] in H. destruct (str_eqb x y) eqn:E; [|right; now apply IH].
  injection H as <-. apply str_eqb_eq in E. subst y. now left.
Qed.

Lemma inlined_swapped : forall whole ds us body, good ds -> Forall2 (swapped whole ds) us body -> no_r_names us -> inlined ds (map plain body) = us.
Proof.
  intros whole ds us body G F. induction F as [|t t' us body S F IH]; intro N; [reflexivity|]. cbn [map]. unfold inlined. cbn [map]. f_equal.
  - destruct S as [[-> C]|(s & x & -> & T & I & ->)].
    + destruct t as [k|c|s|s|s|s|b0 g i|o|o|s|s|n|s]; try reflexivity; [|exfalso; exact (C _ eq_refl)]. cbn [plain]. destruct (value_of ds s) as [l|] eqn:V; [|reflexivity].
      exfalso. apply value_of_some in V. destruct G as [_ G]. destruct (G _ _ V) as [(y & -> & _) _]. apply (N y). now left.
    + cbn [plain]. rewrite (value_of_in ds x s (proj1 G) I). reflexivity.
  - apply IH. intros y I. apply (N y). now right.
Qed.

(** ** What the aggregation gives *)
Lemma aggregation_swapped : forall ts vars ds ts', aggregation ts vars ds ts' -> no_r_names ts -> Forall readable ts ->
  (forall x, ~ In (TCreatedVar x) ts) -> good ds /\ Forall2 (swapped ts ds) ts ts'.
Proof.
  intros ts vars ds ts' A N R NC.
  assert (V : forall s, vars s = None).
  { intro s. destruct (vars s) as [[n v]|] eqn:E; [|reflexivity]. exfalso. destruct (an_vars _ _ _ _ A s n v E) as (x & _ & (X & y & ->) & _). apply (N y). now apply nth_error_In in X. }
  assert (T : forall x s, In (x, s) ds -> twice ts (TString s) = true /\ In (TString s) ts).
  { intros x s I. destruct (an_pays _ _ _ _ A x s I) as (_ & O & _). split; [cbn [twice]; now apply Nat.leb_le|]. unfold occurrences in O.
    destruct (filter (fun t => match t with TString x0 => str_eqb x0 s | _ => false end) ts) as [|t l] eqn:F; [cbn in O; lia|].
    assert (J : In t (t :: l)) by now left. rewrite <- F in J. apply filter_In in J. destruct J as [J M]. destruct t; try discriminate M. apply str_eqb_eq in M. now subst. }
  split.
  - split; [exact (an_names _ _ _ _ A)|]. intros x s I. split.
    + destruct (an_next _ _ _ _ A x s I) as (k & -> & _). destruct (name_shape k) as (l & E & Al & _). exists l. auto.
    + rewrite Forall_forall in R. apply R. exact (proj2 (T x s I)).
  - assert (Z : forall i t, nth_error ts i = Some t -> exists t', nth_error ts' i = Some t' /\ swapped ts ds t t').
    { intros i t E. destruct (an_tokens _ _ _ _ A i t E) as (t' & E' & G). exists t'. split; [exact E'|].
      assert (K : forall x, t <> TCreatedVar x) by (intros x ->; apply nth_error_In in E; exact (NC x E)).
      destruct G as [t H|s x H I|s n H|s n v x H|s H1 H2]; try (left; split; [reflexivity|exact K]).
      - right. exists s, x. split; [reflexivity|]. split; [exact (proj1 (T x s I))|auto].
      - rewrite V in H. discriminate H. }
    pose proof (an_length _ _ _ _ A) as L. clear - Z L. generalize dependent ts'. generalize (swapped ts ds). intros P ts'. revert ts'. induction ts as [|t ts IH]; intros [|t' ts'] Z L; try discriminate L; [constructor|].
    constructor.
    + destruct (Z 0%nat t eq_refl) as (y & E & H). cbn in E. injection E as ->. exact H.
    + apply IH; [|now injection L]. intros i x E. exact (Z (S i) x E).
Qed.

(** ** Cleaning before and after *)
Lemma useful_swapped : forall whole ds us body, Forall2 (swapped whole ds) us body ->
  Forall2 (swapped whole ds) (filter (fun t => negb (useless t)) us) (filter (fun t => negb (useless t)) body).
Proof.
  intros whole ds us body F. induction F as [|t t' us body S F IH]; [constructor|]. cbn [filter].
  assert (E : useless t' = useless t) by (destruct S as [[-> _]|(s & x & -> & _ & _ & ->)]; reflexivity). rewrite E.
  destruct (useless t); cbn [negb]; [exact IH|constructor; assumption].
Qed.

Lemma occurrences_app : forall a b s, occurrences (a ++ b) s = (occurrences a s + occurrences b s)%nat.
Proof. intros a b s. unfold occurrences. rewrite filter_app, app_length. reflexivity. Qed.

Lemma occurrences_useful : forall ts s, occurrences (filter (fun t => negb (useless t)) ts) s = occurrences ts s.
Proof.
  intros ts s. unfold occurrences. induction ts as [|t ts IH]; [reflexivity|]. cbn [filter]. destruct (useless t) eqn:U; cbn [negb filter].
  - rewrite IH. destruct t; try reflexivity. discriminate U.
  - destruct (match t with TString x => str_eqb x s | _ => false end); cbn [length]; now rewrite IH.
Qed.

Lemma occurrences_semis : forall semis s, Forall is_semicolon semis -> occurrences semis s = 0%nat.
Proof. intros semis s F. induction F as [|t r H F IH]; [reflexivity|]. rewrite H. exact IH. Qed.

Lemma twice_clean : forall ts semis u, filter (fun t => negb (useless t)) ts = semis ++ u -> Forall is_semicolon semis -> forall t, twice ts t = twice u t.
Proof.
  intros ts semis u E F [] ; try reflexivity. cbn [twice]. rewrite <- (occurrences_useful ts), E, occurrences_app, (occurrences_semis semis _ F). reflexivity.
Qed.

Lemma clear_ext : forall a b l, (forall t, twice a t = twice b t) -> clear_of_words a l = clear_of_words b l.
Proof.
  intros a b l H. induction l as [|x l IH]; [reflexivity|]. cbn [clear_of_words]. destruct l as [|y l]; [reflexivity|]. rewrite !H, IH. reflexivity.
Qed.

Lemma clear_semis : forall semis u, Forall is_semicolon semis -> clear_of_words u (semis ++ u) = clear_of_words u u.
Proof.
  intros semis u F. generalize u at 1 3 as whole. intro whole. induction F as [|t r H F IH]; [reflexivity|]. rewrite H. cbn [app clear_of_words]. rewrite IH. destruct (r ++ u) as [|b l] eqn:E.
  - apply app_eq_nil in E. destruct E as [-> ->]. reflexivity.
  - cbn [wordy twice]. cbn [orb andb]. rewrite andb_false_r. reflexivity.
Qed.

Lemma apart_semis : forall semis u, Forall is_semicolon semis -> forall v v', regex_here v = true -> regex_here v' = true ->
  before_ok v v' -> apart v u = true -> before_ok v [TChar SemiColon] -> apart v' (semis ++ u) = true.
Proof.
  intros semis u F. induction F as [|t r H F IH]; intros v v' R R' B A B2.
  - cbn [app]. revert A. assert (Rr : regex_here v = regex_here v') by congruence. clear R R' B2. revert v v' Rr B. induction u as [|a u IH]; intros v v' Rr B A; [reflexivity|]. cbn [apart] in *.
    apply andb_true_iff in A. destruct A as [A A3]. apply andb_true_iff in A. destruct A as [A1 A2]. apply andb_true_iff. split; [apply andb_true_iff; split; apply negb_true_iff|].
    + apply negb_true_iff in A1. revert A1. destruct a as [k|c|s|s|s|s|b0 g i|o|o|s|s|n|s]; try exact (fun x => x). destruct c; try exact (fun x => x). cbn [glued]. apply B.
    + apply negb_true_iff in A2. destruct a as [k|c|s|s|s|s|b0 g i|o|o|s|s|n|s]; try reflexivity. destruct o; try reflexivity; cbn [stray] in *; now rewrite <- Rr.
    + apply (IH (a :: v)); [exact (regex_here_app [a] v v' Rr)|intros f X; exact X|exact A3].
  - rewrite H. cbn [app apart]. rewrite semicolon_apart. cbn [stray negb andb]. apply (IH v); try assumption. reflexivity.
Qed.

Lemma known_plain : forall ts, Forall readable ts -> forall x, ~ In (TCreatedVar x) ts.
Proof.
  intros ts R x I. rewrite Forall_forall in R. specialize (R _ I).
  inversion R as [w t Ne O St E| |c t C E|o t O E| | |q b Q B E|b B E|b|b B|b g i B Hd].
  - pose proof (word_token_wordy w) as W. rewrite E in W. discriminate W.
  - subst t. unfold simple_punct in C. repeat match type of C with (if ?b then _ else _) = _ => destruct b; [discriminate C|] end. discriminate C.
  - subst t. unfold operators in O. cbn in O. repeat (destruct O as [O|O]; [congruence|]). exact O.
Qed.

Lemma declarations_useful : forall ds, filter (fun t => negb (useless t)) (declarations ds) = declarations ds.
Proof.
  intros [|d r]; [reflexivity|]. unfold declarations. cbn [filter useless negb declaration]. do 2 f_equal.
  induction r as [|e r IH]; [reflexivity|]. cbn [map concat app filter useless negb declaration]. do 2 f_equal. exact IH.
Qed.

Section Order.
Variable order : forall A : Type, list A -> list A.
Hypothesis order_ok : forall A (l : list A), Permutation (order A l) l.

Theorem pipelines : forall s ts0 u, lexes s ts0 -> js_minify_tokens s = Ok u ->
  no_r_names u -> apart [] u = true -> clear_of_words u u = true ->
  forall run, run = documented order \/ run = clean_first order ->
  exists d ds semis body, run s = Ok d /\ js_minify_tokens d = Ok (declared ds ++ semis ++ body)
    /\ Forall is_semicolon semis /\ (ds = [] -> semis = [])
    /\ NoDup (map fst ds) /\ (forall x l, In (x, l) ds -> (2 <= occurrences u l)%nat)
    /\ inlined ds body = u.
Proof.
  intros s ts0 u L M N A C run Run. pose proof (lexes_tokenize s ts0 L) as T. unfold js_minify_tokens in M. rewrite T in M. cbn [obind] in M.
  destruct (lexes_known s ts0 L) as [R0 S0]. destruct (cleaned_known s ts0 u L M) as (R & U & P & H).
  destruct (clean_tokens_spec ts0) as (semis & rest & E & F & X & _). rewrite M in E. injection E as <-.
  destruct (round_trip s ts0 u L M A) as (RT1 & RT2 & RT3 & RT4).
  assert (RT : js_minify_tokens (tokens_show u) = Ok u) by (rewrite tokens_show_joined; unfold js_minify_tokens; rewrite (lexes_tokenize _ _ RT2); exact RT3).
  assert (N0 : no_r_names ts0).
  { intros y I. apply (N y). assert (J : In (TOther (S_ "r_" ++ y)) (filter (fun t => negb (useless t)) ts0)) by (apply filter_In; auto). rewrite F in J.
    apply in_app_or in J. destruct J as [J|J]; [|exact J]. rewrite Forall_forall in X. specialize (X _ J). discriminate X. }
  destruct Run as [-> | ->].
  - (* documented *)
    destruct (aggregate_spec order order_ok ts0 None) as (vars & ds & ts' & E & G). cbn [app] in E.
    destruct (aggregation_swapped ts0 vars ds ts' G N0 R0 (known_plain ts0 R0)) as [Gd Fw]. pose proof (useful_swapped ts0 ds ts0 ts' Fw) as Fu. rewrite F in Fu.
    assert (O : forall x l, In (x, l) ds -> (2 <= occurrences u l)%nat).
    { intros x l I. destruct (an_pays _ _ _ _ G x l I) as (_ & O & _). rewrite <- (occurrences_useful ts0), F, occurrences_app, (occurrences_semis semis _ X) in O. exact O. }
    unfold documented, aggregate_strings. rewrite T. cbn [obind]. rewrite E. cbn [obind]. rewrite clean_tokens_eq. cbn [obind]. rewrite filter_app, declarations_useful.
    destruct ds as [|d0 r].
    + assert (K : filter (fun t => negb (useless t)) ts' = semis ++ u).
      { clear - Fu. revert Fu. generalize (semis ++ u). intros l Fu. induction Fu as [|t t' l l' S Fu IH]; [reflexivity|]. f_equal; [|exact IH]. destruct S as [[-> _]|(s & x & _ & _ & [] & _)]. reflexivity. }
      cbn [declarations app]. rewrite K. assert (D : drop_semicolons (semis ++ u) = u) by (rewrite <- F; rewrite clean_tokens_eq in M; now injection M). rewrite D.
      exists (tokens_show u), [], [], u. split; [reflexivity|]. split; [exact RT|]. split; [constructor|]. split; [reflexivity|]. split; [constructor|]. split; [intros x l []|].
      unfold inlined. clear. induction u as [|t u IH]; [reflexivity|]. cbn [map]. rewrite IH. destruct t; reflexivity.
    + assert (D : forall l, drop_semicolons (declarations (d0 :: r) ++ l) = declarations (d0 :: r) ++ l) by reflexivity. rewrite D.
      pose proof (twice_clean ts0 semis u F X) as Tw.
      apply Forall2_app_inv_l in Fu. destruct Fu as (b1 & b2 & Fs & Fu & EB). rewrite EB.
      assert (B1 : b1 = semis).
      { clear - Fs X. induction Fs as [|t t' l l' S Fs IH]; [reflexivity|]. inversion X as [|? ? Ht X']; subst. f_equal; [|now apply IH]. destruct S as [[-> _]|(s & x & E & _)]; [reflexivity|]. rewrite Ht in E. discriminate E. }
      subst b1.
      assert (All : Forall readable (semis ++ u) /\ Forall (fun t => useless t = false) (semis ++ u) /\ placed [] (semis ++ u)).
      { rewrite <- F. split; [|split].
        - apply Forall_forall. intros t I. apply filter_In in I. rewrite Forall_forall in R0. now apply R0.
        - apply Forall_forall. intros t I. apply filter_In in I. now apply negb_true_iff.
        - apply placed_slashes. rewrite app_nil_r. change (fun t0 : token => negb (useless t0)) with useful. rewrite <- filter_rev. now apply slashes_filter. }
      destruct All as (A1 & A2 & A3).
      assert (A4 : apart [] (semis ++ u) = true) by (apply (apart_semis semis u X []); try reflexivity; try assumption; intros f Y; exact Y).
      assert (A5 : clear_of_words ts0 (semis ++ u) = true) by (rewrite (clear_ext ts0 u _ Tw), clear_semis; assumption).
      assert (Fz : Forall2 (swapped ts0 (d0 :: r)) (semis ++ u) (semis ++ b2)) by (apply Forall2_app; assumption).
      eexists. exists (d0 :: r), semis, (map plain b2). split; [reflexivity|].
      split; [|split; [exact X|split; [discriminate|split; [exact (proj1 Gd)|split; [exact O|]]]]].
      * rewrite (text_read_back ts0 (d0 :: r) (semis ++ u) (semis ++ b2) Gd Fz ltac:(discriminate) A1 A2 A3 A4 A5). rewrite map_app. do 2 f_equal.
        clear - X. induction X as [|t l Ht X IH]; [reflexivity|]. unfold is_semicolon in Ht. subst t. cbn [map plain app]. rewrite IH. reflexivity.
      * exact (inlined_swapped ts0 (d0 :: r) u b2 Gd Fu N).
  - (* clean first *)
    destruct (aggregate_spec order order_ok u None) as (vars & ds & ts' & E & G). cbn [app] in E.
    destruct (aggregation_swapped u vars ds ts' G N R (known_plain u R)) as [Gd Fw].
    unfold clean_first, aggregate_strings. rewrite T. cbn [obind]. rewrite M. cbn [obind]. rewrite E. cbn [obind].
    assert (O : forall x l, In (x, l) ds -> (2 <= occurrences u l)%nat) by (intros x l I; exact (proj1 (proj2 (an_pays _ _ _ _ G x l I)))).
    exists (tokens_show (declarations ds ++ ts')), ds, [], (map plain ts'). split; [reflexivity|].
    split; [|split; [constructor|split; [reflexivity|split; [exact (proj1 Gd)|split; [exact O|exact (inlined_swapped u ds u ts' Gd Fw N)]]]]].
    cbn [app]. destruct ds as [|d0 r].
    + assert (K : ts' = u).
      { clear - Fw. induction Fw as [|t t' l l' S Fu IH]; [reflexivity|]. f_equal; [|exact IH]. destruct S as [[-> _]|(s & x & _ & _ & [] & _)]. reflexivity. }
      subst ts'. cbn [declarations declared app]. rewrite RT. f_equal. pose proof (known_plain u R) as Q. clear - Q. induction u as [|t u IH]; [reflexivity|]. cbn [map].
      rewrite <- IH; [|intros x I; apply (Q x); now right]. f_equal. destruct t; try reflexivity. exfalso. exact (Q _ (or_introl eq_refl)).
    + now apply (text_read_back u (d0 :: r) u ts').
Qed.
End Order.
