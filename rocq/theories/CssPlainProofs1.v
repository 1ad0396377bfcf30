(** Plain style sheets, first part: their pieces. *)
From Coq Require Import String Arith List NArith ZArith Bool Lia.
From Verif Require Import Base CssModel CssSpec CssProofs1 CssProofs2 CssProofs3 CssPlainSpec.
Import ListNotations.
Open Scope N_scope.

Definition filler_piece (f : filler) : piece := match f with Blank _ => PBlank | Comment b => PCom b end.

Definition part_pieces (p : part) : list piece :=
  match p with
  | Word w => map PChar w
  | Pseudo w => PPunct 0x3A :: map PChar w
  | At w => PChar 0x40 :: map PChar w
  | Quoted t => [PStr t]
  | Sign c => [PPunct c]
  | Match c => [PPunct c; PPunct 0x3D]
  | Licence _ b => [PLic b]
  | Escape c => [PBs; PChar c]
  end.

Definition item_pieces (i : item) : list piece :=
  match i with Between g => map filler_piece g | Piece p => part_pieces p end.

Definition all_pieces (l : list item) : list piece := flat_map item_pieces l.

(** ** Characters *)

Lemma among_in : forall l c, among l c = true <-> In c l.
Proof.
  intros l c. unfold among. rewrite existsb_exists. split.
  - intros (d & H & E). apply N.eqb_eq in E. now subst.
  - intro H. exists c. split; [exact H | apply N.eqb_refl].
Qed.

Lemma among_out : forall l c, among l c = false -> forall d, In d l -> (c =? d) = false.
Proof.
  intros l c H d K. destruct (N.eqb_spec c d); [|reflexivity]. subst. apply among_in in K. congruence.
Qed.

Lemma word_char_none : forall c, word_char c = true -> rchar_of c = None.
Proof.
  intros c H. unfold word_char in H. apply negb_true_iff in H. apply orb_false_iff in H. destruct H as [H Q]. apply orb_false_iff in H. destruct H as [H B].
  pose proof (among_out _ _ H) as HS. pose proof (among_out _ _ B) as HB. pose proof (among_out _ _ Q) as HQ.
  unfold rchar_of. repeat (match goal with |- context [c =? ?d] => first [rewrite (HS d) by (cbn; tauto) | rewrite (HB d) by (cbn; tauto) | rewrite (HQ d) by (cbn; tauto)] end; cbn [orb]).
  reflexivity.
Qed.

Lemma signs_punct : forall c, among signs c = true -> punct_char c = true.
Proof. intros c H. exact H. Qed.

Lemma blanks_blank : forall c, among blanks c = true -> blank_char c = true.
Proof.
  intros c H. apply among_in in H. cbn in H. unfold blank_char.
  destruct H as [<-|[<-|[<-|[<-|[]]]]]; reflexivity.
Qed.

(** ** One piece *)

Lemma lex_char : forall c r, word_char c = true -> lex (c :: r) = pcons (PChar c) (lex r).
Proof.
  intros c r H. apply word_char_none in H. destruct (class_word c H) as (A1 & A2 & A3 & A4 & A5).
  unfold lex. cbn [length lexf]. rewrite A1, A2, A3, A4, A5. reflexivity.
Qed.

Lemma lex_blank : forall c r, among blanks c = true -> lex (c :: r) = pcons PBlank (lex r).
Proof. intros c r H. unfold lex. cbn [length]. apply lexf_blank, blanks_blank, H. Qed.

Lemma lex_sign : forall c r, among signs c = true -> (c = 0x2F -> begins (N.eqb 0x2A) r = false) ->
  lex (c :: r) = pcons (PPunct c) (lex r).
Proof.
  intros c r H K. unfold lex. cbn [length]. destruct (N.eqb_spec c 0x2F) as [->|E].
  - apply lexf_slash. specialize (K eq_refl). destruct r as [|d r]; [reflexivity|]. cbn [begins] in K. now rewrite N.eqb_sym.
  - destruct (punct_char_rchar c H) as (k & Hk & -> & Hu & K1 & K2 & K3). apply lexf_punct; auto.
    intros ->. apply E. reflexivity.
Qed.

Lemma str_body_closes : forall n q t r, (length t <= n)%nat -> closes_at_end q t = true -> str_body q (t ++ r) = Some (t, r).
Proof.
  induction n as [|n IH]; intros q t r Hl H.
  - destruct t; [discriminate | cbn in Hl; lia].
  - destruct t as [|c t]; [discriminate|]. cbn [closes_at_end app str_body length] in *.
    destruct (c =? 0x5C).
    + destruct t as [|d t]; [discriminate|]. cbn [app length] in *. rewrite IH; [reflexivity | lia | exact H].
    + destruct (c =? q).
      * destruct t; [reflexivity | discriminate].
      * rewrite IH; [reflexivity | lia | exact H].
Qed.

Lemma lex_quoted : forall q t r, among [0x22; 0x27] q = true -> closes_at_end q t = true ->
  lex (q :: t ++ r) = pcons (PStr (q :: t)) (lex r).
Proof.
  intros q t r Hq H. unfold lex. cbn [length].
  assert (E : q = 0x27 \/ q = 0x22) by (apply among_in in Hq; cbn in Hq; intuition). rewrite lexf_string by exact E. rewrite (str_body_closes (length t)) by (try exact H; lia).
  rewrite (lexf_fuel _ (length r)); [reflexivity | rewrite app_length; lia | lia].
Qed.

Lemma com_body_endless : forall b r, endless b = true -> com_body (b ++ [0x2A; 0x2F] ++ r) = Some (b, r).
Proof.
  induction b as [|c b IH]; intros r H; [reflexivity|]. cbn [endless] in H. apply andb_true_iff in H. destruct H as [A B].
  cbn [app com_body]. apply negb_true_iff in A.
  assert (E : (c =? 0x2A) && match b ++ 0x2A :: 0x2F :: r with d :: _ => d =? 0x2F | [] => false end = false).
  { destruct b as [|d b]; cbn [app begins] in *; [apply andb_false_r|]. rewrite (N.eqb_sym d). exact A. }
  change (b ++ 42 :: 47 :: r) with (b ++ [42; 47] ++ r) in E. cbn [app] in E |- *. rewrite E. change (42 :: 47 :: r) with ([0x2A; 0x2F] ++ r). rewrite (IH r B). reflexivity.
Qed.

Lemma lex_comment_gen : forall s p r m, comment_at s = Some (p, r) -> m = length s -> lexf (S (S m)) (0x2F :: 0x2A :: s) = pcons p (lex r).
Proof.
  intros s p r m E ->. rewrite lexf_comment, E. apply comment_at_length in E.
  unfold lex. rewrite (lexf_fuel _ (length r)); [reflexivity | lia | lia].
Qed.

Lemma lex_comment : forall b r, endless b = true -> negb (begins (among (S_ "!*")) b) = true ->
  lex (comment_text b ++ r) = pcons (PCom b) (lex r).
Proof.
  intros b r H K. unfold comment_text. rewrite <- !app_assoc. cbn [app]. unfold lex at 1. cbn [length].
  apply lex_comment_gen; [|reflexivity]. pose proof (com_body_endless b r H) as E. cbn [app] in E.
  unfold comment_at. rewrite E. destruct b as [|c b]; [reflexivity|]. cbn [app].
  apply negb_true_iff in K. cbn [begins] in K. pose proof (among_out _ _ K) as O.
  rewrite (O 0x21) by (cbn; tauto). rewrite (O 0x2A) by (cbn; tauto). reflexivity.
Qed.

Lemma lex_licence : forall c b r, endless b = true -> (c =? 0x21) || (c =? 0x2A) && negb (begins (N.eqb 0x2F) b) = true ->
  lex (comment_text (c :: b) ++ r) = pcons (PLic b) (lex r).
Proof.
  intros c b r H K. unfold comment_text. rewrite <- !app_assoc. cbn [app]. unfold lex at 1. cbn [length].
  apply lex_comment_gen; [|cbn [length]; reflexivity]. pose proof (com_body_endless b r H) as E. cbn [app] in E.
  unfold comment_at. rewrite E.
  assert (A : (c =? 33) || (c =? 42) && negb match b ++ 42 :: 47 :: r with d :: _ => d =? 47 | [] => false end = true).
  { destruct (c =? 0x21); [reflexivity|]. cbn [orb] in *. destruct (c =? 0x2A); [|discriminate]. cbn [andb] in *.
    destruct b as [|d b]; [reflexivity|]. cbn [app begins] in *. rewrite N.eqb_sym. exact K. }
  rewrite A. reflexivity.
Qed.

(** ** The whole sheet *)

Definition joined (ps : list piece) (x : list piece * option lexerr) : list piece * option lexerr := (ps ++ fst x, snd x).

Lemma pcons_joined : forall p ps x, pcons p (joined ps x) = joined (p :: ps) x.
Proof. reflexivity. Qed.

Lemma lex_word : forall w r, forallb word_char w = true -> lex (w ++ r) = joined (map PChar w) (lex r).
Proof.
  induction w as [|c w IH]; intros r H; cbn [app map forallb] in *.
  - unfold joined. cbn. destruct (lex r); reflexivity.
  - apply andb_true_iff in H. destruct H as [A B]. rewrite lex_char by exact A. rewrite IH by exact B. reflexivity.
Qed.

Lemma a_word_chars : forall w, a_word w = true -> w <> [] /\ forallb word_char w = true.
Proof. intros [|c w] H; [discriminate|]. split; [discriminate | exact H]. Qed.

Lemma lex_gap : forall g r, forallb filler_ok g = true -> lex (flat_map filler_text g ++ r) = joined (map filler_piece g) (lex r).
Proof.
  induction g as [|f g IH]; intros r H; cbn [flat_map map forallb] in *.
  - cbn [app]. unfold joined. cbn. destruct (lex r); reflexivity.
  - apply andb_true_iff in H. destruct H as [A B]. rewrite <- app_assoc. destruct f as [c|b]; cbn [filler_text filler_piece filler_ok] in *.
    + cbn [app]. rewrite lex_blank by exact A. rewrite IH by exact B. reflexivity.
    + apply andb_true_iff in A. destruct A as [A1 A2]. rewrite lex_comment by assumption. rewrite IH by exact B. reflexivity.
Qed.

Section Plain.
Variable letter_u : N -> bool.

Lemma lex_part : forall x p r, part_ok x p = true -> (p = Sign 0x2F -> begins (N.eqb 0x2A) r = false) ->
  lex (part_text p ++ r) = joined (part_pieces p) (lex r).
Proof.
  intros x p r H K. unfold part_ok in H. apply andb_true_iff in H. destruct H as [_ H].
  destruct p as [w|w|w|t|c|c|c b|c]; cbn [part_text part_pieces].
  - apply andb_true_iff in H. destruct H as [H _]. apply a_word_chars in H. destruct H as [_ H]. apply lex_word, H.
  - apply andb_true_iff in H. destruct H as [_ H]. apply a_word_chars in H. destruct H as [_ H]. cbn [app].
    rewrite lex_sign; [|reflexivity|discriminate]. rewrite lex_word by exact H. reflexivity.
  - apply andb_true_iff in H. destruct H as [_ H]. apply a_word_chars in H. destruct H as [_ H]. cbn [app].
    rewrite lex_char by reflexivity. rewrite lex_word by exact H. reflexivity.
  - destruct t as [|q t]; [discriminate|]. apply andb_true_iff in H. destruct H as [H1 H2]. cbn [app]. rewrite lex_quoted by assumption. reflexivity.
  - apply andb_true_iff in H. destruct H as [H _]. cbn [app]. rewrite lex_sign; [reflexivity | exact H |]. intros ->. apply K. reflexivity.
  - cbn [app]. assert (S1 : among signs c = true /\ c <> 0x2F) by (apply among_in in H; cbn in H; destruct H as [<-|[<-|[<-|[<-|[<-|[]]]]]]; split; (reflexivity || discriminate)).
    destruct S1 as [S1 S2]. rewrite lex_sign; [|exact S1|contradiction]. rewrite lex_sign; [reflexivity|reflexivity|discriminate].
  - apply andb_true_iff in H. destruct H as [H1 H2]. rewrite lex_licence by assumption. reflexivity.
  - cbn [app]. change (lex (0x5C :: c :: r)) with (pcons PBs (pcons (PChar c) (lexf (S (length r)) r))). rewrite (lexf_fuel (S (length r)) (length r) r) by lia. reflexivity.
Qed.

Lemma last_step : forall x p, last (step letter_u x p) = Some (kind_of letter_u x p).
Proof. reflexivity. Qed.

(** After a slash no star comes. *)
Lemma text_no_star : forall x l, plain letter_u x None l = true -> after 0x2F x = true -> begins (N.eqb 0x2A) (text l) = false.
Proof.
  intros x l H A. destruct l as [|[g|p] l]; [reflexivity|..]; cbn [plain text flat_map item_text] in *.
  - apply andb_true_iff in H. destruct H as [H _]. apply andb_true_iff in H. destruct H as [H1 H2]. destruct g as [|f g]; [discriminate|].
    cbn [forallb flat_map] in *. apply andb_true_iff in H2. destruct H2 as [H2 _]. destruct f as [c|b]; [|reflexivity]. cbn [filler_text filler_ok app begins] in *.
    apply among_in in H2. cbn in H2. destruct H2 as [<-|[<-|[<-|[<-|[]]]]]; reflexivity.
  - apply andb_true_iff in H. destruct H as [H _]. apply andb_true_iff in H. destruct H as [H1 H2]. unfold direct_ok in H2.
    apply andb_true_iff in H2. destruct H2 as [H2 _]. apply andb_true_iff in H2. destruct H2 as [_ H2]. rewrite A in H2. cbn [andb] in H2. apply negb_true_iff in H2.
    unfold part_ok in H1. apply andb_true_iff in H1. destruct H1 as [_ H1].
    destruct p as [w|w|w|t|c|c|c b|c]; cbn [part_text app begins] in *; try exact H2; try reflexivity.
    + apply andb_true_iff in H1. destruct H1 as [H1 _]. destruct w; [discriminate|]. exact H2.
    + destruct t; [discriminate|]. exact H2.
Qed.

Lemma lex_text : forall l x g, plain letter_u x g l = true -> lex (text l) = (all_pieces l, None).
Proof.
  induction l as [|i l IH]; intros x g H; [reflexivity|]. cbn [text flat_map all_pieces].
  fold (text l) (all_pieces l). destruct i as [g'|p]; cbn [plain item_text item_pieces] in *.
  - destruct g; [discriminate|]. apply andb_true_iff in H. destruct H as [H K]. apply andb_true_iff in H. destruct H as [_ H].
    rewrite lex_gap by exact H. rewrite (IH _ _ K). reflexivity.
  - apply andb_true_iff in H. destruct H as [H K]. apply andb_true_iff in H. destruct H as [H _].
    rewrite (lex_part x p); [rewrite (IH _ _ K); reflexivity | exact H |].
    intros ->. apply (text_no_star _ l K). reflexivity.
Qed.

End Plain.
