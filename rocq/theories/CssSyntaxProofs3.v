(** The source and its minification have the same chunks, hence the same tokens. *)
From Coq Require Import String Arith List NArith ZArith Bool Lia ZifyBool ZifyN.
From Verif Require Import Base CssModel CssSpec CssGapSpec CssProofs1 CssProofs3 CssProofs6 CssProofs7 CssProofs8 CssProofs9 CssProofs10 CssProofs11
  CssSyntaxSpec CssSyntaxProofs1 CssSyntaxProofs2.
Import ListNotations.
Open Scope N_scope.

(** ** Pieces and the text they were read from *)

Inductive spells : list piece -> str -> Prop :=
| sp_nil : spells [] []
| sp_char : forall c ps s, spells ps s -> spells (PChar c :: ps) (c :: s)
| sp_bs : forall ps s, spells ps s -> spells (PBs :: ps) (0x5C :: s)
| sp_blank : forall c ps s, blank_char c = true -> spells ps s -> spells (PBlank :: ps) (c :: s)
| sp_str : forall q t ps s, quote q = true -> spells ps s -> spells (PStr (q :: t) :: ps) ((q :: t) ++ s)
| sp_com : forall b k ps s, take_comment k = (CComment, false, s) -> spells ps s -> spells (PCom b :: ps) (0x2F :: 0x2A :: k)
| sp_lic : forall b k ps s, take_comment k = (CComment, false, s) -> spells ps s -> spells (PLic b :: ps) (0x2F :: 0x2A :: k)
| sp_punct : forall c ps s, punct_char c = true -> spells ps s -> spells (PPunct c :: ps) (c :: s).

Lemma str_body_text : forall q s t r, str_body q s = Some (t, r) -> s = t ++ r.
Proof.
  intros q s. remember (length s) as n eqn:L. assert (Hn : (length s <= n)%nat) by lia. clear L. revert s Hn.
  induction n as [|n IH]; intros s Hn t r H; (destruct s as [|c s]; [discriminate H|]); [cbn in Hn; lia|].
  cbn [str_body length] in *. destruct (c =? 0x5C).
  - destruct s as [|d s]; [discriminate H|]. destruct (str_body q s) as [[t' r']|] eqn:E; [|discriminate H]. injection H as <- <-.
    cbn [app]. rewrite (IH s ltac:(cbn [length] in Hn; lia) t' r' E) at 1. reflexivity.
  - destruct (c =? q); [injection H as <- <-; reflexivity|]. destruct (str_body q s) as [[t' r']|] eqn:E; [|discriminate H].
    injection H as <- <-. cbn [app]. rewrite (IH s ltac:(lia) t' r' E) at 1. reflexivity.
Qed.

Lemma com_body_comment : forall s b r, com_body s = Some (b, r) -> take_comment s = (CComment, false, r).
Proof.
  induction s as [|c s IH]; intros b r H; [discriminate H|]. cbn [com_body take_comment] in *. destruct s as [|d s].
  - cbn in H. rewrite andb_false_r in H. discriminate H.
  - destruct ((c =? 0x2A) && (d =? 0x2F)); [injection H as <- <-; reflexivity|].
    destruct (com_body (d :: s)) as [[b' r']|] eqn:E; [|discriminate H]. injection H as <- <-. eapply IH; reflexivity.
Qed.

Lemma com_body_length : forall s b r, com_body s = Some (b, r) -> (length r <= length s)%nat.
Proof.
  intros s b r H. apply com_body_comment in H. pose proof (comment_sfx s) as K. rewrite H in K. now apply sfx_length in K.
Qed.

Lemma comment_at_spec : forall s p r, comment_at s = Some (p, r) ->
  take_comment s = (CComment, false, r) /\ ((exists b, p = PCom b) \/ (exists b, p = PLic b)).
Proof.
  intros [|c s] p r H; [discriminate H|]. unfold comment_at in H.
  destruct ((c =? 0x21) || ((c =? 0x2A) && negb match s with d :: _ => d =? 0x2F | [] => false end)) eqn:E.
  - destruct (com_body s) as [[b r']|] eqn:Eb; [|discriminate H]. injection H as <- <-. split; [|right; eauto].
    apply com_body_comment in Eb. cbn [take_comment fst snd]. destruct s as [|d s]; [discriminate Eb|].
    destruct ((c =? 0x2A) && (d =? 0x2F)) eqn:K; [exfalso|exact Eb]. lia.
  - destruct (com_body (c :: s)) as [[b r']|] eqn:Eb; [|discriminate H]. injection H as <- <-. split; [|left; eauto].
    exact (com_body_comment _ _ _ Eb).
Qed.

Lemma lexf_spells : forall n s, (length s <= n)%nat -> snd (lexf n s) = None -> spells (fst (lexf n s)) s.
Proof.
  induction n as [|n IH]; intros s L H; [destruct s; [constructor|cbn in L; lia]|]. destruct s as [|c s]; [constructor|].
  cbn [lexf length] in *. destruct (N.eqb_spec c 0x5C) as [->|C1].
  { destruct s as [|d s]; [cbn; repeat constructor|]. cbn [pcons fst snd length] in *. apply sp_bs, sp_char, IH; [lia|exact H]. }
  destruct ((c =? 0x27) || (c =? 0x22)) eqn:C2.
  { destruct (str_body c s) as [[t r]|] eqn:E; [|discriminate H]. cbn [pcons fst snd] in *. apply str_body_text in E. subst s.
    change (c :: t ++ r) with ((c :: t) ++ r). apply sp_str; [unfold quote; lia|]. apply IH; [rewrite app_length in L; lia|exact H]. }
  destruct ((c =? 0x2F) && match s with d :: _ => d =? 0x2A | [] => false end) eqn:C3.
  { destruct s as [|d s]; [rewrite andb_false_r in C3; discriminate C3|]. apply andb_true_iff in C3. destruct C3 as [A B].
    apply N.eqb_eq in A, B. subst c d. cbn [tl length] in *. destruct (comment_at s) as [[p r]|] eqn:E; [|discriminate H].
    destruct (comment_at_spec s p r E) as [T [[b ->]|[b ->]]]; cbn [pcons fst snd] in *;
      pose proof (comment_sfx s) as K; rewrite T in K; apply sfx_length in K; cbn [snd] in K.
    - apply (sp_com _ _ _ r T). apply IH; [lia|exact H].
    - apply (sp_lic _ _ _ r T). apply IH; [lia|exact H]. }
  destruct (blank_char c) eqn:C4; [cbn [pcons fst snd] in *; apply sp_blank; [exact C4|]; apply IH; [lia|exact H]|].
  destruct (punct_char c) eqn:C5; cbn [pcons fst snd] in *; [apply sp_punct; [exact C5|]|apply sp_char]; (apply IH; [lia|exact H]).
Qed.

Lemma lex_spells : forall s, snd (lex s) = None -> spells (fst (lex s)) s.
Proof. intros s H. apply lexf_spells; [apply le_n|exact H]. Qed.

Lemma spells_app : forall a b S, spells (a ++ b) S -> Forall (fun p => gap_piece p = false) a ->
  exists S', S = text a ++ S' /\ spells b S'.
Proof.
  induction a as [|p a IH]; intros b S H F; [exists S; split; [reflexivity|exact H]|].
  inversion F as [|? ? F1 F2]. subst. cbn [app] in H.
  inversion H as [|c ps s H1|ps s H1|c ps s B H1|q t ps s Q H1|b' k ps s T H1|b' k ps s T H1|c ps s P H1]; subst; try discriminate F1;
    destruct (IH b _ H1 F2) as (S' & -> & HS'); exists S'; (split; [|exact HS']); cbn; rewrite <- ?app_assoc; reflexivity.
Qed.

(** ** Gaps have no significant token *)

Lemma blank_white : forall c, blank_char c = true -> white c = true.
Proof. intros c H. unfold blank_char, white, newline in *. lia. Qed.

Lemma syntax_cons : forall c s, syntax (c :: s) =
  let '(t, e, r) := consume (c :: s) in (if significant t then [t] else []) ++ syntax r.
Proof.
  intros c s. unfold syntax. rewrite css_tokens_cons. destruct (consume (c :: s)) as [[t e] r]. cbn [map fst filter].
  destruct (significant t); reflexivity.
Qed.

Lemma syntax_white : forall c s, white c = true -> syntax (c :: s) = syntax (skip_white s).
Proof. intros c s H. rewrite syntax_cons. unfold consume. rewrite H. reflexivity. Qed.

Lemma syntax_skip : forall s, syntax (skip_white s) = syntax s.
Proof.
  induction s as [|c s IH]; [reflexivity|]. cbn [skip_white]. destruct (white c) eqn:W; [|reflexivity].
  rewrite (syntax_white c s W). reflexivity.
Qed.

Lemma syntax_blank : forall c s, blank_char c = true -> syntax (c :: s) = syntax s.
Proof. intros c s H. rewrite (syntax_white c s (blank_white c H)). apply syntax_skip. Qed.

Lemma syntax_comment : forall k s, take_comment k = (CComment, false, s) -> syntax (0x2F :: 0x2A :: k) = syntax s.
Proof.
  intros k s H. rewrite syntax_cons. change (consume (0x2F :: 0x2A :: k)) with (take_comment k). rewrite H. reflexivity.
Qed.

Lemma syntax_gap : forall p ps S, gap_piece p = true -> spells (p :: ps) S -> exists S', spells ps S' /\ syntax S = syntax S'.
Proof.
  intros p ps S G H. inversion H; subst; try discriminate G; eexists; (split; [eassumption|]).
  - now apply syntax_blank.
  - now apply syntax_comment.
  - now apply syntax_comment.
Qed.

(** ** The source and the output, from left to right *)

Inductive mate : list piece -> list piece -> list piece -> Prop :=
| mt_nil : forall pre, mate pre [] []
| mt_keep : forall pre p s o, mate (pre ++ [p]) s o -> mate pre (p :: s) (p :: o)
| mt_drop : forall pre p s o, mate (pre ++ [p]) s o -> separator p -> mate pre (p :: s) o
| mt_blank : forall pre p s o, mate (pre ++ [p]) s o -> separator p -> mate pre (p :: s) (PBlank :: o)
| mt_rule : forall pre s o, mate pre s o -> rule_word pre -> ~ word_next s -> mate pre s (PBlank :: o)
| mt_licence : forall pre b s o, mate (pre ++ [PLic b]) s o -> mate pre (PLic b :: s) (PLic b :: PBlank :: o).

Lemma tame_mate : forall full s1 o1, tame full s1 o1 -> forall s2 o2, full = s1 ++ s2 -> mate s1 s2 o2 -> mate [] full (o1 ++ o2).
Proof.
  intros full s1 o1 H. induction H as [|s o p H IH|s o p H IH S|s o p H IH S|s o r H IH E R W B|s o b H IH]; intros s2 o2 Ef M;
    rewrite <- ?app_assoc; cbn [app].
  - cbn [app] in Ef. subst s2. exact M.
  - rewrite <- app_assoc in Ef. apply (IH _ _ Ef). cbn [app]. now apply mt_keep.
  - rewrite <- app_assoc in Ef. apply (IH _ _ Ef). cbn [app]. now apply mt_drop.
  - rewrite <- app_assoc in Ef. apply (IH _ _ Ef). cbn [app]. now apply mt_blank.
  - apply (IH _ _ Ef). apply mt_rule; [exact M|exact R|]. rewrite E in Ef. apply app_inv_head in Ef. subst s2. exact W.
  - rewrite <- app_assoc in Ef. apply (IH _ _ Ef). cbn [app]. now apply mt_licence.
Qed.

(** The part of the output before a place of the source, by the solid pieces. *)
Lemma mate_head : forall pre s o, mate pre s o -> forall b o2, o = b :: o2 -> gap_piece b = false ->
  exists g r, s = g ++ b :: r /\ Forall separator g /\ mate (pre ++ g ++ [b]) r o2.
Proof.
  intros pre s o H. induction H as [pre|pre p s o H IH|pre p s o H IH S|pre p s o H IH S|pre s o H IH R W|pre b s o H IH]; intros b' o2 E G.
  - discriminate E.
  - injection E as -> ->. exists [], s. split; [reflexivity|]. split; [constructor|exact H].
  - subst o. destruct (IH b' o2 eq_refl G) as (g & r & -> & F & M). exists (p :: g), r. split; [reflexivity|].
    split; [constructor; assumption|]. rewrite <- app_assoc in M. exact M.
  - injection E as <- <-. discriminate G.
  - injection E as <- <-. discriminate G.
  - injection E as <- <-. discriminate G.
Qed.

Lemma separator_gap : forall p, separator p -> gap_piece p = true.
Proof. intros p [->|[b ->]]; reflexivity. Qed.

(** ** Items and solid pieces *)

Definition weight (i : item) : nat := match i with IWord t => length t | _ => 1 end.
Definition weights (l : list item) : nat := fold_right (fun i n => (weight i + n)%nat) 0%nat l.

Lemma flush_weight : forall w l, weights (flush w l) = (length w + weights l)%nat.
Proof. intros [|c w] l; reflexivity. Qed.

Lemma items_weight : forall ps w, weights (items_from w ps) = (length w + length (solid ps))%nat.
Proof.
  induction ps as [|p ps IH]; intro w; [cbn [items_from]; rewrite flush_weight; reflexivity|].
  destruct p; cbn [items_from solid filter]; fold (solid ps); rewrite ?flush_weight; cbn [weights fold_right weight]; fold weights;
    rewrite ?IH, ?app_length; cbn [length]; try lia.
  all: change (fold_right (fun i n => (weight i + n)%nat) 0%nat (items_from [] ps)) with (weights (items_from [] ps)); rewrite IH; cbn [length]; lia.
Qed.

(** A blank at a place of the output cannot lie between two neighbours there. *)
Lemma no_blank_there : forall O p1 p2 q1 a b q2 pre, O = p1 ++ PBlank :: p2 -> O = (q1 ++ [a]) ++ b :: q2 ->
  items_from [] p1 = items_from [] pre -> solid (q1 ++ [a]) = solid pre -> solid [a] = [a] -> solid [b] = [b] -> False.
Proof.
  intros O p1 p2 q1 a b q2 pre E1 E2 I S Sa Sb.
  assert (L : length (solid p1) = length (solid (q1 ++ [a]))).
  { rewrite S. pose proof (items_weight p1 []) as A. pose proof (items_weight pre []) as B. rewrite I in A. cbn [length] in *. lia. }
  rewrite E1 in E2. apply app_eq_app in E2. destruct E2 as (l & [[E3 E4]|[E3 E4]]).
  - destruct l as [|x l].
    + rewrite app_nil_r in E3. cbn [app] in E4. injection E4 as -> _. discriminate Sb.
    + cbn [app] in E4. injection E4 as -> E4. rewrite E3, (solid_app (q1 ++ [a]) (x :: l)), app_length in L.
      change (solid (x :: l)) with (solid ([x] ++ l)) in L. rewrite (solid_app [x] l), Sb, app_length in L. cbn [length] in L. lia.
  - destruct l as [|x l].
    + rewrite app_nil_r in E3. cbn [app] in E4. injection E4 as <- _. discriminate Sb.
    + cbn [app] in E4. injection E4 as <- E4. destruct (exists_last (l := PBlank :: l)) as (l' & y & El); [discriminate|].
      rewrite El, app_assoc in E3. apply app_inj_tail in E3. destruct E3 as [-> ->].
      rewrite (solid_app (p1 ++ l')), (solid_app p1 l'), Sa, !app_length in L. cbn [length] in L. lia.
Qed.

(** ** Chunks *)

Lemma run_after : forall q, run_starts q -> fold_left run_step q (false, []) = (false, []) .
Proof.
  intros q [H1 H2]. destruct q as [|p q _] using rev_ind; [reflexivity|]. rewrite fold_left_app. cbn [fold_left].
  destruct p as [c| | |t|b|b|c]; try reflexivity; [|destruct (H1 q eq_refl)].
  destruct (H2 q c eq_refl) as [q' ->]. rewrite fold_left_app. reflexivity.
Qed.

Lemma run_chars : forall name w, fold_left run_step (map PChar name) (false, w) = (false, w ++ name).
Proof.
  induction name as [|c name IH]; intro w; [cbn; now rewrite app_nil_r|]. cbn [map fold_left run_step fst snd]. rewrite IH, <- app_assoc. reflexivity.
Qed.

Lemma rule_run : forall ps, rule_word ps -> exists name, name <> [] /\ last_run ps = 0x40 :: name.
Proof.
  intros ps (q & name & -> & N & R & _). exists name. split; [exact N|]. unfold last_run.
  rewrite fold_left_app, (run_after q R). change (PChar 0x40 :: map PChar name) with (map PChar (0x40 :: name)). rewrite run_chars. reflexivity.
Qed.

Lemma word_piece_spec : forall p, word_piece_b p = true -> word_piece p.
Proof. intros [c| | |t|b|b|c] H; try discriminate H; [right; eauto|left; reflexivity]. Qed.

Lemma cut_rule : forall pre s, rule_word pre -> ~ word_next s -> cut pre s = true.
Proof.
  intros pre s R W. destruct (rule_run pre R) as (name & N & E). unfold cut. apply orb_true_iff. right.
  destruct s as [|p s]; [reflexivity|]. rewrite E. destruct name as [|c name]; [congruence|].
  destruct (word_piece_b p) eqn:Wp; [destruct (W (word_piece_spec p Wp))|]. apply orb_true_iff. right. reflexivity.
Qed.

Lemma cut_gap_last : forall pre p s, gap_piece p = true -> cut (pre ++ [p]) s = true.
Proof. intros pre p s G. unfold cut. rewrite rev_app_distr. cbn [rev app]. rewrite G. reflexivity. Qed.

Lemma cut_gap_next : forall pre p s, gap_piece p = true -> cut pre (p :: s) = true.
Proof. intros pre p s G. unfold cut. rewrite G. apply orb_true_r. Qed.

(** From a place on, the pieces up to the next cut. *)
Lemma chunk_exists : forall s pre c1, c1 <> [] -> Forall (fun p => gap_piece p = false) c1 -> cut pre (c1 ++ s) = true ->
  (forall x y, c1 = x ++ y -> x <> [] -> y <> [] -> cut (pre ++ x) (y ++ s) = false) ->
  exists c2 post, s = c2 ++ post /\ chunk pre (c1 ++ c2) post.
Proof.
  induction s as [|p s IH]; intros pre c1 N F C I.
  - exists [], []. split; [reflexivity|]. rewrite !app_nil_r in *. unfold chunk. rewrite app_nil_r. split; [exact N|]. split; [exact F|]. split; [exact C|].
    split; [unfold cut; apply orb_true_r|exact I].
  - destruct (cut (pre ++ c1) (p :: s)) eqn:K.
    + exists [], (p :: s). split; [reflexivity|]. rewrite app_nil_r. split; [exact N|]. split; [exact F|]. split; [exact C|]. split; [exact K|exact I].
    + destruct (gap_piece p) eqn:G; [rewrite (cut_gap_next _ p s G) in K; discriminate K|].
      destruct (IH pre (c1 ++ [p])) as (c2 & post & -> & H).
      * destruct c1; discriminate.
      * apply Forall_app. split; [exact F|]. constructor; [exact G|constructor].
      * rewrite <- app_assoc. exact C.
      * intros x y E Nx Ny. destruct (exists_last Ny) as (y' & z & ->). rewrite app_assoc in E. apply app_inj_tail in E.
        destruct E as [-> <-]. destruct y' as [|w y']; [rewrite app_nil_r in *; exact K|].
        rewrite <- app_assoc. cbn [app]. apply (I x (w :: y') eq_refl Nx). discriminate.
      * exists (p :: c2), post. split; [reflexivity|]. rewrite <- app_assoc in H. exact H.
Qed.

Lemma mate_chunk : forall c2 pre c1 post o, c1 <> [] -> Forall (fun p => gap_piece p = false) c2 ->
  (forall x y, c1 ++ c2 = x ++ y -> x <> [] -> y <> [] -> cut (pre ++ x) (y ++ post) = false) ->
  mate (pre ++ c1) (c2 ++ post) o -> exists o2, o = c2 ++ o2 /\ mate (pre ++ c1 ++ c2) post o2.
Proof.
  induction c2 as [|x c2 IH]; intros pre c1 post o N F I M.
  - exists o. rewrite app_nil_r. split; [reflexivity|exact M].
  - inversion F as [|? ? F1 F2]. subst. cbn [app] in M.
    inversion M as [|q p s' o' H|q p s' o' H S|q p s' o' H S|q s' o' H R W|q b s' o' H]; subst.
    + destruct (IH pre (c1 ++ [x]) post o') as (o2 & -> & M2).
      * destruct c1; discriminate.
      * exact F2.
      * intros a b E. apply I. rewrite <- E, <- app_assoc. reflexivity.
      * rewrite app_assoc. exact H.
      * exists o2. split; [reflexivity|]. rewrite <- (app_assoc c1 [x] c2) in M2. exact M2.
    + apply separator_gap in S. congruence.
    + apply separator_gap in S. congruence.
    + exfalso. pose proof (cut_rule _ _ R W) as K. pose proof (I c1 (x :: c2) eq_refl N ltac:(discriminate)) as K2. cbn [app] in K2. congruence.
    + discriminate F1.
Qed.

(** ** Heads of texts *)

Lemma blank_digit : forall c, blank_char c = true -> digit c = false.
Proof. intros c H. apply stop_digit. unfold stop. rewrite (blank_white c H). reflexivity. Qed.

Lemma quote_digit : forall c, quote c = true -> digit c = false.
Proof. intros c H. apply stop_digit. unfold stop. rewrite H. apply orb_true_r. Qed.

Lemma digit_piece : forall ps S, spells ps S -> starts_digit S = true -> exists y r, ps = PChar y :: r /\ digit y = true.
Proof.
  intros ps S H D. destruct H as [|c ps s H|ps s H|c ps s B H|q t ps s Q H|b k ps s T H|b k ps s T H|c ps s P H]; cbn [starts_digit app] in D; try discriminate D.
  - eauto.
  - rewrite (blank_digit c B) in D. discriminate D.
  - rewrite (quote_digit q Q) in D. discriminate D.
  - apply punct_stop, stop_digit in P. congruence.
Qed.

(** Only the first code point matters, unless it is a dot. *)
Lemma runs_on_head : forall t x v w, (x = 0x2E -> starts_digit v = starts_digit w) -> runs_on t (x :: v) = runs_on t (x :: w).
Proof.
  intros t x v w H. destruct t; try reflexivity. cbn [runs_on starts_dot_digit]. destruct (c =? 0x2B); [|reflexivity].
  destruct (N.eqb_spec x 0x2E) as [->|X]; [|reflexivity]. rewrite (H eq_refl). reflexivity.
Qed.

Lemma runs_on_white : forall t x v, white x = true -> runs_on t (x :: v) = false.
Proof.
  intros t x v H. assert (S : stop x = true) by (unfold stop; rewrite H; reflexivity).
  assert (P : x <> 0x28 /\ x <> 0x3E /\ x <> 0x2B /\ x <> 0x2A /\ x <> 0x2E) by (unfold white, newline in H; lia).
  destruct P as (P1 & P2 & P3 & P4 & P5). apply N.eqb_neq in P1, P2, P3, P4, P5.
  destruct t; try reflexivity; cbn [runs_on starts_dot_digit]; rewrite ?P1, ?P2, ?P3, ?P4, ?P5, ?(stop_digit x S); try reflexivity.
  destruct (c =? 0x2B); [reflexivity|]. apply andb_false_r.
Qed.

Lemma runs_on_slash : forall t v, runs_on t (0x2F :: v) = false.
Proof.
  intros t v. destruct t; try reflexivity. cbn [runs_on starts_dot_digit]. destruct (c =? 0x2B); [reflexivity|]. apply andb_false_r.
Qed.

Lemma gap_head : forall g ps S t, gap_piece g = true -> spells (g :: ps) S -> stopped S /\ runs_on t S = false.
Proof.
  intros g ps S t G H. inversion H; subst; try discriminate G; cbn [stopped].
  - split; [unfold stop; rewrite (blank_white c) by assumption; reflexivity|]. apply runs_on_white. now apply blank_white.
  - split; [reflexivity|apply runs_on_slash].
  - split; [reflexivity|apply runs_on_slash].
Qed.

(** The text of the first piece. *)
Lemma solid_head : forall b ps S, gap_piece b = false -> spells (b :: ps) S -> exists V, S = piece_text b ++ V /\ spells ps V.
Proof. intros b ps S G H. inversion H; subst; try discriminate G; eexists; (split; [reflexivity|assumption]). Qed.

Lemma stopped_head : forall b ps S, gap_piece b = false -> word_piece_b b = false -> spells (b :: ps) S -> stopped S.
Proof.
  intros b ps S G W H. inversion H; subst; try discriminate G; try discriminate W; cbn [app stopped].
  - unfold stop. match goal with Q : quote _ = true |- _ => rewrite Q end. apply orb_true_r.
  - now apply punct_stop.
Qed.

Lemma syntax_app : forall u v, error_free u -> ext u v -> runs_on (last_token u) v = false -> syntax (u ++ v) = syntax u ++ syntax v.
Proof.
  intros u v F H R. destruct u as [|c u]; [reflexivity|]. unfold syntax. rewrite tokens_app'; try assumption; [|discriminate].
  rewrite map_app, filter_app. reflexivity.
Qed.

Lemma text_app : forall a b, text (a ++ b) = text a ++ text b.
Proof. intros. apply flat_map_app. Qed.

Lemma nongap_solid : forall p, gap_piece p = false -> solid [p] = [p].
Proof. intros [c| | |t|b|b|c] H; try discriminate H; reflexivity. Qed.

Lemma nongap_not_separator : forall p, gap_piece p = false -> ~ separator p.
Proof. intros p H S. apply separator_gap in S. congruence. Qed.

(** ** The theorem *)

Lemma ok_lexes : forall alpha s o, css_minify alpha s = Ok o -> snd (lex s) = None.
Proof.
  intros alpha s o H. apply css_ok_no_problem in H. unfold css_problem in H. destruct (snd (lex s)) as [e|]; [|reflexivity].
  exfalso. revert H. generalize 0%nat false. induction (fst (lex s)) as [|p ps IH]; intros d b H; cbn in H.
  - destruct e; discriminate.
  - destruct p; try (eapply IH; exact H). destruct (c =? 91). { destruct b; [discriminate|eapply IH; exact H]. }
    destruct (c =? 93). { destruct b; [eapply IH; exact H|discriminate]. }
    destruct (c =? 123); [eapply IH; exact H|]. destruct (c =? 125). { destruct d; [discriminate|eapply IH; exact H]. } eapply IH; exact H.
Qed.

Section Syntax.
Variable alpha : N -> bool.
Variables src out : str.
Hypothesis Hmin : css_minify alpha src = Ok out.
Hypothesis Hreg : regular src.
Hypothesis Htidy : tidy (fst (lex src)).
Let full := fst (lex src).
Let outp := fst (lex out).

(** A gap of the source that leaves nothing in the output. *)
Lemma dropped : forall q a g b r o1 o2, full = (q ++ [a]) ++ g ++ b :: r -> g <> [] -> Forall separator g ->
  outp = (o1 ++ [a]) ++ b :: o2 -> solid o1 = solid q -> gap_piece a = false -> gap_piece b = false ->
  ~ blank_stays out (q ++ [a]) (b :: r).
Proof.
  intros q a g b r o1 o2 E N F Eo S Ga Gb (p1 & p2 & E1 & I1 & _).
  apply (no_blank_there outp p1 p2 o1 a b o2 (q ++ [a])); auto using nongap_solid.
  rewrite !solid_app, S. reflexivity.
Qed.

Lemma dropped_not : forall q a g b r o1 o2, full = (q ++ [a]) ++ g ++ b :: r -> g <> [] -> Forall separator g ->
  outp = (o1 ++ [a]) ++ b :: o2 -> solid o1 = solid q -> gap_piece a = false -> gap_piece b = false ->
  ~ (closes a /\ opens b) /\ ~ blank_kept full (q ++ [a]) (b :: r).
Proof.
  intros q a g b r o1 o2 E N F Eo S Ga Gb.
  assert (G : gap_between src (q ++ [a]) g (b :: r)) by (split; [exact E|split; assumption]).
  pose proof (dropped q a g b r o1 o2 E N F Eo S Ga Gb) as D. split.
  - intros [Ca Ob]. apply D. eapply gap_close_open; eauto.
  - intros (q' & a' & b' & r' & Eq & Ep & K). apply app_inj_tail in Eq. destruct Eq as [<- <-]. injection Ep as <- <-. apply D.
    destruct K as [([c ->] & -> & [K|K])|(K1 & K2 & K3 & K4)].
    + eapply gap_declaration_paren; eauto.
    + eapply gap_at_head_paren; eauto.
    + eapply gap_calc; eauto. now apply nongap_not_separator.
Qed.

Lemma piece_ok : forall pre p post, full = pre ++ p :: post -> punct_ok p.
Proof.
  intros pre p post E. pose proof (lex_punct_ok src) as F. fold full in F. rewrite E in F. apply Forall_app in F. destruct F as [_ F].
  inversion F. assumption.
Qed.

(** What follows a chunk in the source. *)
Lemma source_next : forall pre c post S', full = pre ++ c ++ post -> chunk pre c post -> spells post S' ->
  ext (text c) S' /\ runs_on (last_token (text c)) S' = false.
Proof.
  intros pre c post S' E Hc Hs. destruct (Htidy pre c post E Hc) as (T1 & T2 & T3 & T4 & T5 & T6).
  destruct Hc as (N & F & _ & C & _).
  assert (X : stopped S' -> ext (text c) S').
  { intro St. left. split; [exact St|]. split.
    - intros [a Ea]. destruct (T3 a 0x5C Ea) as [_ Z]. congruence.
    - intros _. split; [exact T2|]. intros (a & d & Ea & W). destruct (T3 a d Ea) as [Z _]. congruence. }
  destruct post as [|b r].
  - inversion Hs. subst. split; [apply X; exact I|]. destruct (last_token (text c)); reflexivity.
  - destruct (gap_piece b) eqn:G; [destruct (gap_head b r S' (last_token (text c)) G Hs) as [St R]; auto|].
    unfold cut in C. destruct (exists_last N) as (q & a & ->). rewrite app_assoc, rev_app_distr in C. cbn [rev app] in C.
    apply Forall_app in F. destruct F as [_ F]. inversion F as [|? ? Ga _]. subst. rewrite Ga, G in C. cbn [orb] in C.
    apply andb_true_iff in C. destruct C as [_ C]. apply negb_true_iff in C.
    split; [apply X; exact (stopped_head b r S' G C Hs)|].
    destruct (T6 [] (b :: r) eq_refl ltac:(constructor) (nongap_not_separator b G)) as [R|[R _]]; [|congruence].
    destruct (solid_head b r S' G Hs) as (V & -> & HV). rewrite <- R. cbn [text flat_map]. fold (text r).
    inversion Hs; subst; try discriminate G; try discriminate C; cbn [piece_text app].
    + apply runs_on_head. intros ->. match goal with Q : quote _ = true |- _ => discriminate Q end.
    + apply runs_on_head. intros ->. match goal with Q : punct_char _ = true |- _ => discriminate Q end.
Qed.

(** What follows a chunk in the output. *)
Lemma output_next : forall pre c post o1 o2 O', full = pre ++ c ++ post -> chunk pre c post -> outp = (o1 ++ c) ++ o2 ->
  solid o1 = solid pre -> mate (pre ++ c) post o2 -> spells o2 O' ->
  ext (text c) O' /\ runs_on (last_token (text c)) O' = false.
Proof.
  intros pre c post o1 o2 O' E Hc Eo So M Ho. destruct (Htidy pre c post E Hc) as (T1 & T2 & T3 & T4 & T5 & T6).
  destruct Hc as (N & F & _ & C & _).
  assert (B0 : ~ bs_end (text c)) by (intros [a Ea]; destruct (T3 a 0x5C Ea) as [_ Z]; congruence).
  assert (X : stopped O' -> ext (text c) O').
  { intro St. left. split; [exact St|]. split; [exact B0|].
    intros _. split; [exact T2|]. intros (a & d & Ea & W). destruct (T3 a d Ea) as [Z _]. congruence. }
  destruct o2 as [|b o2].
  { inversion Ho. subst. split; [apply X; exact I|]. destruct (last_token (text c)); reflexivity. }
  destruct (gap_piece b) eqn:G; [destruct (gap_head b o2 O' (last_token (text c)) G Ho) as [St R]; auto|].
  destruct (mate_head _ _ _ M b o2 eq_refl G) as (g & r & Ep & Fg & M2). subst post.
  destruct (exists_last N) as (q & a & ->). apply Forall_app in F. destruct F as [Fq Fa]. inversion Fa as [|? ? Ga _]. subst.
  destruct (solid_head b o2 O' G Ho) as (V & EV & HV).
  (* the text after [b] *)
  assert (HB : full = ((pre ++ (q ++ [a]) ++ g) ++ [b]) ++ r) by (rewrite E, <- !app_assoc; reflexivity).
  assert (SG : solid g = []).
  { clear -Fg. induction Fg as [|x g Hx Fg IH]; [reflexivity|]. change (x :: g) with ([x] ++ g). rewrite solid_app, (solid_separator x Hx), IH. reflexivity. }
  assert (Sd : forall x, b = PChar x -> starts_digit V = starts_digit (text r)).
  { intros x ->. destruct (starts_digit V) eqn:D.
    - destruct (digit_piece _ _ HV D) as (y & o3 & -> & Dy).
      destruct (mate_head _ _ _ M2 (PChar y) o3 eq_refl eq_refl) as (g2 & r2 & -> & Fg2 & _).
      destruct g2 as [|z g2]; [cbn; symmetry; exact Dy|]. exfalso.
      destruct (dropped_not (pre ++ (q ++ [a]) ++ g) (PChar x) (z :: g2) (PChar y) r2 (o1 ++ q ++ [a]) o3) as [Z _]; try reflexivity; try assumption; try discriminate.
      + rewrite Eo, <- !app_assoc. reflexivity.
      + rewrite !solid_app, So, SG, app_nil_r. reflexivity.
      + apply Z. split; [left; eauto|left; eauto].
    - destruct (starts_digit (text r)) eqn:D2; [|reflexivity]. exfalso.
      assert (exists y r2, r = PChar y :: r2 /\ digit y = true) as (y & r2 & -> & Dy).
      { destruct r as [|p r]; [discriminate D2|]. destruct p as [c| | |t|b|b|c]; cbn [text flat_map piece_text app starts_digit] in D2; try discriminate D2.
        - eauto.
        - exfalso. assert (P : spells (fst (lex src)) src).
          { apply lex_spells. exact (ok_lexes alpha src out Hmin). }
          fold full in P. rewrite HB in P. clear -P D2.
          assert (K : forall ps s, spells ps s -> forall a t r, ps = a ++ PStr t :: r -> exists x y, t = x :: y /\ quote x = true).
          { clear. intros ps s H. induction H; intros a t' r' E; (destruct a as [|z a]; [try discriminate E|first [discriminate E|injection E as _ E; eauto]]).
            injection E as <- <-. eauto. }
          destruct (K _ _ P _ _ _ eq_refl) as (x1 & y1 & -> & Q). cbn in D2. rewrite (quote_digit x1 Q) in D2. discriminate D2.
        - exfalso. assert (P : punct_ok (PPunct c)) by exact (piece_ok _ _ _ HB). cbn in P. apply punct_stop, stop_digit in P. congruence. }
      inversion M2 as [|p' x' s' o' H|p' x' s' o' H Sx|p' x' s' o' H Sx|p' s' o' H R W|p' b' s' o' H]; subst.
      + inversion HV; subst. cbn in D. congruence.
      + apply separator_gap in Sx. discriminate Sx.
      + apply separator_gap in Sx. discriminate Sx.
      + apply W. right. eauto. }
  assert (RO : runs_on (last_token (text (q ++ [a]))) O' = runs_on (last_token (text (q ++ [a]))) (text (b :: r))).
  { subst O'. cbn [text flat_map]. fold (text r). inversion Ho; subst; try discriminate G; cbn [piece_text app].
    - apply runs_on_head. intros _. apply (Sd c eq_refl).
    - apply runs_on_head. discriminate.
    - apply runs_on_head. intros ->. match goal with Q : quote _ = true |- _ => discriminate Q end.
    - apply runs_on_head. intros ->. match goal with Q : punct_char _ = true |- _ => discriminate Q end. }
  assert (Eo' : outp = ((o1 ++ q) ++ [a]) ++ b :: o2) by (rewrite Eo, <- !app_assoc; reflexivity).
  assert (E' : full = ((pre ++ q) ++ [a]) ++ g ++ b :: r) by (rewrite E, <- !app_assoc; reflexivity).
  assert (So' : solid (o1 ++ q) = solid (pre ++ q)) by (rewrite !solid_app, So; reflexivity).
  assert (RF : runs_on (last_token (text (q ++ [a]))) O' = false).
  { rewrite RO. destruct (T6 g (b :: r) eq_refl Fg (nongap_not_separator b G)) as [R|[Ng K]]; [exact R|]. exfalso.
    destruct (dropped_not (pre ++ q) a g b r (o1 ++ q) o2 E' Ng Fg Eo' So' Ga G) as [_ Z]. apply Z.
    rewrite <- app_assoc. exact K. }
  split; [|exact RF].
  destruct (word_piece_b b) eqn:Wb; [|apply X; exact (stopped_head b o2 O' G Wb Ho)].
  destruct g as [|z g].
  { exfalso. unfold cut in C. rewrite app_assoc, rev_app_distr in C. cbn [rev app] in C. rewrite Ga, G, Wb in C.
    cbn [orb negb] in C. rewrite andb_false_r in C. discriminate C. }
  destruct (dropped_not (pre ++ q) a (z :: g) b r (o1 ++ q) o2 E' ltac:(discriminate) Fg Eo' So' Ga G) as [Z _].
  destruct a as [x| | |t|l|l|d]; try discriminate Ga.
  - exfalso. destruct b as [y| | |t|l|l|d]; try discriminate Wb.
    + apply Z. split; left; eauto.
    + destruct Hreg as (_ & K & _). apply K. exists (pre ++ q), (PChar x), (z :: g), r. split; [|split; [right; eauto|split; [discriminate|exact Fg]]].
      fold full. rewrite E', <- !app_assoc. reflexivity.
  - exfalso. apply B0. exists (text q). rewrite text_app. reflexivity.
  - exfalso. destruct b as [y| | |t'|l|l|d]; try discriminate Wb.
    + apply Z. split; [right; left; eauto|left; eauto].
    + exact (T5 q t (z :: g) r eq_refl eq_refl Fg).
  - assert (Pd : punct_char d = true).
    { apply (piece_ok (pre ++ q) (PPunct d) ((z :: g) ++ b :: r)). rewrite E', <- !app_assoc. reflexivity. }
    assert (Bq : ~ bs_end (text q)) by (intros [k K]; exact (T4 q k d eq_refl K)).
    right. exists (text q), d. split; [rewrite text_app; reflexivity|]. split; [exact Pd|]. split; [exact Bq|].
    intros ->. rewrite (plus_last (length (text (q ++ [PPunct 0x2B]))) _ (text q) (le_n _)) in RF; [|rewrite text_app; reflexivity|exact Bq|exact T1].
    destruct O' as [|x O']; [reflexivity|]. cbn [runs_on] in RF. change (0x2B =? 0x2B) with true in RF. cbv iota in RF.
    apply orb_false_iff in RF. destruct RF as [RF _]. exact RF.
Qed.

Lemma chunks_agree : forall n pre s o o1 S O, (length s + length o <= n)%nat -> full = pre ++ s -> outp = o1 ++ o ->
  solid o1 = solid pre -> mate pre s o -> cut pre s = true -> spells s S -> spells o O -> syntax S = syntax O.
Proof.
  induction n as [|n IH]; intros pre s o o1 S O L E Eo So M C HS HO.
  { destruct s; [|cbn in L; lia]. destruct o; [|cbn in L; lia]. inversion HS. inversion HO. reflexivity. }
  inversion M as [q|q p s' o' H|q p s' o' H Sx|q p s' o' H Sx|q s' o' H R W|q b s' o' H]; subst.
  - inversion HS. inversion HO. reflexivity.
  - destruct (gap_piece p) eqn:G.
    + destruct (syntax_gap p s' S G HS) as (S' & HS' & ->). destruct (syntax_gap p o' O G HO) as (O' & HO' & ->).
      apply (IH (pre ++ [p]) s' o' (o1 ++ [p])); try assumption.
      * cbn [length] in L. lia.
      * rewrite <- app_assoc. exact E.
      * rewrite <- app_assoc. exact Eo.
      * rewrite !solid_app, So. reflexivity.
      * now apply cut_gap_last.
    + destruct (chunk_exists s' pre [p]) as (c2 & post & -> & Hc); [discriminate|constructor; [exact G|constructor]|exact C| |].
      { intros [|x a] y Ea Na Ny; [congruence|]. destruct a; [cbn in Ea; injection Ea as _ <-; congruence|discriminate Ea]. }
      cbn [app] in Hc. pose proof Hc as (_ & Fc & _ & Cp & I).
      assert (exists o2, o' = c2 ++ o2 /\ mate (pre ++ [p] ++ c2) post o2) as (o2 & -> & M2).
      { apply mate_chunk; [discriminate|inversion Fc; assumption|exact I|exact H]. }
      change (p :: c2 ++ post) with ((p :: c2) ++ post) in *. change (p :: c2 ++ o2) with ((p :: c2) ++ o2) in *.
      cbn [app] in M2.
      destruct (spells_app _ _ _ HS Fc) as (S' & -> & HS'). destruct (spells_app _ _ _ HO Fc) as (O' & -> & HO').
      destruct (source_next pre (p :: c2) post S' E Hc HS') as [X1 R1].
      destruct (output_next pre (p :: c2) post o1 o2 O' E Hc) as [X2 R2]; try assumption.
      { rewrite <- app_assoc. exact Eo. }
      destruct (Htidy pre (p :: c2) post E Hc) as (T1 & _).
      rewrite (syntax_app _ _ T1 X1 R1), (syntax_app _ _ T1 X2 R2). f_equal.
      apply (IH (pre ++ p :: c2) post o2 (o1 ++ p :: c2)); try assumption.
      * rewrite !app_length in L. cbn [length] in L. lia.
      * rewrite <- app_assoc. exact E.
      * rewrite <- app_assoc. exact Eo.
      * rewrite !solid_app, So. reflexivity.
  - destruct (syntax_gap p s' S (separator_gap p Sx) HS) as (S' & HS' & ->).
    apply (IH (pre ++ [p]) s' o o1); try assumption.
    + cbn [length] in L. lia.
    + rewrite <- app_assoc. exact E.
    + rewrite solid_app, So, (solid_separator p Sx), app_nil_r. reflexivity.
    + apply cut_gap_last. now apply separator_gap.
  - destruct (syntax_gap p s' S (separator_gap p Sx) HS) as (S' & HS' & ->).
    destruct (syntax_gap PBlank o' O eq_refl HO) as (O' & HO' & ->).
    apply (IH (pre ++ [p]) s' o' (o1 ++ [PBlank])); try assumption.
    + cbn [length] in L. lia.
    + rewrite <- app_assoc. exact E.
    + rewrite <- app_assoc. exact Eo.
    + rewrite !solid_app, So, (solid_separator p Sx). reflexivity.
    + apply cut_gap_last. now apply separator_gap.
  - destruct (syntax_gap PBlank o' O eq_refl HO) as (O' & HO' & ->).
    apply (IH pre s o' (o1 ++ [PBlank])); try assumption.
    + cbn [length] in L. lia.
    + rewrite <- app_assoc. exact Eo.
    + rewrite !solid_app, So. apply app_nil_r.
  - destruct (syntax_gap (PLic b) s' S eq_refl HS) as (S' & HS' & ->).
    destruct (syntax_gap (PLic b) _ O eq_refl HO) as (O1 & HO1 & ->). destruct (syntax_gap PBlank o' O1 eq_refl HO1) as (O' & HO' & ->).
    apply (IH (pre ++ [PLic b]) s' o' (o1 ++ [PLic b; PBlank])); try assumption.
    + cbn [length] in L. lia.
    + rewrite <- app_assoc. exact E.
    + rewrite <- app_assoc. exact Eo.
    + rewrite !solid_app, So. reflexivity.
    + now apply cut_gap_last.
Qed.

Theorem same_syntax : syntax out = syntax src.
Proof.
  symmetry. pose proof (css_main alpha src out Hmin Hreg) as (_ & No & _).
  pose proof (css_tame alpha src out Hmin Hreg) as T.
  pose proof (tame_mate _ _ _ T [] [] ltac:(symmetry; apply app_nil_r) (mt_nil _)) as M. rewrite app_nil_r in M.
  pose proof (ok_lexes alpha src out Hmin) as Ns.
  apply (chunks_agree _ [] full outp [] src out (le_n _)); try reflexivity; try assumption; now apply lex_spells.
Qed.

End Syntax.
