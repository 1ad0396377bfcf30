(** The text of a sheet determines its rules: declarations, at-rules, selectors, sheets. *)
From Coq Require Import String Arith List NArith Bool Lia.
From Verif Require Import Base CssPlainSpec CssRulesSpec CssRulesProofs1 CssRulesProofs2 CssRulesProofs3 CssRulesProofs4.
Import ListNotations.
Open Scope N_scope.

Ltac texts := cbn [canonical flat_map fst snd slot_text part_text line_end app]; rewrite ?app_nil_r.

Lemma cons_tail : forall (c : N) a b, c :: a = c :: b -> a = b.
Proof. intros c a b E. now injection E. Qed.

(** *** Declarations *)

Lemma declaration_text : forall d r, canonical (declaration_chunks d) ++ r = property d ++ 0x3A :: canonical (values_chunks Loose (set_to d)) ++ r.
Proof.
  intros d r. unfold declaration_chunks. change (sign Loose ":") with (Loose, Sign 0x3A). rewrite !can_cons. cbn [slot_text part_text line_end app].
  rewrite <- !app_assoc. reflexivity.
Qed.

Lemma declaration_uni : forall d d' r r', declaration_fine d = true -> declaration_fine d' = true -> heads ");}" r -> heads ");}" r' ->
  canonical (declaration_chunks d) ++ r = canonical (declaration_chunks d') ++ r' -> d = d' /\ r = r'.
Proof.
  intros [p v] [p' v'] r r' F F' H H' E. rewrite !declaration_text in E. unfold declaration_fine in F, F'. cbn [property set_to] in *.
  apply andb_true_iff in F, F'. destruct F as [F1 F2], F' as [F1' F2']. apply is_value_word in F1, F1'.
  destruct (word_uni ":" p p' _ _ eq_refl F1 F1' (eq_refl : heads ":" (0x3A :: _)) (eq_refl : heads ":" (0x3A :: _)) E) as [-> E2]. injection E2 as E2.
  destruct (values_uni v v' Loose r r' F2 F2' H H' E2) as [-> ->]. now split.
Qed.

(** What follows a declaration. *)
Definition more_text (l : list declaration) (c : bool) : str :=
  match l with [] => if c then [0x3B] else [] | _ => 0x3B :: canonical (declarations_chunks l c) end.

Lemma declarations_text : forall d l c r, canonical (declarations_chunks (d :: l) c) ++ r = canonical (declaration_chunks d) ++ more_text l c ++ r.
Proof.
  intros d l c r. cbn [declarations_chunks]. rewrite can_app, <- app_assoc. destruct l as [|e l]; [now destruct c|].
  change (sign Loose ";") with (Loose, Sign 0x3B). rewrite can_cons. reflexivity.
Qed.

Lemma more_heads : forall l c r, heads ");}" (more_text l c ++ 0x7D :: r).
Proof. intros [|d l] [] r; reflexivity. Qed.

Lemma declaration_begins : forall d c r q, declaration_fine d = true -> word_char c = false -> canonical (declaration_chunks d) ++ r <> c :: q.
Proof.
  intros d c r q F C. rewrite declaration_text. unfold declaration_fine in F. apply andb_true_iff in F. destruct F as [F _]. apply is_value_word in F.
  now apply word_not_sign.
Qed.

Lemma declarations_uni : forall l l' c c' r r', forallb declaration_fine l = true -> forallb declaration_fine l' = true ->
  match l with [] => negb c | _ => true end = true -> match l' with [] => negb c' | _ => true end = true ->
  canonical (declarations_chunks l c) ++ 0x7D :: r = canonical (declarations_chunks l' c') ++ 0x7D :: r' -> l = l' /\ c = c' /\ r = r'.
Proof.
  induction l as [|d l IH]; intros [|d' l'] c c' r r' F F' C C' E.
  - cbn in C, C'. destruct c, c'; try discriminate. injection E as <-. now repeat split.
  - exfalso. rewrite declarations_text in E. cbn [forallb] in F'. apply andb_true_iff in F'. destruct F' as [F' _].
    exact (declaration_begins d' 0x7D _ _ F' eq_refl (eq_sym E)).
  - exfalso. rewrite declarations_text in E. cbn [forallb] in F. apply andb_true_iff in F. destruct F as [F _].
    exact (declaration_begins d 0x7D _ _ F eq_refl E).
  - rewrite !declarations_text in E. cbn [forallb] in F, F'. apply andb_true_iff in F, F'. destruct F as [F1 F2], F' as [F1' F2'].
    destruct (declaration_uni d d' _ _ F1 F1' (more_heads l c r) (more_heads l' c' r') E) as [<- E2].
    destruct l as [|e l], l' as [|e' l']; cbn [more_text] in E2.
    + destruct c, c'; cbn [app] in E2; try discriminate; injection E2 as <-; now repeat split.
    + exfalso. destruct c; cbn [app] in E2; [|discriminate]. apply cons_tail in E2. rewrite declarations_text in E2. cbn [forallb] in F2'. apply andb_true_iff in F2'. destruct F2' as [F2' _].
      exact (declaration_begins e' 0x7D _ _ F2' eq_refl (eq_sym E2)).
    + exfalso. destruct c'; cbn [app] in E2; [|discriminate]. apply cons_tail in E2. rewrite declarations_text in E2. cbn [forallb] in F2. apply andb_true_iff in F2. destruct F2 as [F2 _].
      exact (declaration_begins e 0x7D _ _ F2 eq_refl E2).
    + rewrite <- !app_comm_cons in E2. apply cons_tail in E2. destruct (IH (e' :: l') c c' r r' F2 F2' eq_refl eq_refl E2) as [E3 [-> ->]]. rewrite E3. now repeat split.
Qed.

(** *** Preludes of at-rules *)

Definition feature_text (n : str) (v : option str) (r : str) : str :=
  0x28 :: n ++ match v with Some w => 0x3A :: w ++ 0x29 :: r | None => 0x29 :: r end.

Lemma cword_text : forall s w r, canonical (condition_chunks s (CWord w)) ++ r = slot_text s ++ w ++ r.
Proof. intros. cbn [condition_chunks]. rewrite can_cons. cbn [canonical flat_map part_text line_end app]. now rewrite app_nil_r, <- app_assoc. Qed.

Lemma cstring_text : forall s w r, canonical (condition_chunks s (CString w)) ++ r = slot_text s ++ w ++ r.
Proof. intros. cbn [condition_chunks]. rewrite can_cons. cbn [canonical flat_map part_text line_end app]. now rewrite app_nil_r, <- app_assoc. Qed.

Lemma cfeature_text : forall s n v r, canonical (condition_chunks s (CFeature n v)) ++ r = slot_text s ++ feature_text n v r.
Proof.
  intros. cbn [condition_chunks]. change (sign s "(") with (s, Sign 0x28). rewrite can_cons, can_cons, can_app. unfold feature_text. cbn [slot_text part_text line_end app].
  rewrite <- !app_assoc. cbn [app]. rewrite <- !app_assoc. destruct v as [w|]; [|reflexivity].
  change (sign Loose ":") with (Loose, Sign 0x3A). rewrite !can_cons. cbn [slot_text part_text line_end app]. rewrite <- !app_assoc. reflexivity.
Qed.

Lemma curl_text : forall s f a r, canonical (condition_chunks s (CUrl f a)) ++ r = slot_text s ++ f ++ 0x28 :: addr_text a ++ 0x29 :: r.
Proof. exact url_text. Qed.

Definition page_text (w : option str) (p : str) (r : str) : str := match w with Some w => w | None => [] end ++ 0x3A :: p ++ r.

Lemma cpage_text : forall s w p r, canonical (condition_chunks s (CPage w p)) ++ r = slot_text s ++ page_text w p r.
Proof.
  intros s [w|] p r; cbn [condition_chunks]; unfold sign, page_text; rewrite !can_cons; cbn [slot_text part_text line_end canonical flat_map app]; rewrite <- ?app_assoc; cbn [app];
    rewrite <- ?app_assoc; reflexivity.
Qed.

(** A word before a parenthesis is not one before something else. *)
Lemma paren_not_word : forall f w q r, a_word f = true -> a_word w = true -> heads " ,;{" r -> f ++ 0x28 :: q <> w ++ r.
Proof.
  intros f w q r F W H E. destruct (word_uni "( ,;{" f w (0x28 :: q) r eq_refl F W eq_refl (heads_sub _ "( ,;{" r H eq_refl) E) as [_ <-]. discriminate.
Qed.

Lemma page_differs : forall w p c s r r', condition_fine (CPage w p) = true -> condition_fine c = true -> match c with CPage _ _ => false | _ => true end = true ->
  heads " ,;{" r' -> canonical (condition_chunks s (CPage w p)) ++ r <> canonical (condition_chunks s c) ++ r'.
Proof.
  intros w p c s r r' F F' C H' E. rewrite cpage_text in E. unfold page_text in E. cbn [condition_fine] in F. apply andb_true_iff in F. destruct F as [_ F].
  destruct c as [w'|w'|n' v'|f' a'|]; try discriminate; rewrite ?cword_text, ?cstring_text, ?cfeature_text, ?curl_text in E; apply app_inv_head in E; cbn [condition_fine] in F'.
  - apply is_value_word in F'. destruct w as [w|]; [|exact (word_not_sign w' 0x3A _ _ F' eq_refl (eq_sym E))].
    apply is_value_word in F. destruct (word_uni ": ,;{" w w' (0x3A :: p ++ r) r' eq_refl F F' eq_refl (heads_sub _ ": ,;{" r' H' eq_refl) E) as [_ <-]. discriminate.
  - destruct w as [w|]; [|exact (string_not_sign w' 0x3A _ _ F' eq_refl (eq_sym E))]. apply is_value_word in F. exact (word_not_string _ _ _ _ F F' E).
  - destruct w as [w|]; [|discriminate]. apply is_value_word in F. exact (word_not_sign w 0x28 _ _ F eq_refl E).
  - apply andb_true_iff in F'. destruct F' as [F' _]. apply url_word in F'. destruct F' as [F' _]. destruct w as [w|]; [|exact (word_not_sign f' 0x3A _ _ F' eq_refl (eq_sym E))].
    apply is_value_word in F. destruct (word_uni "(:" w f' (0x3A :: p ++ r) (0x28 :: addr_text a' ++ 0x29 :: r') eq_refl F F' eq_refl eq_refl E) as [_ E2]. discriminate.
Qed.

Lemma condition_uni : forall c c' s r r', condition_fine c = true -> condition_fine c' = true -> heads " ,;{" r -> heads " ,;{" r' ->
  canonical (condition_chunks s c) ++ r = canonical (condition_chunks s c') ++ r' -> c = c' /\ r = r'.
Proof.
  intros [w|w|n v|f a|w p] [w'|w'|n' v'|f' a'|w' p'] s r r' F F' H H' E;
    try (exfalso; refine (page_differs _ _ _ _ _ _ F F' eq_refl _ E); assumption); try (exfalso; refine (page_differs _ _ _ _ _ _ F' F eq_refl _ (eq_sym E)); assumption); rewrite ?cword_text, ?cstring_text, ?cfeature_text, ?curl_text, ?cpage_text in E; apply app_inv_head in E; cbn [condition_fine] in F, F'.
  - apply is_value_word in F, F'. destruct (word_uni " ,;{" w w' r r' eq_refl F F' H H' E) as [-> ->]. now split.
  - exfalso. apply is_value_word in F. exact (word_not_string _ _ _ _ F F' E).
  - exfalso. apply is_value_word in F. exact (word_not_sign w 0x28 _ _ F eq_refl E).
  - exfalso. apply andb_true_iff in F'. destruct F' as [F' _]. apply url_word in F'. destruct F' as [F' _]. apply is_value_word in F. exact (paren_not_word _ _ _ _ F' F H (eq_sym E)).
  - exfalso. apply is_value_word in F'. exact (word_not_string _ _ _ _ F' F (eq_sym E)).
  - destruct (string_uni w w' r r' F F' E) as [-> ->]. now split.
  - exfalso. exact (string_not_sign w 0x28 _ _ F eq_refl E).
  - exfalso. apply andb_true_iff in F'. destruct F' as [F' _]. apply url_word in F'. destruct F' as [F' _]. exact (word_not_string _ _ _ _ F' F (eq_sym E)).
  - exfalso. apply is_value_word in F'. exact (word_not_sign w' 0x28 _ _ F' eq_refl (eq_sym E)).
  - exfalso. exact (string_not_sign w' 0x28 _ _ F' eq_refl (eq_sym E)).
  - unfold feature_text in E. injection E as E. apply andb_true_iff in F, F'. destruct F as [F Fv], F' as [F' Fv']. apply is_value_word in F, F'.
    assert (Hv : forall v r, heads ":)" match v with Some w => 0x3A :: w ++ 0x29 :: r | None => 0x29 :: r end) by (now intros [] ?).
    destruct (word_uni ":)" n n' _ _ eq_refl F F' (Hv v r) (Hv v' r') E) as [-> E2]. destruct v as [w|], v' as [w'|]; try discriminate; injection E2 as E2.
    + apply is_value_word in Fv, Fv'. destruct (word_uni ")" w w' (0x29 :: r) (0x29 :: r') eq_refl Fv Fv' eq_refl eq_refl E2) as [-> E3]. injection E3 as ->. now split.
    + subst. now split.
  - exfalso. apply andb_true_iff in F'. destruct F' as [F' _]. apply url_word in F'. destruct F' as [F' _]. exact (word_not_sign f' 0x28 _ _ F' eq_refl (eq_sym E)).
  - exfalso. apply andb_true_iff in F. destruct F as [F _]. apply url_word in F. destruct F as [F _]. apply is_value_word in F'. exact (paren_not_word _ _ _ _ F F' H' E).
  - exfalso. apply andb_true_iff in F. destruct F as [F _]. apply url_word in F. destruct F as [F _]. exact (word_not_string _ _ _ _ F F' E).
  - exfalso. apply andb_true_iff in F. destruct F as [F _]. apply url_word in F. destruct F as [F _]. exact (word_not_sign f 0x28 _ _ F eq_refl E).
  - apply andb_true_iff in F, F'. destruct F as [F _], F' as [F' _]. destruct (url_uni f a f' a' r r' F F' E) as (-> & -> & ->). now split.
  - unfold page_text in E. apply andb_true_iff in F, F'. destruct F as [F G], F' as [F' G']. apply is_value_word in F, F'.
    assert (Q : w = w' /\ 0x3A :: p ++ r = 0x3A :: p' ++ r').
    { destruct w as [w|], w' as [w'|]; cbn [app] in E.
      - apply is_value_word in G, G'. destruct (word_uni ":" w w' (0x3A :: p ++ r) (0x3A :: p' ++ r') eq_refl G G' eq_refl eq_refl E) as [-> E2]. now split.
      - exfalso. apply is_value_word in G. exact (word_not_sign w 0x3A _ _ G eq_refl E).
      - exfalso. apply is_value_word in G'. exact (word_not_sign w' 0x3A _ _ G' eq_refl (eq_sym E)).
      - now split. }
    destruct Q as [-> Q]. apply cons_tail in Q. destruct (word_uni " ,;{" p p' r r' eq_refl F F' H H' Q) as [-> ->]. now split.
Qed.

Definition cond_tail (x : bool * condition) : list chunk :=
  if fst x then sign Loose "," :: condition_chunks Loose (snd x) else condition_chunks Needed (snd x).
Definition conds_text (l : list (bool * condition)) : str := canonical (flat_map cond_tail l).

Lemma condition_slot : forall s c, exists m, canonical (condition_chunks s c) = slot_text s ++ m.
Proof. intros s [w|w|n v|f a|[w|] p]; cbn [condition_chunks]; unfold url_chunks, sign; rewrite can_cons; eexists; reflexivity. Qed.

Definition cond_slot (b : bool) : slot := if b then Loose else Needed.

Lemma conds_cons : forall b c l r, conds_text ((b, c) :: l) ++ r = (if b then [0x2C] else []) ++ canonical (condition_chunks (cond_slot b) c) ++ conds_text l ++ r.
Proof.
  intros b c l r. unfold conds_text. cbn [flat_map]. rewrite can_app, <- app_assoc. unfold cond_tail at 1. cbn [fst snd]. destruct b; [|reflexivity].
  change (sign Loose ",") with (Loose, Sign 0x2C). rewrite can_cons. reflexivity.
Qed.

Lemma conds_begin : forall b c l r, exists q, conds_text ((b, c) :: l) ++ r = (if b then 0x2C else 0x20) :: q.
Proof.
  intros b c l r. rewrite conds_cons. destruct (condition_slot (cond_slot b) c) as (m & ->). destruct b; eexists; reflexivity.
Qed.

Lemma conds_heads : forall l r, heads ";{" r -> heads " ,;{" (conds_text l ++ r).
Proof.
  intros [|[b c] l] r H; [apply (heads_sub ";{"); [exact H|reflexivity]|]. destruct (conds_begin b c l r) as (q & ->). now destruct b.
Qed.

Lemma conditions_text : forall c l r, canonical (conditions_chunks c l) ++ r = canonical (condition_chunks AfterAt c) ++ conds_text l ++ r.
Proof. intros. unfold conditions_chunks. now rewrite can_app, <- app_assoc. Qed.

Lemma conditions_uni : forall c l c' l' r r', conditions_fine c l = true -> conditions_fine c' l' = true -> heads ";{" r -> heads ";{" r' ->
  canonical (conditions_chunks c l) ++ r = canonical (conditions_chunks c' l') ++ r' -> c = c' /\ l = l' /\ r = r'.
Proof.
  intros c l c' l' r r' F F' H H' E. rewrite !conditions_text in E.
  assert (Fc : forall c l, conditions_fine c l = true -> condition_fine c = true) by (intros ? [|[] ?] G; apply andb_true_iff in G; tauto).
  destruct (condition_uni c c' AfterAt _ _ (Fc c l F) (Fc c' l' F') (conds_heads l r H) (conds_heads l' r' H') E) as [<- E2]. clear E. split; [reflexivity|].
  revert c l' F F' E2. induction l as [|[b d] l IH]; intros c [|[b' d'] l'] F F' E2.
  - now split.
  - exfalso. destruct (conds_begin b' d' l' r') as (q & Q). rewrite Q in E2. cbn [conds_text flat_map canonical app] in E2. subst r. now destruct b'.
  - exfalso. destruct (conds_begin b d l r) as (q & Q). rewrite Q in E2. cbn [conds_text flat_map canonical app] in E2. subst r'. now destruct b.
  - assert (Eb : b = b').
    { destruct (conds_begin b d l r) as (q & Q), (conds_begin b' d' l' r') as (q' & Q'). rewrite Q, Q' in E2. injection E2 as Eb _. destruct b, b'; try reflexivity; discriminate. }
    subst b'. rewrite !conds_cons in E2. apply app_inv_head in E2. cbn [conditions_fine] in F, F'. apply andb_true_iff in F, F'. destruct F as [_ F], F' as [_ F'].
    apply andb_true_iff in F, F'. destruct F as [_ F], F' as [_ F'].
    destruct (condition_uni d d' (cond_slot b) _ _ (Fc d l F) (Fc d' l' F') (conds_heads l r H) (conds_heads l' r' H') E2) as [<- E3].
    destruct (IH d l' F F' E3) as [<- <-]. now split.
Qed.

(** *** Selectors *)

Definition sels : string := " >+~,{)".

Lemma name_uni : forall l n n' r r', forallb (fun c => negb (name_char c)) (S_ l) = true -> is_name n = true -> is_name n' = true ->
  heads l r -> heads l r' -> n ++ r = n' ++ r' -> n = n' /\ r = r'.
Proof.
  intros l n n' r r' L F F' H H' E. apply (split_class name_char); try (eapply heads_off; eassumption); [|now destruct n'|exact E]. now destruct n.
Qed.

Definition after_mark : string := ".#[: >+~,{)".
Definition after_marks : string := "[: >+~,{)".

Lemma marks_heads : forall l r, heads after_marks r -> heads after_mark (marks_text l ++ r).
Proof.
  intros [|[n|n] l] r H; [apply (heads_sub after_marks); [exact H|reflexivity]|reflexivity..].
Qed.

Lemma marks_uni : forall l l' r r', forallb mark_fine l = true -> forallb mark_fine l' = true -> heads after_marks r -> heads after_marks r' ->
  marks_text l ++ r = marks_text l' ++ r' -> l = l' /\ r = r'.
Proof.
  induction l as [|m l IH]; intros [|m' l'] r r' F F' H H' E.
  - now split.
  - exfalso. cbn [marks_text flat_map app] in E. subst r. destruct m'; discriminate.
  - exfalso. cbn [marks_text flat_map app] in E. subst r'. destruct m; discriminate.
  - cbn [forallb] in F, F'. apply andb_true_iff in F, F'. destruct F as [F1 F2], F' as [F1' F2']. unfold marks_text in E. cbn [flat_map] in E.
    fold (marks_text l) (marks_text l') in E. rewrite <- !app_assoc in E.
    destruct m as [n|n], m' as [n'|n']; cbn [mark_text app mark_fine] in *; try discriminate; injection E as E;
      destruct (name_uni after_mark n n' _ _ eq_refl F1 F1' (marks_heads l r H) (marks_heads l' r' H') E) as [<- E2];
      destruct (IH l' r r' F2 F2' H H' E2) as [<- <-]; now split.
Qed.

Definition value_of_text (v : value_of) : str := match v with Bare w => w | Text t => t end.

Lemma value_of_uni : forall v v' r r', value_fine v = true -> value_fine v' = true ->
  value_of_text v ++ 0x5D :: r = value_of_text v' ++ 0x5D :: r' -> v = v' /\ r = r'.
Proof.
  intros [w|t] [w'|t'] r r' F F' E; cbn [value_fine value_of_text] in *.
  - apply is_value_word in F, F'. destruct (word_uni "]" w w' _ _ eq_refl F F' (eq_refl : heads "]" (0x5D :: _)) (eq_refl : heads "]" (0x5D :: _)) E) as [-> E2]. injection E2 as ->. now split.
  - exfalso. apply is_value_word in F. exact (word_not_string _ _ _ _ F F' E).
  - exfalso. apply is_value_word in F'. exact (word_not_string _ _ _ _ F' F (eq_sym E)).
  - destruct (string_uni t t' _ _ F F' E) as [-> E2]. injection E2 as ->. now split.
Qed.

Definition test_text (t : test) (r : str) : str :=
  match t with
  | Has => 0x5D :: r
  | Equals v => 0x3D :: value_of_text v ++ 0x5D :: r
  | Matches c v => c :: 0x3D :: value_of_text v ++ 0x5D :: r
  end.

Lemma test_heads : forall t r, test_fine t = true -> heads "]=~|$^*" (test_text t r).
Proof.
  intros [|v|c v] r F; try reflexivity. cbn [test_fine] in F. apply andb_true_iff in F. destruct F as [F _]. unfold heads. cbn [test_text begins].
  apply among_in in F. cbn in F. repeat (destruct F as [<-|F]; [reflexivity|]). contradiction.
Qed.

Lemma test_uni : forall t t' r r', test_fine t = true -> test_fine t' = true -> test_text t r = test_text t' r' -> t = t' /\ r = r'.
Proof.
  intros [|v|c v] [|v'|c' v'] r r' F F' E; cbn [test_fine test_text] in *; try discriminate.
  - injection E as ->. now split.
  - exfalso. injection E as <- _. discriminate.
  - injection E as E. destruct (value_of_uni v v' r r' F F' E) as [-> ->]. now split.
  - exfalso. injection E as <- _. discriminate.
  - exfalso. injection E as -> _. discriminate.
  - exfalso. injection E as -> _. discriminate.
  - injection E as <- E. apply andb_true_iff in F, F'. destruct (value_of_uni v v' r r' (proj2 F) (proj2 F') E) as [-> ->]. now split.
Qed.

Lemma word_text : forall w, canonical (word Tight w) = w.
Proof. intros [|c w]; [reflexivity|]. cbn [word]. rewrite can_cons. cbn [slot_text part_text line_end canonical flat_map app]. now rewrite app_nil_r. Qed.

Lemma test_chunks_text : forall t r, canonical (test_chunks t) ++ 0x5D :: r = test_text t r.
Proof.
  intros [|v|c v] r; [reflexivity| |]; cbn [test_chunks test_text].
  - change (sign Loose "=") with (Loose, Sign 0x3D). destruct v; cbn [value_chunk value_of_text]; rewrite !can_cons; texts; reflexivity.
  - destruct v; cbn [value_chunk value_of_text]; rewrite !can_cons; texts; reflexivity.
Qed.

(** What the parts are written as, before [r]. *)
Definition detail_text (d : detail) (m : list mark) (r : str) : str := canonical (detail_chunks Tight d m) ++ r.
Definition argument_text (a : argument) (r : str) : str := canonical (argument_chunks a) ++ r.
Definition compound_text (c : compound) (r : str) : str := canonical (compound_chunks Tight c) ++ r.
Definition selector_text (x : selector) (r : str) : str := canonical (selector_chunks Tight x) ++ r.

Fixpoint details_text (l : list (detail * list mark)) (r : str) : str :=
  match l with [] => r | d :: q => detail_text (fst d) (snd d) (details_text q r) end.

Definition element_text (e : option element) : str := match e with Some (Tag n) => n | Some Any => [0x2A] | None => [] end.

Definition comb_char (k : combinator) : N := match k with Descendant => 0x20 | Child => 0x3E | Next => 0x2B | Later => 0x7E end.

Fixpoint rest_text (l : list (combinator * compound)) (r : str) : str :=
  match l with [] => r | (k, d) :: q => comb_char k :: compound_text d (rest_text q r) end.

(** Selectors after another, up to [z]. *)
Fixpoint list_text (z : N) (l : list selector) (r : str) : str :=
  match l with [] => z :: r | y :: q => 0x2C :: selector_text y (list_text z q r) end.

Lemma attribute_text : forall n t m r, detail_text (HasAttribute n t) m r = 0x5B :: n ++ test_text t (marks_text m ++ r).
Proof.
  intros n t m r. unfold detail_text. change (detail_chunks Tight (HasAttribute n t) m) with (sign Tight "[" :: (Loose, Word n) :: test_chunks t ++ sign Loose "]" :: word Tight (marks_text m)).
  change (sign Tight "[") with (Tight, Sign 0x5B). change (sign Loose "]") with (Loose, Sign 0x5D). rewrite !can_cons, can_app, can_cons, word_text. cbn [slot_text part_text line_end app].
  rewrite <- !app_assoc. cbn [app]. rewrite test_chunks_text. reflexivity.
Qed.

Lemma class_text : forall n m r, detail_text (PseudoClass n) m r = 0x3A :: n ++ marks_text m ++ r.
Proof. intros n m r. unfold detail_text. cbn [detail_chunks]. rewrite can_cons. cbn [slot_text part_text line_end canonical flat_map app]. now rewrite app_nil_r, <- !app_assoc. Qed.

Lemma pseudo_text : forall n m r, detail_text (PseudoElement n) m r = 0x3A :: 0x3A :: n ++ marks_text m ++ r.
Proof.
  intros n m r. unfold detail_text. cbn [detail_chunks]. change (sign Tight ":") with (Tight, Sign 0x3A). rewrite !can_cons. cbn [slot_text part_text line_end canonical flat_map app].
  now rewrite app_nil_r, <- !app_assoc.
Qed.

Lemma function_text : forall n a m r, detail_text (Function n a) m r = 0x3A :: n ++ 0x28 :: argument_text a (marks_text m ++ r).
Proof.
  intros n a m r. unfold detail_text, argument_text. rewrite function_eq. change (sign Tight "(") with (Tight, Sign 0x28). rewrite !can_cons, can_app, word_text.
  cbn [slot_text part_text line_end app]. now rewrite <- !app_assoc, <- app_comm_cons, <- app_assoc.
Qed.

Lemma nth_text : forall w p r, argument_text (Nth w p) r = w ++ match p with Some v => 0x2B :: v ++ 0x29 :: r | None => 0x29 :: r end.
Proof.
  intros w p r. unfold argument_text. change (argument_chunks (Nth w p)) with ((Loose, Word w) :: match p with Some v => [sign Loose "+"; (Loose, Word v)] | None => [] end ++ [sign Loose ")"]).
  rewrite can_cons. cbn [slot_text part_text line_end app]. rewrite <- app_assoc. f_equal. destruct p as [v|]; [|reflexivity]. cbn [app]. change (sign Loose "+") with (Loose, Sign 0x2B).
  rewrite !can_cons. cbn [slot_text part_text line_end app]. rewrite <- app_assoc. reflexivity.
Qed.

Lemma details_chunks_text : forall l r, canonical (flat_map pair_chunks l) ++ r = details_text l r.
Proof.
  induction l as [|d l IH]; intros r; [reflexivity|]. cbn [flat_map details_text]. rewrite can_app, <- app_assoc, IH. reflexivity.
Qed.

Lemma tight_word : forall w l s p q, word Tight w ++ flat_map pair_chunks l = (s, p) :: q -> s = Tight.
Proof. intros [|c w] [|[[n t|n|n|n a] k] l] s p q E; cbn in E; try discriminate; injection E; congruence. Qed.

Lemma tight_head : forall e m l s p q, head_chunks e m ++ flat_map pair_chunks l = (s, p) :: q -> s = Tight.
Proof.
  intros [[n|]|] m l s p q E; cbn [head_chunks] in E; try (eapply tight_word; exact E). cbn [app] in E. unfold sign in E. injection E. congruence.
Qed.

Lemma tight_same : forall l, (forall s p q, l = (s, p) :: q -> s = Tight) -> first_tight Tight l = l.
Proof. intros [|[s p] l] H; [reflexivity|]. cbn [first_tight]. now rewrite (H s p l eq_refl). Qed.

Lemma compound_text_eq : forall e m d r, compound_text (Compound e m d) r = element_text e ++ marks_text m ++ details_text d r.
Proof.
  intros e m d r. unfold compound_text. rewrite compound_eq, tight_same by (intros; eapply tight_head; eassumption). rewrite can_app, <- app_assoc, details_chunks_text.
  destruct e as [[n|]|]; cbn [head_chunks element_text].
  - now rewrite word_text, <- app_assoc.
  - change (sign Tight "*") with (Tight, Sign 0x2A). rewrite can_cons, word_text. reflexivity.
  - now rewrite word_text.
Qed.

Lemma compound_slot : forall s c, compound_fine c = true -> canonical (compound_chunks s c) = slot_text s ++ canonical (compound_chunks Tight c).
Proof.
  intros s [e m d] F. rewrite !compound_eq, (tight_same (head_chunks _ _ ++ _)) by (intros; eapply tight_head; eassumption).
  destruct (head_chunks e m ++ flat_map pair_chunks d) as [|[t p] q] eqn:Q.
  - exfalso. rewrite compound_fine_eq in F. destruct e as [[n|]|]; cbn [head_chunks head_fine] in *; [|discriminate|].
    + apply andb_true_iff in F. destruct F as [F _]. apply andb_true_iff in F. destruct F as [F _]. unfold is_tag in F. destruct n as [|c n]; [discriminate|]. discriminate.
    + destruct m as [|[n|n] m]; [|discriminate..]. destruct d as [|[[n t|n|n|n a] k] d]; discriminate.
  - cbn [first_tight]. rewrite !can_cons. rewrite (tight_head e m d t p q Q). reflexivity.
Qed.

Lemma before_text : forall c, slot_text (before_sign c) = [].
Proof. intros c. unfold before_sign. now destruct (ends_in_bracket c). Qed.

Lemma rest_chunks_text : forall l c r, rest_fine compound_fine c l = true -> canonical (rest_with compound_chunks c l) ++ r = rest_text l r.
Proof.
  induction l as [|[k d] l IH]; intros c r F; [reflexivity|]. rewrite rest_fine_eq in F. apply andb_true_iff in F. destruct F as [F F2]. apply andb_true_iff in F. destruct F as [Fd _].
  rewrite rest_eq. cbn [rest_text]. rewrite !can_app, <- !app_assoc, IH by exact F2. rewrite compound_slot by exact Fd. unfold compound_text.
  destruct k; cbn [comb_chunk comb_slot slot_text]; unfold sign; rewrite ?can_cons, ?before_text; reflexivity.
Qed.

Lemma selector_text_eq : forall c l r, rest_fine compound_fine c l = true -> selector_text (Selector c l) r = compound_text c (rest_text l r).
Proof. intros c l r F. unfold selector_text, compound_text. rewrite selector_eq, can_app, <- app_assoc, rest_chunks_text by exact F. reflexivity. Qed.

Lemma selector_slot : forall s x, selector_fine x = true -> canonical (selector_chunks s x) = slot_text s ++ canonical (selector_chunks Tight x).
Proof.
  intros s [c l] F. rewrite selector_fine_eq in F. apply andb_true_iff in F. rewrite !selector_eq, !can_app, (compound_slot s) by tauto. now rewrite <- app_assoc.
Qed.

Lemma list_chunks_text : forall z t l x r, (forall c, slot_text (t c) = []) -> forallb selector_fine l = true ->
  canonical (list_with selector_chunks (fun c => (t c, Sign z)) x l) ++ r = list_text z l r.
Proof.
  intros z t. induction l as [|y l IH]; intros x r T F.
  - change (canonical [(t (last_compound x), Sign z)] ++ r = z :: r). rewrite can_cons, T. reflexivity.
  - cbn [forallb] in F. apply andb_true_iff in F. destruct F as [Fy Fl]. rewrite list_eq. unfold sign. rewrite can_cons, before_text, can_app. cbn [app part_text line_end list_text].
    rewrite <- app_assoc, IH by assumption. rewrite selector_slot by exact Fy. reflexivity.
Qed.

Lemma among_text : forall x l r, selector_fine x = true -> forallb selector_fine l = true -> argument_text (Among x l) r = selector_text x (list_text 0x29 l r).
Proof.
  intros x l r F Fl. unfold argument_text. rewrite among_eq, can_app, <- app_assoc.
  change (fun c => sign (before_sign c) ")") with (fun c => (before_sign c, Sign 0x29)). rewrite list_chunks_text by (exact Fl || apply before_text).
  rewrite selector_slot by exact F. reflexivity.
Qed.

(** What they begin with. *)
Lemma detail_begins : forall d m r, exists c q, detail_text d m r = c :: q /\ (c = 0x5B \/ c = 0x3A).
Proof.
  intros [n t|n|n|n a] m r; [rewrite attribute_text|rewrite class_text|rewrite pseudo_text|rewrite function_text]; eexists _, _; split; try reflexivity; auto.
Qed.

Lemma details_heads : forall l r, heads sels r -> heads after_marks (details_text l r).
Proof.
  intros [|[d m] l] r H; [apply (heads_sub sels); [exact H|reflexivity]|]. cbn [details_text fst snd].
  destruct (detail_begins d m (details_text l r)) as (c & q & -> & [-> | ->]); reflexivity.
Qed.

Lemma rest_heads : forall l r, heads ",{)" r -> heads sels (rest_text l r).
Proof. intros [|[[] d] l] r H; [apply (heads_sub ",{)"); [exact H|reflexivity]|reflexivity..]. Qed.

(** Letters and the signs selectors begin with. *)
Definition rule_begin (c : N) : bool := ascii_letter c || among (S_ "*.#[:") c.

Lemma compound_begins : forall x r, compound_fine x = true -> exists c q, compound_text x r = c :: q /\ rule_begin c = true.
Proof.
  intros [e mk dt] r F. rewrite compound_fine_eq in F. apply andb_true_iff in F. destruct F as [F _]. apply andb_true_iff in F. destruct F as [F _].
  rewrite compound_text_eq. destruct e as [[n|]|]; cbn [element_text head_fine] in *.
  - unfold is_tag in F. destruct n as [|a n]; [discriminate|]. apply andb_true_iff in F. destruct F as [_ F].
    eexists _, _. split; [reflexivity|]. unfold rule_begin, ascii_letter. now rewrite F.
  - eexists _, _. split; reflexivity.
  - destruct mk as [|[n|n] mk]; [|eexists _, _; split; reflexivity..]. destruct dt as [|[d k] dt]; [discriminate|]. cbn [marks_text flat_map app details_text fst snd].
    destruct (detail_begins d k (details_text dt r)) as (c & q & -> & [-> | ->]); eexists _, _; split; reflexivity.
Qed.

Lemma selector_begins : forall x r, selector_fine x = true -> exists c q, selector_text x r = c :: q /\ rule_begin c = true.
Proof.
  intros [c l] r F. rewrite selector_fine_eq in F. apply andb_true_iff in F. destruct F as [Fc Fl]. rewrite selector_text_eq by exact Fl. now apply compound_begins.
Qed.

Lemma nth_not : forall w r c q, is_nth w = true -> rule_begin c = true -> w ++ r <> c :: q.
Proof.
  intros w r c q F R E. destruct (nth_first w F) as (a & b & -> & G). cbn [app] in E. injection E as -> _.
  unfold rule_begin in R. apply orb_true_iff in R. destruct R as [R|R].
  - unfold ascii_letter in R. apply orb_true_iff in R. rewrite !andb_true_iff, !N.leb_le in R. lia.
  - apply among_in in R. cbn in R. repeat (destruct R as [<-|R]; [lia|]). contradiction.
Qed.

Lemma nth_value : forall w, is_nth w = true -> a_word w = true.
Proof. exact nth_word_ok. Qed.

(** The texts determine them. *)
Definition compound_told (c : compound) : Prop := forall c' r r', compound_fine c = true -> compound_fine c' = true -> heads sels r -> heads sels r' ->
  compound_text c r = compound_text c' r' -> c = c' /\ r = r'.
Definition detail_told (d : detail) : Prop := forall d' m m' r r', detail_fine d = true -> forallb mark_fine m = true -> detail_fine d' = true -> forallb mark_fine m' = true ->
  heads after_marks r -> heads after_marks r' -> detail_text d m r = detail_text d' m' r' -> d = d' /\ m = m' /\ r = r'.
Definition argument_told (a : argument) : Prop := forall a' r r', argument_fine a = true -> argument_fine a' = true ->
  argument_text a r = argument_text a' r' -> a = a' /\ r = r'.
Definition selector_told (x : selector) : Prop := forall x' r r', selector_fine x = true -> selector_fine x' = true -> heads ",{)" r -> heads ",{)" r' ->
  selector_text x r = selector_text x' r' -> x = x' /\ r = r'.

Lemma name_begins : forall n c r r', is_name n = true -> name_char c = false -> n ++ r <> c :: r'.
Proof.
  intros [|c n] x q q' Hn Hx Eq; [discriminate|]. cbn [app] in Eq. injection Eq as -> _. cbn [is_name forallb] in Hn. rewrite Hx in Hn. discriminate.
Qed.

(** A name before a parenthesis is not one before marks. *)
Lemma name_paren : forall n n' q m r, is_name n = true -> is_name n' = true -> heads after_marks r -> (forall x, r <> 0x28 :: x) -> n ++ 0x28 :: q <> n' ++ marks_text m ++ r.
Proof.
  intros n n' q m r F F' H P E.
  destruct (name_uni "(.#[: >+~,{)" n n' (0x28 :: q) (marks_text m ++ r) eq_refl F F' eq_refl (heads_sub _ _ _ (marks_heads m r H) (eq_refl : forallb (among (S_ "(.#[: >+~,{)")) (S_ after_mark) = true)) E) as [_ E2].
  destruct m as [|[k|k] m]; cbn [marks_text flat_map app mark_text] in E2; try discriminate. exact (P _ (eq_sym E2)).
Qed.

Lemma marks_no_paren : forall r x, heads after_marks r -> r <> 0x28 :: x.
Proof. intros r x H ->. discriminate. Qed.

Lemma detail_told_all : forall d, match d with Function _ a => argument_told a | _ => True end -> detail_told d.
Proof.
  intros d A d' m m' r r' F Fm F' Fm' H H' E.
  destruct d as [n t|n|n|n a], d' as [n' t'|n'|n'|n' a']; rewrite ?attribute_text, ?class_text, ?pseudo_text, ?function_text in E; try discriminate; apply cons_tail in E;
    try (change (is_value n && test_fine t = true) in F); try (change (is_value n' && test_fine t' = true) in F');
    try (change (is_name n = true) in F); try (change (is_name n' = true) in F');
    try (change (is_name n && argument_fine a = true) in F); try (change (is_name n' && argument_fine a' = true) in F').
  - apply andb_true_iff in F, F'. destruct F as [F Ft], F' as [F' Ft']. apply is_value_word in F, F'.
    destruct (word_uni "]=~|$^*" n n' _ _ eq_refl F F' (test_heads t _ Ft) (test_heads t' _ Ft') E) as [-> E2].
    destruct (test_uni t t' _ _ Ft Ft' E2) as [-> E3]. destruct (marks_uni m m' r r' Fm Fm' H H' E3) as [-> ->]. now repeat split.
  - destruct (name_uni after_mark n n' _ _ eq_refl F F' (marks_heads m r H) (marks_heads m' r' H') E) as [-> E3].
    destruct (marks_uni m m' r r' Fm Fm' H H' E3) as [-> ->]. now repeat split.
  - exfalso. exact (name_begins n 0x3A _ _ F eq_refl E).
  - exfalso. apply andb_true_iff in F'. destruct F' as [F' _]. refine (name_paren n' n _ m r F' F H _ (eq_sym E)). intros x. now apply marks_no_paren.
  - exfalso. exact (name_begins n' 0x3A _ _ F' eq_refl (eq_sym E)).
  - apply cons_tail in E. destruct (name_uni after_mark n n' _ _ eq_refl F F' (marks_heads m r H) (marks_heads m' r' H') E) as [-> E3].
    destruct (marks_uni m m' r r' Fm Fm' H H' E3) as [-> ->]. now repeat split.
  - exfalso. apply andb_true_iff in F'. destruct F' as [F' _]. exact (name_begins n' 0x3A _ _ F' eq_refl (eq_sym E)).
  - exfalso. apply andb_true_iff in F. destruct F as [F _]. refine (name_paren n n' _ m' r' F F' H' _ E). intros x. now apply marks_no_paren.
  - exfalso. apply andb_true_iff in F. destruct F as [F _]. exact (name_begins n 0x3A _ _ F eq_refl E).
  - apply andb_true_iff in F, F'. destruct F as [F Fa], F' as [F' Fa'].
    destruct (name_uni "(" n n' _ _ eq_refl F F' (eq_refl : heads "(" (0x28 :: _)) (eq_refl : heads "(" (0x28 :: _)) E) as [-> E2]. apply cons_tail in E2.
    destruct (A a' _ _ Fa Fa' E2) as [-> E3]. destruct (marks_uni m m' r r' Fm Fm' H H' E3) as [-> ->]. now repeat split.
Qed.

Lemma details_told : forall l l' r r', Forall (fun x : detail * list mark => detail_told (fst x)) l -> forallb pair_fine l = true -> forallb pair_fine l' = true ->
  heads sels r -> heads sels r' -> details_text l r = details_text l' r' -> l = l' /\ r = r'.
Proof.
  induction l as [|[d m] l IH]; intros [|[d' m'] l'] r r' D F F' H H' E; cbn [details_text fst snd] in E.
  - now split.
  - exfalso. destruct (detail_begins d' m' (details_text l' r')) as (c & q & Q & B). rewrite Q in E. subst r. destruct B; subst; discriminate.
  - exfalso. destruct (detail_begins d m (details_text l r)) as (c & q & Q & B). rewrite Q in E. subst r'. destruct B; subst; discriminate.
  - cbn [forallb] in F, F'. apply andb_true_iff in F, F'. destruct F as [F1 F2], F' as [F1' F2']. unfold pair_fine in F1, F1'. cbn [fst snd] in F1, F1'.
    apply andb_true_iff in F1, F1'. destruct F1 as [F1 Fm], F1' as [F1' Fm']. inversion D as [|? ? D1 D2]; subst. cbn [fst] in D1.
    destruct (D1 d' m m' _ _ F1 Fm F1' Fm' (details_heads l r H) (details_heads l' r' H') E) as (<- & <- & E2).
    destruct (IH l' r r' D2 F2 F2' H H' E2) as [<- <-]. now split.
Qed.

Lemma compound_heads : forall m d r, heads sels r -> heads after_mark (marks_text m ++ details_text d r).
Proof. intros m d r H. apply marks_heads, details_heads, H. Qed.

Lemma compound_told_all : forall e m d, Forall (fun x : detail * list mark => detail_told (fst x)) d -> compound_told (Compound e m d).
Proof.
  intros e m d G [e' m' d'] r r' F F' H H' E. rewrite !compound_text_eq in E. rewrite compound_fine_eq in F, F'.
  apply andb_true_iff in F, F'. destruct F as [F Fd], F' as [F' Fd']. apply andb_true_iff in F, F'. destruct F as [F Fm], F' as [F' Fm'].
  assert (T : forall n x, is_tag n = true -> exists c q, n ++ x = c :: q /\ ascii_letter c = true).
  { intros [|c n] x Hn; [discriminate|]. unfold is_tag in Hn. apply andb_true_iff in Hn. destruct Hn as [_ Hn]. exists c, (n ++ x). split; [reflexivity|exact Hn]. }
  assert (K : forall c x, heads after_mark (c :: x) -> ascii_letter c = false /\ c <> 0x2A).
  { intros c x Hc. unfold heads in Hc. cbn [begins] in Hc. apply among_in in Hc. cbn in Hc. repeat (destruct Hc as [<-|Hc]; [split; [reflexivity|discriminate]|]). contradiction. }
  assert (D : forall e e', e = e' -> marks_text m ++ details_text d r = marks_text m' ++ details_text d' r' ->
    Compound e m d = Compound e' m' d' /\ r = r').
  { intros ? ? <- E2. destruct (marks_uni m m' _ _ Fm Fm' (details_heads d r H) (details_heads d' r' H') E2) as [<- E3].
    destruct (details_told d d' r r' G Fd Fd' H H' E3) as [<- <-]. now split. }
  pose proof (compound_heads m d r H) as Hd. pose proof (compound_heads m' d' r' H') as Hd'.
  destruct e as [[n|]|], e' as [[n'|]|]; cbn [element_text head_fine] in *.
  - unfold is_tag in F, F'. apply andb_true_iff in F, F'. destruct F as [F _], F' as [F' _].
    destruct (name_uni after_mark n n' _ _ eq_refl F F' Hd Hd' E) as [-> E2]. now apply D.
  - exfalso. destruct (T n (marks_text m ++ details_text d r) F) as (c & q & Q & L). rewrite Q in E. injection E as -> _. discriminate.
  - exfalso. destruct (T n (marks_text m ++ details_text d r) F) as (c & q & Q & L). rewrite Q in E. cbn [app] in E. rewrite <- E in Hd'. apply K in Hd'. destruct Hd' as [G2 _]. congruence.
  - exfalso. destruct (T n' (marks_text m' ++ details_text d' r') F') as (c & q & Q & L). rewrite Q in E. injection E as <- _. discriminate.
  - apply cons_tail in E. now apply D.
  - exfalso. cbn [app] in E. rewrite <- E in Hd'. apply K in Hd'. now destruct Hd'.
  - exfalso. destruct (T n' (marks_text m' ++ details_text d' r') F') as (c & q & Q & L). rewrite Q in E. cbn [app] in E. rewrite E in Hd. apply K in Hd. destruct Hd as [G2 _]. congruence.
  - exfalso. cbn [app] in E. rewrite E in Hd. apply K in Hd. now destruct Hd.
  - now apply D.
Qed.

Lemma rest_told : forall l l' c c' r r', Forall (fun x : combinator * compound => compound_told (snd x)) l -> rest_fine compound_fine c l = true -> rest_fine compound_fine c' l' = true ->
  heads ",{)" r -> heads ",{)" r' -> rest_text l r = rest_text l' r' -> l = l' /\ r = r'.
Proof.
  induction l as [|[k d] l IH]; intros [|[k' d'] l'] c c' r r' D F F' H H' E; cbn [rest_text] in E.
  - now split.
  - exfalso. subst r. destruct k'; discriminate.
  - exfalso. subst r'. destruct k; discriminate.
  - rewrite rest_fine_eq in F, F'. apply andb_true_iff in F, F'. destruct F as [F F2], F' as [F' F2']. apply andb_true_iff in F, F'. destruct F as [F _], F' as [F' _].
    assert (Ek : comb_char k = comb_char k') by (now injection E). assert (k = k') as <- by (destruct k, k'; try reflexivity; discriminate). apply cons_tail in E.
    inversion D as [|? ? D1 D2]; subst. cbn [snd] in D1.
    destruct (D1 d' _ _ F F' (rest_heads l r H) (rest_heads l' r' H') E) as [<- E2].
    destruct (IH l' d d r r' D2 F2 F2' H H' E2) as [<- <-]. now split.
Qed.

Lemma selector_told_all : forall c l, compound_told c -> Forall (fun x : combinator * compound => compound_told (snd x)) l -> selector_told (Selector c l).
Proof.
  intros c l C L [c' l'] r r' F F' H H' E. rewrite selector_fine_eq in F, F'. apply andb_true_iff in F, F'. destruct F as [Fc Fl], F' as [Fc' Fl'].
  rewrite !selector_text_eq in E by assumption. destruct (C c' _ _ Fc Fc' (rest_heads l r H) (rest_heads l' r' H') E) as [<- E2].
  destruct (rest_told l l' c c r r' L Fl Fl' H H' E2) as [<- <-]. now split.
Qed.

Lemma list_heads : forall z l r, z = 0x7B \/ z = 0x29 -> heads ",{)" (list_text z l r).
Proof. intros z [|y l] r [->| ->]; reflexivity. Qed.

Lemma list_told : forall z l l' r r', z = 0x7B \/ z = 0x29 -> Forall selector_told l -> forallb selector_fine l = true -> forallb selector_fine l' = true ->
  list_text z l r = list_text z l' r' -> l = l' /\ r = r'.
Proof.
  intros z. induction l as [|y l IH]; intros [|y' l'] r r' Z D F F' E; cbn [list_text] in E.
  - apply cons_tail in E. now split.
  - exfalso. injection E as -> _. destruct Z; discriminate.
  - exfalso. injection E as <- _. destruct Z; discriminate.
  - apply cons_tail in E. cbn [forallb] in F, F'. apply andb_true_iff in F, F'. destruct F as [Fy F], F' as [Fy' F']. inversion D as [|? ? D1 D2]; subst.
    destruct (D1 y' _ _ Fy Fy' (list_heads z l r Z) (list_heads z l' r' Z) E) as [<- E2]. destruct (IH l' r r' Z D2 F F' E2) as [<- <-]. now split.
Qed.

Lemma nth_told : forall w p, argument_told (Nth w p).
Proof.
  assert (Hd : forall p r, heads "+)" match p with Some v => 0x2B :: v ++ 0x29 :: r | None => 0x29 :: r end) by (now intros [] ?).
  intros w p [w' p'|x l] r r' F F' E; change (is_nth w && match p with Some v => is_nth v | None => true end = true) in F.
  - change (is_nth w' && match p' with Some v => is_nth v | None => true end = true) in F'. apply andb_true_iff in F, F'. destruct F as [Fw Fp], F' as [Fw' Fp'].
    rewrite !nth_text in E. destruct (word_uni "+)" w w' _ _ eq_refl (nth_value w Fw) (nth_value w' Fw') (Hd p r) (Hd p' r') E) as [-> E2].
    destruct p as [v|], p' as [v'|]; try discriminate; apply cons_tail in E2.
    + destruct (word_uni ")" v v' (0x29 :: r) (0x29 :: r') eq_refl (nth_value v Fp) (nth_value v' Fp') eq_refl eq_refl E2) as [-> E3]. apply cons_tail in E3. subst. now split.
    + subst. now split.
  - exfalso. apply andb_true_iff in F. destruct F as [Fw _]. rewrite among_fine_eq in F'. apply andb_true_iff in F'. destruct F' as [Fx Fl].
    rewrite nth_text, among_text in E by assumption. destruct (selector_begins x (list_text 0x29 l r') Fx) as (c & q & Q & B). rewrite Q in E. exact (nth_not _ _ _ _ Fw B E).
Qed.

Lemma among_told : forall x l, selector_told x -> Forall selector_told l -> argument_told (Among x l).
Proof.
  intros x l X L [w p|x' l'] r r' F F' E; rewrite among_fine_eq in F; apply andb_true_iff in F; destruct F as [Fx Fl].
  - exfalso. change (is_nth w && match p with Some v => is_nth v | None => true end = true) in F'. apply andb_true_iff in F'. destruct F' as [Fw _].
    rewrite nth_text, among_text in E by assumption. destruct (selector_begins x (list_text 0x29 l r) Fx) as (c & q & Q & B). rewrite Q in E. exact (nth_not _ _ _ _ Fw B (eq_sym E)).
  - rewrite among_fine_eq in F'. apply andb_true_iff in F'. destruct F' as [Fx' Fl']. rewrite !among_text in E by assumption.
    destruct (X x' _ _ Fx Fx' (list_heads 0x29 l r (or_intror eq_refl)) (list_heads 0x29 l' r' (or_intror eq_refl)) E) as [<- E2].
    destruct (list_told 0x29 l l' r r' (or_intror eq_refl) L Fl Fl' E2) as [<- <-]. now split.
Qed.

Lemma all_told : (forall c, compound_told c) /\ (forall d, detail_told d) /\ (forall a, argument_told a) /\ (forall x, selector_told x).
Proof.
  apply selectors_ind.
  - exact compound_told_all.
  - intros. now apply detail_told_all.
  - intros. now apply detail_told_all.
  - intros. now apply detail_told_all.
  - intros n a A. apply detail_told_all. exact A.
  - exact nth_told.
  - exact among_told.
  - exact selector_told_all.
Qed.

Lemma selector_uni : forall x, selector_told x.
Proof. apply all_told. Qed.

Lemma list_uni : forall l l' r r', forallb selector_fine l = true -> forallb selector_fine l' = true -> list_text 0x7B l r = list_text 0x7B l' r' -> l = l' /\ r = r'.
Proof. intros l l' r r' F F' E. apply (list_told 0x7B); auto. apply Forall_forall. intros x _. apply selector_uni. Qed.

(** *** Rules and sheets *)

(** A block behind its opening brace. *)
Definition block_text (d : list declaration) (cl : bool) (r : str) : str := canonical (declarations_chunks d cl) ++ 0x7D :: r.

Lemma block_chunks_text : forall d cl r, canonical (declarations_chunks d cl ++ [sign Loose "}"]) ++ r = block_text d cl r.
Proof. intros d cl r. rewrite can_app, <- app_assoc. reflexivity. Qed.

Lemma block_uni : forall d d' cl cl' r r', body_fine d cl = true -> body_fine d' cl' = true -> block_text d cl r = block_text d' cl' r' -> d = d' /\ cl = cl' /\ r = r'.
Proof.
  intros d d' cl cl' r r' F F' E. unfold body_fine in F, F'. apply andb_true_iff in F, F'. destruct F as [F C], F' as [F' C'].
  exact (declarations_uni d d' cl cl' r r' F F' C C' E).
Qed.

Definition rule_text (x : rule) (r : str) : str :=
  selector_text (fst (selectors x)) (list_text 0x7B (snd (selectors x)) (block_text (declarations x) (closed x) r)).

Lemma rule_chunks_text : forall s x r, rule_fine x = true -> canonical (rule_chunks s x) ++ r = slot_text s ++ rule_text x r.
Proof.
  intros s [[x m] d cl] r F. unfold rule_fine in F. cbn [selectors declarations closed fst snd] in F. apply andb_true_iff in F. destruct F as [F _].
  apply andb_true_iff in F. destruct F as [Fx Fm]. unfold rule_chunks, rule_text. cbn [selectors declarations closed fst snd].
  rewrite can_app, can_app, <- !app_assoc, block_chunks_text, selector_slot by exact Fx.
  change (fun _ : compound => sign Loose "{") with (fun _ : compound => (Loose, Sign 0x7B)). rewrite (list_chunks_text 0x7B (fun _ => Loose)) by (exact Fm || reflexivity).
  now rewrite <- app_assoc.
Qed.

Lemma rule_uni : forall x x' r r', rule_fine x = true -> rule_fine x' = true -> rule_text x r = rule_text x' r' -> x = x' /\ r = r'.
Proof.
  intros [[x m] d cl] [[x' m'] d' cl'] r r' F F' E. unfold rule_fine, rule_text in *. cbn [selectors declarations closed fst snd] in *. apply andb_true_iff in F, F'.
  destruct F as [F Fd], F' as [F' Fd']. apply andb_true_iff in F, F'. destruct F as [Fx Fm], F' as [Fx' Fm'].
  destruct (selector_uni x x' _ _ Fx Fx' (list_heads 0x7B m _ (or_introl eq_refl)) (list_heads 0x7B m' _ (or_introl eq_refl)) E) as [-> E2].
  destruct (list_uni m m' _ _ Fm Fm' E2) as [-> E3].
  destruct (block_uni d d' cl cl' r r' Fd Fd' E3) as (-> & -> & ->). now split.
Qed.

(** Rules do not begin like an at-rule, nor with a closing brace. *)
Lemma rule_begins : forall x r, rule_fine x = true -> exists c q, rule_text x r = c :: q /\ rule_begin c = true.
Proof.
  intros x r F. unfold rule_fine in F. apply andb_true_iff in F. destruct F as [F _]. apply andb_true_iff in F. destruct F as [F _]. now apply selector_begins.
Qed.

Fixpoint stops_text (l : list str) (r : str) : str := match l with [] => 0x7B :: r | v :: q => 0x2C :: v ++ stops_text q r end.

Definition inner_text (x : inner) (r : str) : str :=
  match x with Ruled x => rule_text x r | Frame w l d cl => w ++ stops_text l (block_text d cl r) end.

Lemma stops_chunks_text : forall l r, canonical (flat_map (fun v => [sign Loose ","; (Loose, Word v)]) l) ++ 0x7B :: r = stops_text l r.
Proof.
  induction l as [|v l IH]; intros r; [reflexivity|]. cbn [flat_map stops_text]. rewrite can_app, <- app_assoc, IH. change (sign Loose ",") with (Loose, Sign 0x2C). rewrite !can_cons.
  cbn [slot_text part_text line_end canonical flat_map app]. now rewrite app_nil_r.
Qed.

Lemma inner_chunks_text : forall x r, inner_fine x = true -> canonical (inner_chunks x) ++ r = inner_text x r.
Proof.
  intros [x|w l d cl] r F; cbn [inner_chunks inner_fine inner_text] in *; [now rewrite rule_chunks_text|].
  rewrite can_cons, can_app. change (sign Loose "{") with (Loose, Sign 0x7B). rewrite can_cons. cbn [slot_text part_text line_end app].
  rewrite <- !app_assoc. f_equal. rewrite <- app_comm_cons, block_chunks_text. apply stops_chunks_text.
Qed.

Lemma stops_heads : forall l r, heads ",{" (stops_text l r).
Proof. intros [] r; reflexivity. Qed.

Lemma stops_uni : forall l l' r r', forallb is_nth l = true -> forallb is_nth l' = true -> stops_text l r = stops_text l' r' -> l = l' /\ r = r'.
Proof.
  induction l as [|v l IH]; intros [|v' l'] r r' F F' E; cbn [stops_text] in E; try discriminate; apply cons_tail in E.
  - now split.
  - cbn [forallb] in F, F'. apply andb_true_iff in F, F'. destruct F as [F1 F2], F' as [F1' F2'].
    destruct (word_uni ",{" v v' _ _ eq_refl (nth_value v F1) (nth_value v' F1') (stops_heads l r) (stops_heads l' r') E) as [-> E2].
    destruct (IH l' r r' F2 F2' E2) as [-> ->]. now split.
Qed.

Lemma inner_uni : forall x x' r r', inner_fine x = true -> inner_fine x' = true -> inner_text x r = inner_text x' r' -> x = x' /\ r = r'.
Proof.
  assert (B : forall x r w q, rule_fine x = true -> is_nth w = true -> w ++ q <> rule_text x r).
  { intros x r w q F W E. destruct (rule_begins x r F) as (c & p & Q & G). rewrite Q in E. exact (nth_not _ _ _ _ W G E). }
  intros [x|w l d cl] [x'|w' l' d' cl'] r r' F F' E; cbn [inner_fine inner_text] in *.
  - destruct (rule_uni x x' r r' F F' E) as [-> ->]. now split.
  - exfalso. apply andb_true_iff in F'. destruct F' as [F' _]. apply andb_true_iff in F'. destruct F' as [F' _]. exact (B _ _ _ _ F F' (eq_sym E)).
  - exfalso. apply andb_true_iff in F. destruct F as [F _]. apply andb_true_iff in F. destruct F as [F _]. exact (B _ _ _ _ F' F E).
  - apply andb_true_iff in F, F'. destruct F as [F Fd], F' as [F' Fd']. apply andb_true_iff in F, F'. destruct F as [F Fl], F' as [F' Fl'].
    destruct (word_uni ",{" w w' _ _ eq_refl (nth_value w F) (nth_value w' F') (stops_heads l _) (stops_heads l' _) E) as [-> E2].
    destruct (stops_uni l l' _ _ Fl Fl' E2) as [-> E3]. destruct (block_uni d d' cl cl' r r' Fd Fd' E3) as (-> & -> & ->). now split.
Qed.

Lemma inner_not_brace : forall x r q, inner_fine x = true -> inner_text x r <> 0x7D :: q.
Proof.
  intros [x|w l d cl] r q F E; cbn [inner_fine inner_text] in *.
  - destruct (rule_begins x r F) as (c & p & Q & G). rewrite Q in E. injection E as -> _. discriminate.
  - apply andb_true_iff in F. destruct F as [F _]. apply andb_true_iff in F. destruct F as [F _]. exact (word_not_sign w 0x7D _ _ (nth_value w F) eq_refl E).
Qed.

Lemma inners_uni : forall l l' r r', forallb inner_fine l = true -> forallb inner_fine l' = true ->
  canonical (flat_map inner_chunks l) ++ 0x7D :: r = canonical (flat_map inner_chunks l') ++ 0x7D :: r' -> l = l' /\ r = r'.
Proof.
  assert (C : forall x l r, inner_fine x = true -> canonical (flat_map inner_chunks (x :: l)) ++ r = inner_text x (canonical (flat_map inner_chunks l) ++ r)).
  { intros x l r F. cbn [flat_map]. now rewrite can_app, <- app_assoc, inner_chunks_text by exact F. }
  induction l as [|x l IH]; intros [|x' l'] r r' F F' E.
  - injection E as ->. now split.
  - exfalso. cbn [forallb] in F'. apply andb_true_iff in F'. destruct F' as [F' _]. rewrite C in E by exact F'. exact (inner_not_brace _ _ _ F' (eq_sym E)).
  - exfalso. cbn [forallb] in F. apply andb_true_iff in F. destruct F as [F _]. rewrite C in E by exact F. exact (inner_not_brace _ _ _ F E).
  - cbn [forallb] in F, F'. apply andb_true_iff in F, F'. destruct F as [F F2], F' as [F' F2']. rewrite !C in E by assumption.
    destruct (inner_uni x x' _ _ F F' E) as [<- E2]. destruct (IH l' r r' F2 F2' E2) as [<- <-]. now split.
Qed.

Definition prelude_text (c : option (condition * list (bool * condition))) : str :=
  match c with Some (c, m) => canonical (conditions_chunks c m) | None => [0x20] end.

Definition entry_text (e : entry) (r : str) : str :=
  match e with
  | Rule x => rule_text x r
  | AtStatement k c l => 0x40 :: k ++ canonical (conditions_chunks c l) ++ 0x3B :: r
  | AtBlock k c l => 0x40 :: k ++ prelude_text c ++ 0x7B :: canonical (flat_map inner_chunks l) ++ 0x7D :: r
  | AtBody k c d cl => 0x40 :: k ++ prelude_text c ++ 0x7B :: block_text d cl r
  | Notice b => 0x2F :: 0x2A :: 0x21 :: b ++ 0x2A :: 0x2F :: 0xA :: r
  end.

(** Declarations in the block of an at-rule have the same text. *)
Lemma direct_values_text : forall s s' v, slot_text s = slot_text s' -> canonical (values_chunks s v) = canonical (values_chunks s' v).
Proof.
  intros s s' [t l] E. rewrite !values_eq, !can_app. f_equal. destruct (term_slot s t) as (m & M). destruct (M s') as [-> ->]. now rewrite E.
Qed.

Lemma direct_text : forall d cl, canonical (direct_declarations d cl) = canonical (declarations_chunks d cl).
Proof.
  assert (D : forall d, canonical (direct_declaration d) = canonical (declaration_chunks d)).
  { intros d. unfold direct_declaration, declaration_chunks. change (sign Tight ":") with (Tight, Sign 0x3A). change (sign Loose ":") with (Loose, Sign 0x3A). rewrite !can_cons.
    now rewrite (direct_values_text Blanks Loose). }
  intros d cl. induction d as [|x d IH]; [reflexivity|]. cbn [direct_declarations declarations_chunks]. rewrite !can_app, D. f_equal. destruct d; [reflexivity|].
  change (sign Loose ";") with (Loose, Sign 0x3B). rewrite !can_cons. now rewrite IH.
Qed.

Lemma entry_chunks_text : forall s e r, entry_fine e = true -> canonical (entry_chunks s e) ++ r = slot_text s ++ entry_text e r.
Proof.
  intros s [x|k c l|k c l|k c d cl|b] r F; cbn [entry_chunks entry_text entry_fine] in *.
  - now apply rule_chunks_text.
  - rewrite can_cons, can_app. cbn [part_text line_end]. rewrite <- ?app_assoc. cbn [app]. rewrite <- ?app_assoc. reflexivity.
  - rewrite can_cons, can_app, can_app. cbn [part_text line_end]. rewrite <- ?app_assoc. cbn [app]. rewrite <- ?app_assoc. f_equal. f_equal. f_equal.
    destruct c as [[c m]|]; cbn [prelude_text]; [|reflexivity]. rewrite can_app, <- app_assoc. reflexivity.
  - rewrite can_cons, can_app, can_app, direct_text. cbn [part_text line_end]. rewrite <- ?app_assoc. cbn [app]. rewrite <- ?app_assoc. f_equal. f_equal. f_equal.
    destruct c as [[c m]|]; cbn [prelude_text]; [|reflexivity]. rewrite can_app, <- app_assoc. reflexivity.
  - rewrite can_cons. cbn [part_text line_end canonical flat_map]. unfold comment_text. rewrite <- !app_assoc. reflexivity.
Qed.

Lemma conditions_begin : forall c l r, exists q, canonical (conditions_chunks c l) ++ r = 0x20 :: q.
Proof.
  intros c l r. rewrite conditions_text. destruct (condition_slot AfterAt c) as (m & ->). eexists. reflexivity.
Qed.

Lemma prelude_uni : forall c c' r r', match c with Some (c, m) => conditions_fine c m | None => true end = true ->
  match c' with Some (c, m) => conditions_fine c m | None => true end = true ->
  prelude_text c ++ 0x7B :: r = prelude_text c' ++ 0x7B :: r' -> c = c' /\ r = r'.
Proof.
  assert (B : forall c m r r', conditions_fine c m = true -> canonical (conditions_chunks c m) ++ 0x7B :: r <> 0x20 :: 0x7B :: r').
  { intros c m r r' F E. rewrite conditions_text in E. assert (Fc : condition_fine c = true) by (destruct m; apply andb_true_iff in F; tauto).
    destruct c as [w|w|n v|f a|[w|] p]; cbn [condition_fine] in Fc; rewrite ?cword_text, ?cstring_text, ?cfeature_text, ?curl_text, ?cpage_text in E; cbn [slot_text app] in E; injection E as E.
    - apply is_value_word in Fc. exact (word_not_sign w 0x7B _ _ Fc eq_refl E).
    - exact (string_not_sign w 0x7B _ _ Fc eq_refl E).
    - discriminate.
    - apply andb_true_iff in Fc. destruct Fc as [Fc _]. apply url_word in Fc. exact (word_not_sign f 0x7B _ _ (proj1 Fc) eq_refl E).
    - apply andb_true_iff in Fc. destruct Fc as [_ Fc]. apply is_value_word in Fc. unfold page_text in E. exact (word_not_sign w 0x7B _ _ Fc eq_refl E).
    - discriminate. }
  intros [[c m]|] [[c' m']|] r r' F F' E; cbn [prelude_text] in E.
  - destruct (conditions_uni c m c' m' (0x7B :: r) (0x7B :: r') F F' eq_refl eq_refl E) as (-> & -> & E2). injection E2 as ->. now split.
  - exfalso. exact (B _ _ _ _ F E).
  - exfalso. exact (B _ _ _ _ F' (eq_sym E)).
  - injection E as ->. now split.
Qed.

Lemma at_heads : forall c l r, heads " " (canonical (conditions_chunks c l) ++ r).
Proof. intros c l r. destruct (conditions_begin c l r) as (q & ->). reflexivity. Qed.

Lemma prelude_heads : forall c r, heads " " (prelude_text c ++ r).
Proof. intros [[c m]|] r; [apply at_heads|reflexivity]. Qed.

Lemma endless_uni : forall b b' r r', endless b = true -> endless b' = true -> b ++ 0x2A :: 0x2F :: r = b' ++ 0x2A :: 0x2F :: r' -> b = b' /\ r = r'.
Proof.
  assert (A : forall b r r', endless b = true -> 0x2A :: 0x2F :: r = b ++ 0x2A :: 0x2F :: r' -> b = []).
  { intros [|c [|d b]] r r' F E; [reflexivity| |]; cbn [app] in E.
    - discriminate.
    - injection E as <- <- _. discriminate. }
  induction b as [|c b IH]; intros b' r r' F F' E.
  - pose proof (A b' r r' F' E) as ->. cbn [app] in E. apply cons_tail, cons_tail in E. now split.
  - destruct b' as [|c' b'].
    + pose proof (A (c :: b) r' r F (eq_sym E)). discriminate.
    + cbn [app] in E. assert (c = c') as <- by (now injection E). apply cons_tail in E. cbn [endless] in F, F'. apply andb_true_iff in F, F'.
      destruct (IH b' r r' (proj2 F) (proj2 F') E) as [-> ->]. now split.
Qed.

Lemma entry_uni : forall e e' r r', entry_fine e = true -> entry_fine e' = true -> entry_text e r = entry_text e' r' -> e = e' /\ r = r'.
Proof.
  assert (B : forall x r c q, rule_fine x = true -> rule_begin c = false -> rule_text x r <> c :: q).
  { intros x r c q F C E. destruct (rule_begins x r F) as (c' & p & Q & G). rewrite Q in E. injection E as -> _. rewrite G in C. discriminate. }
  assert (M : forall c m k r r', conditions_fine c m = true -> match k with Some (c, m) => conditions_fine c m | None => true end = true ->
    canonical (conditions_chunks c m) ++ 0x3B :: r <> prelude_text k ++ 0x7B :: r').
  { intros c m [[c' m']|] r r' F F' E; cbn [prelude_text] in E.
    - destruct (conditions_uni c m c' m' (0x3B :: r) (0x7B :: r') F F' eq_refl eq_refl E) as (_ & _ & E2). discriminate.
    - rewrite conditions_text in E. assert (Fc : condition_fine c = true) by (destruct m; apply andb_true_iff in F; tauto).
      destruct c as [w|w|n v|f a|[w|] p]; cbn [condition_fine] in Fc; rewrite ?cword_text, ?cstring_text, ?cfeature_text, ?curl_text, ?cpage_text in E; cbn [slot_text app] in E; injection E as E.
      + apply is_value_word in Fc. exact (word_not_sign w 0x7B _ _ Fc eq_refl E).
      + exact (string_not_sign w 0x7B _ _ Fc eq_refl E).
      + discriminate.
      + apply andb_true_iff in Fc. destruct Fc as [Fc _]. apply url_word in Fc. exact (word_not_sign f 0x7B _ _ (proj1 Fc) eq_refl E).
      + apply andb_true_iff in Fc. destruct Fc as [_ Fc]. apply is_value_word in Fc. unfold page_text in E. exact (word_not_sign w 0x7B _ _ Fc eq_refl E).
      + discriminate. }
  assert (Sb : forall k c l k' c' r r', is_name k = true -> conditions_fine c l = true -> is_name k' = true ->
    match c' with Some (c, m) => conditions_fine c m | None => true end = true ->
    0x40 :: k ++ canonical (conditions_chunks c l) ++ 0x3B :: r <> 0x40 :: k' ++ prelude_text c' ++ 0x7B :: r').
  { intros k c l k' c' r r' Fk Fc Fk' Fc' E. injection E as E.
    destruct (name_uni " " k k' _ _ eq_refl Fk Fk' (at_heads c l _) (prelude_heads c' _) E) as [_ E2]. exact (M _ _ _ _ _ Fc Fc' E2). }
  assert (Bb : forall k c k' c' r r', is_name k = true -> match c with Some (c, m) => conditions_fine c m | None => true end = true -> is_name k' = true ->
    match c' with Some (c, m) => conditions_fine c m | None => true end = true ->
    0x40 :: k ++ prelude_text c ++ 0x7B :: r = 0x40 :: k' ++ prelude_text c' ++ 0x7B :: r' -> k = k' /\ c = c' /\ r = r').
  { intros k c k' c' r r' Fk Fc Fk' Fc' E. injection E as E.
    destruct (name_uni " " k k' _ _ eq_refl Fk Fk' (prelude_heads c _) (prelude_heads c' _) E) as [-> E2].
    destruct (prelude_uni c c' _ _ Fc Fc' E2) as [-> E3]. now repeat split. }
  assert (Fb : forall a b c d : bool, a && b && c && d = true -> a = true /\ b = true /\ c = true /\ d = true) by (intros; rewrite !andb_true_iff in *; tauto).
  assert (F5 : forall a b c d e : bool, a && b && c && d && e = true -> a = true /\ b = true /\ c = true /\ d = true) by (intros; rewrite !andb_true_iff in *; tauto).
  intros [x|k c l|k c l|k c d cl|b] [x'|k' c' l'|k' c' l'|k' c' d' cl'|b'] r r' F F' E; cbn [entry_fine entry_text] in *;
    try (exfalso; refine (B _ _ _ _ F _ E); reflexivity); try (exfalso; refine (B _ _ _ _ F' _ (eq_sym E)); reflexivity); try discriminate.
  - destruct (rule_uni x x' r r' F F' E) as [-> ->]. now split.
  - apply andb_true_iff in F, F'. destruct F as [Fk Fc], F' as [Fk' Fc']. injection E as E.
    destruct (name_uni " " k k' _ _ eq_refl Fk Fk' (at_heads c l _) (at_heads c' l' _) E) as [-> E2].
    destruct (conditions_uni c l c' l' (0x3B :: r) (0x3B :: r') Fc Fc' eq_refl eq_refl E2) as (-> & -> & E3). injection E3 as ->. now split.
  - exfalso. apply andb_true_iff in F. apply Fb in F'. destruct F as [Fk Fc], F' as (Fk' & _ & Fc' & _). exact (Sb _ _ _ _ _ _ _ Fk Fc Fk' Fc' E).
  - exfalso. apply andb_true_iff in F. apply F5 in F'. destruct F as [Fk Fc], F' as (Fk' & _ & Fc' & _). exact (Sb _ _ _ _ _ _ _ Fk Fc Fk' Fc' E).
  - exfalso. apply andb_true_iff in F'. apply Fb in F. destruct F' as [Fk' Fc'], F as (Fk & _ & Fc & _). exact (Sb _ _ _ _ _ _ _ Fk' Fc' Fk Fc (eq_sym E)).
  - apply Fb in F, F'. destruct F as (Fk & _ & Fc & Fr), F' as (Fk' & _ & Fc' & Fr').
    destruct (Bb _ _ _ _ _ _ Fk Fc Fk' Fc' E) as (-> & -> & E3). destruct (inners_uni l l' r r' Fr Fr' E3) as [-> ->]. now split.
  - exfalso. apply Fb in F. apply F5 in F'. destruct F as (Fk & Nk & Fc & Fr), F' as (Fk' & Nk' & Fc' & _).
    destruct (Bb _ _ _ _ _ _ Fk Fc Fk' Fc' E) as (-> & _). rewrite Nk' in Nk. discriminate.
  - exfalso. apply andb_true_iff in F'. apply F5 in F. destruct F' as [Fk' Fc'], F as (Fk & _ & Fc & _). exact (Sb _ _ _ _ _ _ _ Fk' Fc' Fk Fc (eq_sym E)).
  - exfalso. apply Fb in F'. apply F5 in F. destruct F' as (Fk' & Nk' & Fc' & Fr), F as (Fk & Nk & Fc & _).
    destruct (Bb _ _ _ _ _ _ Fk Fc Fk' Fc' E) as (-> & _). rewrite Nk in Nk'. discriminate.
  - apply F5 in F, F'. destruct F as (Fk & _ & Fc & Fr), F' as (Fk' & _ & Fc' & Fr').
    destruct (Bb _ _ _ _ _ _ Fk Fc Fk' Fc' E) as (-> & -> & E3). destruct (block_uni d d' cl cl' r r' Fr Fr' E3) as (-> & -> & ->). now split.
  - do 3 apply cons_tail in E. destruct (endless_uni b b' _ _ F F' E) as [-> E2]. apply cons_tail in E2. subst. now split.
Qed.

Fixpoint entries_text (l : sheet) : str := match l with [] => [] | e :: r => entry_text e (entries_text r) end.

Lemma sheet_text : forall a, sheet_fine a = true -> canonical (sheet_chunks a) = entries_text a.
Proof.
  assert (R : forall a, sheet_fine a = true -> canonical (flat_map (entry_chunks Loose) a) = entries_text a).
  { induction a as [|e a IH]; intros F; [reflexivity|]. unfold sheet_fine in *. cbn [forallb] in F. apply andb_true_iff in F. destruct F as [F1 F2].
    cbn [flat_map entries_text]. rewrite can_app, IH by exact F2. now rewrite entry_chunks_text. }
  intros [|e a] F; [reflexivity|]. pose proof F as G. unfold sheet_fine in G. cbn [forallb] in G. apply andb_true_iff in G. destruct G as [F1 F2].
  cbn [sheet_chunks entries_text]. rewrite can_app, R by exact F2. now rewrite entry_chunks_text.
Qed.

Lemma entry_nonempty : forall e r, entry_fine e = true -> entry_text e r <> [].
Proof.
  intros [x|k c l|k c l|k c d cl|b] r F E; try discriminate. cbn [entry_text entry_fine] in *. destruct (rule_begins x r F) as (c & q & Q & _). rewrite Q in E. discriminate.
Qed.

Theorem rules_told : forall a b, sheet_fine a = true -> sheet_fine b = true -> canonical (sheet_chunks a) = canonical (sheet_chunks b) -> a = b.
Proof.
  intros a b F F' E. rewrite !sheet_text in E by assumption. revert b F' E. unfold sheet_fine in *. induction a as [|e a IH]; intros [|e' b] F' E.
  - reflexivity.
  - exfalso. cbn [forallb] in F'. apply andb_true_iff in F'. exact (entry_nonempty e' _ (proj1 F') (eq_sym E)).
  - exfalso. cbn [forallb] in F. apply andb_true_iff in F. exact (entry_nonempty e _ (proj1 F) E).
  - cbn [forallb] in F, F'. apply andb_true_iff in F, F'. destruct F as [F1 F2], F' as [F1' F2']. cbn [entries_text] in E.
    destruct (entry_uni e e' _ _ F1 F1' E) as [<- E2]. now rewrite (IH F2 b F2' E2).
Qed.
