(** The text of a sheet determines its rules. *)
From Coq Require Import String Arith List NArith Bool Lia.
From Verif Require Import Base CssPlainSpec CssRulesSpec CssRulesProofs1 CssRulesProofs2 CssRulesProofs3.
Import ListNotations.
Open Scope N_scope.

Lemma can_app : forall l m, canonical (l ++ m) = canonical l ++ canonical m.
Proof. intros. apply flat_map_app. Qed.

Lemma can_cons : forall s p l, canonical ((s, p) :: l) = slot_text s ++ part_text p ++ line_end p ++ canonical l.
Proof. intros. cbn [canonical flat_map fst snd]. now rewrite <- !app_assoc. Qed.

(** *** Reading characters, names, words and strings *)

Definition off (f : N -> bool) (r : str) : Prop := begins f r = false.
Definition heads (l : string) (r : str) : Prop := begins (among (S_ l)) r = true.

Lemma heads_off : forall f l r, heads l r -> forallb (fun c => negb (f c)) (S_ l) = true -> off f r.
Proof.
  intros f l [|c r] H F; [reflexivity|]. unfold heads in H. cbn [begins] in H. apply among_in in H. rewrite forallb_forall in F.
  unfold off. cbn [begins]. apply F in H. now apply negb_true_iff.
Qed.

Lemma heads_sub : forall l m r, heads l r -> forallb (among (S_ m)) (S_ l) = true -> heads m r.
Proof.
  intros l m [|c r] H F; [discriminate|]. unfold heads in *. cbn [begins] in *. apply among_in in H. rewrite forallb_forall in F. now apply F.
Qed.

Lemma heads_here : forall l c r, among (S_ l) c = true -> heads l (c :: r).
Proof. intros. assumption. Qed.

Lemma split_class : forall f w w' r r', forallb f w = true -> forallb f w' = true -> off f r -> off f r' -> w ++ r = w' ++ r' -> w = w' /\ r = r'.
Proof.
  intros f. induction w as [|c w IH]; intros [|c' w'] r r' F F' O O' E; cbn [app forallb] in *.
  - now split.
  - subst r. unfold off in O. cbn [begins] in O. rewrite O in F'. discriminate.
  - subst r'. unfold off in O'. cbn [begins] in O'. rewrite O' in F. discriminate.
  - injection E as <- E. apply andb_true_iff in F, F'. destruct F as [_ F], F' as [_ F']. destruct (IH w' r r' F F' O O' E) as [-> ->]. now split.
Qed.

Lemma a_word_chars : forall w, a_word w = true -> forallb word_char w = true.
Proof. intros [|c w] H; [discriminate|exact H]. Qed.

Lemma word_uni : forall l w w' r r', forallb (fun c => negb (word_char c)) (S_ l) = true -> a_word w = true -> a_word w' = true ->
  heads l r -> heads l r' -> w ++ r = w' ++ r' -> w = w' /\ r = r'.
Proof.
  intros l w w' r r' F W W' H H' E. apply (split_class word_char); auto using a_word_chars; eapply heads_off; eassumption.
Qed.

Lemma closes_uni : forall n q t t' r r', (length t <= n)%nat -> closes_at_end q t = true -> closes_at_end q t' = true -> t ++ r = t' ++ r' -> t = t' /\ r = r'.
Proof.
  induction n as [|n IH]; intros q t t' r r' Ln C C' E; destruct t as [|c t]; try discriminate; [cbn in Ln; lia|]. destruct t' as [|c' t']; [discriminate|].
  cbn [app] in E. injection E as <- E. cbn [closes_at_end] in C, C'. cbn [length] in Ln. destruct (c =? 0x5C).
  - destruct t as [|d t]; [discriminate|]. destruct t' as [|d' t']; [discriminate|]. cbn [app] in E. injection E as <- E. cbn [length] in Ln.
    destruct (IH q t t' r r') as [-> ->]; [lia|assumption..|]. now split.
  - destruct (c =? q).
    + destruct t; [|discriminate]. destruct t'; [|discriminate]. now split.
    + destruct (IH q t t' r r') as [-> ->]; [lia|assumption..|]. now split.
Qed.

Lemma string_uni : forall t t' r r', is_string t = true -> is_string t' = true -> t ++ r = t' ++ r' -> t = t' /\ r = r'.
Proof.
  intros [|q t] [|q' t'] r r' F F' E; try discriminate. cbn [is_string] in F, F'. apply andb_true_iff in F, F'. destruct F as [_ F], F' as [_ F'].
  cbn [app] in E. injection E as <- E. destruct (closes_uni (length t) q t t' r r' (le_n _) F F' E) as [-> ->]. now split.
Qed.

(** A word, a string and a sign begin differently. *)
Lemma word_not_string : forall w t r r', a_word w = true -> is_string t = true -> w ++ r <> t ++ r'.
Proof.
  intros [|c w] [|q t] r r' W F E; try discriminate. cbn [app] in E. injection E as <- E. cbn [is_string] in F. apply andb_true_iff in F. destruct F as [F _].
  cbn [a_word forallb] in W. apply andb_true_iff in W. destruct W as [W _]. apply among_in in F. cbn in F. destruct F as [<-|[<-|[]]]; discriminate.
Qed.

Lemma word_not_sign : forall w c r r', a_word w = true -> word_char c = false -> w ++ r <> c :: r'.
Proof.
  intros [|d w] c r r' W F E; try discriminate. cbn [app] in E. injection E as -> E. cbn [a_word forallb] in W. rewrite F in W. discriminate.
Qed.

Lemma string_not_sign : forall t c r r', is_string t = true -> among [0x22; 0x27] c = false -> t ++ r <> c :: r'.
Proof.
  intros [|d t] c r r' W F E; try discriminate. cbn [app] in E. injection E as -> E. cbn [is_string] in W. rewrite F in W. discriminate.
Qed.

(** *** calc *)

Lemma sum_tail_text : forall c o, canonical (sum_tail (c, o)) = 0x20 :: c :: canonical (operand_chunks Spread o).
Proof.
  intros c o. unfold sum_tail. cbn [fst snd]. rewrite can_cons. cbn [slot_text app]. destruct (c =? 0x2D) eqn:E; [apply N.eqb_eq in E; subst|]; reflexivity.
Qed.

Definition sums_text (l : list (N * operand)) : str := canonical (flat_map sum_tail l).

Lemma sums_cons : forall c o l r, sums_text ((c, o) :: l) ++ r = 0x20 :: c :: canonical (operand_chunks Spread o) ++ sums_text l ++ r.
Proof. intros. unfold sums_text. cbn [flat_map]. rewrite can_app, sum_tail_text. cbn [app]. now rewrite <- app_assoc. Qed.

Lemma sums_heads : forall l r, heads ")" r -> heads " )" (sums_text l ++ r).
Proof.
  intros [|[c o] l] r H; [apply (heads_sub ")"); [exact H|reflexivity]|]. rewrite sums_cons. reflexivity.
Qed.

Lemma value_text : forall s w r, canonical (operand_chunks s (Value w)) ++ r = slot_text s ++ w ++ r.
Proof. intros. change (operand_chunks s (Value w)) with [(s, Word w)]. rewrite can_cons. cbn [canonical flat_map part_text line_end app]. now rewrite app_nil_r, <- app_assoc. Qed.

Lemma parens_text : forall s e r, canonical (operand_chunks s (Parens e)) ++ r = slot_text s ++ 0x28 :: canonical (sum_chunks Blanks e) ++ 0x29 :: r.
Proof.
  intros. rewrite parens_eq. change (sign s "(") with (s, Sign 0x28). rewrite can_cons, can_app. cbn [part_text line_end app]. rewrite <- !app_assoc. cbn [app].
  rewrite <- app_assoc. reflexivity.
Qed.

Fixpoint sum_uni (e : sum) : forall e' s r r', sum_fine e = true -> sum_fine e' = true -> heads ")" r -> heads ")" r' ->
    canonical (sum_chunks s e) ++ r = canonical (sum_chunks s e') ++ r' -> e = e' /\ r = r'
with operand_uni (o : operand) : forall o' s r r', operand_fine o = true -> operand_fine o' = true -> heads " )" r -> heads " )" r' ->
    canonical (operand_chunks s o) ++ r = canonical (operand_chunks s o') ++ r' -> o = o' /\ r = r'.
Proof.
  - destruct e as [o l]. intros [o' l'] s r r' F F' H H' E.
    change (operand_fine o && forallb (fun x => among (S_ "+-*/") (fst x) && operand_fine (snd x)) l = true) in F.
    change (operand_fine o' && forallb (fun x => among (S_ "+-*/") (fst x) && operand_fine (snd x)) l' = true) in F'.
    apply andb_true_iff in F, F'. destruct F as [F1 F2], F' as [F1' F2']. rewrite !sum_eq, !can_app, <- !app_assoc in E. fold (sums_text l) (sums_text l') in E.
    destruct (operand_uni o o' s _ _ F1 F1' (sums_heads l r H) (sums_heads l' r' H') E) as [<- E2].
    clear E F1 F1'.
    assert (G : l = l' /\ r = r'); [|destruct G as [-> ->]; now split].
    revert l' F2' E2. induction l as [|[c x] l IH]; intros [|[c' x'] l'] F2' E2.
    + now split.
    + exfalso. rewrite sums_cons in E2. cbn [sums_text flat_map canonical app] in E2. subst r. discriminate.
    + exfalso. rewrite sums_cons in E2. cbn [sums_text flat_map canonical app] in E2. subst r'. discriminate.
    + rewrite !sums_cons in E2. injection E2 as <- E2. cbn [forallb fst snd] in F2, F2'. apply andb_true_iff in F2, F2'. destruct F2 as [F2 F3], F2' as [F2' F3'].
      apply andb_true_iff in F2, F2'. destruct F2 as [_ F2], F2' as [_ F2'].
      destruct (operand_uni x x' Spread _ _ F2 F2' (sums_heads l r H) (sums_heads l' r' H') E2) as [<- E3].
      destruct (IH F3 l' F3' E3) as [<- <-]. now split.
  - destruct o as [w|e]; intros [w'|e'] s r r' F F' H H' E; rewrite ?value_text, ?parens_text in E; apply app_inv_head in E;
      [change (is_value w = true) in F; change (is_value w' = true) in F'|change (is_value w = true) in F|change (is_value w' = true) in F'|].
    + apply is_value_word in F, F'. destruct (word_uni " )" w w' r r' eq_refl F F' H H' E) as [-> ->]. now split.
    + exfalso. apply is_value_word in F. exact (word_not_sign w 0x28 _ _ F eq_refl E).
    + exfalso. apply is_value_word in F'. exact (word_not_sign w' 0x28 _ _ F' eq_refl (eq_sym E)).
    + injection E as E. change (sum_fine e = true) in F. change (sum_fine e' = true) in F'.
      destruct (sum_uni e e' Blanks (0x29 :: r) (0x29 :: r') F F' eq_refl eq_refl E) as [-> E2]. injection E2 as ->. now split.
Qed.

(** *** Urls *)

Lemma address_text : forall a, canonical (map (pair Tight) (address_parts a)) = a.
Proof.
  induction a as [|c a IH]; [reflexivity|]. cbn [address_parts]. revert IH. destruct (address_parts a) as [|p l]; intro IH.
  - destruct (word_char c); cbn in *; now rewrite <- IH.
  - rewrite <- IH. destruct (word_char c); [now destruct p|]. destruct p; try reflexivity.
    destruct ((c0 =? 0x3D) && among (S_ "~|$^*") c) eqn:E; [|reflexivity]. apply andb_true_iff in E. destruct E as [E _]. apply N.eqb_eq in E. now subst.
Qed.

Definition addr_text (a : value_of) : str := match a with Bare w => w | Text t => t end.

Lemma first_text : forall l, canonical (first_tight Blanks (map (pair Tight) l)) = canonical (map (pair Tight) l).
Proof. now intros [|p l]. Qed.

Lemma url_text : forall s f a r, canonical (url_chunks s f a) ++ r = slot_text s ++ f ++ 0x28 :: addr_text a ++ 0x29 :: r.
Proof.
  intros. rewrite url_eq, can_cons. change (sign Tight "(") with (Tight, Sign 0x28). rewrite can_cons, can_app, first_text. cbn [slot_text part_text line_end app].
  assert (E : canonical (map (pair Tight) (address a)) = addr_text a) by (destruct a; [apply address_text | cbn; now rewrite !app_nil_r]).
  rewrite E, <- !app_assoc. cbn [app]. rewrite <- !app_assoc. reflexivity.
Qed.

Definition address_char (c : N) : bool := word_char c || among (S_ ",>:;/+=*|~$^") c.

Lemma address_uni : forall a a' r r', address_fine a = true -> address_fine a' = true ->
  addr_text a ++ 0x29 :: r = addr_text a' ++ 0x29 :: r' -> a = a' /\ r = r'.
Proof.
  assert (B : forall w t r r', forallb address_char w = true -> is_string t = true -> w ++ 0x29 :: r <> t ++ r').
  { intros [|c w] [|q t] r r' W F E; try discriminate; cbn [app] in E; injection E as <- E; cbn [is_string] in F; apply andb_true_iff in F; destruct F as [F _]; [discriminate|].
    cbn [forallb] in W. apply andb_true_iff in W. destruct W as [W _]. apply among_in in F. cbn in F. destruct F as [<-|[<-|[]]]; discriminate. }
  intros [w|t] [w'|t'] r r' F F' E; cbn [addr_text address_fine] in *.
  - rewrite !andb_true_iff in F, F'. destruct F as [[F _] _], F' as [[F' _] _].
    destruct (split_class address_char w w' (0x29 :: r) (0x29 :: r') F F' eq_refl eq_refl E) as [-> E2]. injection E2 as ->. now split.
  - exfalso. rewrite !andb_true_iff in F. destruct F as [[F _] _]. exact (B _ _ _ _ F F' E).
  - exfalso. rewrite !andb_true_iff in F'. destruct F' as [[F' _] _]. exact (B _ _ _ _ F' F (eq_sym E)).
  - destruct (string_uni t t' _ _ F F' E) as [-> E2]. injection E2 as ->. now split.
Qed.

Lemma url_uni : forall f a f' a' r r', url_fine f a = true -> url_fine f' a' = true ->
  f ++ 0x28 :: addr_text a ++ 0x29 :: r = f' ++ 0x28 :: addr_text a' ++ 0x29 :: r' -> f = f' /\ a = a' /\ r = r'.
Proof.
  intros f a f' a' r r' F F' E. unfold url_fine in F, F'. rewrite !andb_true_iff in F, F'. destruct F as [[F _] Fa], F' as [[F' _] Fa']. apply is_value_word in F, F'.
  destruct (word_uni "(" f f' _ _ eq_refl F F' (eq_refl : heads "(" (0x28 :: _)) (eq_refl : heads "(" (0x28 :: _)) E) as [-> E2]. injection E2 as E2.
  destruct (address_uni a a' r r' Fa Fa' E2) as [-> ->]. now split.
Qed.

Lemma url_word : forall f a, url_fine f a = true -> a_word f = true /\ is_url f = true.
Proof. intros f a F. unfold url_fine in F. rewrite !andb_true_iff in F. destruct F as [[F U] _]. split; [now apply is_value_word|exact U]. Qed.

(** *** Values *)

Definition sep_text (s : separator) : str := match s with Space => [] | Comma => [0x2C] | Slash => [0x2F] end.
Definition sep_slot (s : separator) : slot := match s with Space => Needed | _ => Loose end.

Definition tails_text (l : list (separator * term)) : str := canonical (flat_map value_tail l).

Lemma tails_cons : forall c t l r, tails_text ((c, t) :: l) ++ r = sep_text c ++ canonical (term_chunks (sep_slot c) t) ++ tails_text l ++ r.
Proof.
  intros c t l r. unfold tails_text. cbn [flat_map]. rewrite can_app. unfold value_tail at 1. cbn [fst snd]. destruct c; cbn [sep_text sep_slot app]; rewrite <- ?app_assoc.
  - reflexivity.
  - change (sign Loose ",") with (Loose, Sign 0x2C). rewrite can_cons. cbn [slot_text part_text line_end app]. now rewrite <- ?app_assoc.
  - change (sign Loose "/") with (Loose, Sign 0x2F). rewrite can_cons. cbn [slot_text part_text line_end app]. now rewrite <- ?app_assoc.
Qed.

Lemma term_slot : forall s t, exists m, forall s', canonical (term_chunks s' t) = slot_text s' ++ m /\ canonical (term_chunks s t) = slot_text s ++ m.
Proof.
  intros s t. destruct t as [w|w|f v|e|f a].
  - exists w. intros s'. split; cbn; now rewrite ?app_nil_r.
  - exists w. intros s'. split; cbn; now rewrite ?app_nil_r.
  - exists (f ++ canonical (sign Tight "(" :: values_chunks Loose v ++ [sign Loose ")"])). intros s'. rewrite !call_eq, !can_cons. split; reflexivity.
  - exists (S_ "calc" ++ canonical (sign Tight "(" :: sum_chunks Blanks e ++ [sign Tight ")"])). intros s'.
    change (term_chunks s' (TCalc e)) with ((s', Word (S_ "calc")) :: sign Tight "(" :: sum_chunks Blanks e ++ [sign Tight ")"]).
    change (term_chunks s (TCalc e)) with ((s, Word (S_ "calc")) :: sign Tight "(" :: sum_chunks Blanks e ++ [sign Tight ")"]).
    rewrite !can_cons. split; reflexivity.
  - exists (f ++ canonical (sign Tight "(" :: first_tight Blanks (map (pair Tight) (address a)) ++ [sign Blanks ")"])). intros s'.
    change (term_chunks s' (TUrl f a)) with (url_chunks s' f a). change (term_chunks s (TUrl f a)) with (url_chunks s f a).
    rewrite !url_eq, !can_cons. split; reflexivity.
Qed.

(** What follows a separator decides which it is. *)
Definition sep_char (c : separator) : N := match c with Space => 0x20 | Comma => 0x2C | Slash => 0x2F end.

Lemma tails_begin : forall c t l r, exists q, tails_text ((c, t) :: l) ++ r = sep_char c :: q.
Proof.
  intros c t l r. rewrite tails_cons. destruct (term_slot (sep_slot c) t) as (m & M). destruct (M (sep_slot c)) as [-> _].
  destruct c; cbn [sep_text sep_slot slot_text app]; eexists; reflexivity.
Qed.

Lemma tails_heads : forall l r, heads ");}" r -> heads " ,/);}" (tails_text l ++ r).
Proof.
  intros [|[c t] l] r H; [apply (heads_sub ");}"); [exact H|reflexivity]|]. destruct (tails_begin c t l r) as (q & ->). now destruct c.
Qed.

Lemma tword_text : forall s w r, canonical (term_chunks s (TWord w)) ++ r = slot_text s ++ w ++ r.
Proof. intros. change (term_chunks s (TWord w)) with [(s, Word w)]. rewrite can_cons. cbn [canonical flat_map part_text line_end app]. now rewrite app_nil_r, <- app_assoc. Qed.

Lemma tstring_text : forall s w r, canonical (term_chunks s (TString w)) ++ r = slot_text s ++ w ++ r.
Proof. intros. change (term_chunks s (TString w)) with [(s, Quoted w)]. rewrite can_cons. cbn [canonical flat_map part_text line_end app]. now rewrite app_nil_r, <- app_assoc. Qed.

Lemma call_text : forall s f v r, canonical (term_chunks s (TCall f v)) ++ r = slot_text s ++ f ++ 0x28 :: canonical (values_chunks Loose v) ++ 0x29 :: r.
Proof.
  intros. rewrite call_eq, can_cons. change (sign Tight "(") with (Tight, Sign 0x28). rewrite can_cons, can_app. cbn [slot_text part_text line_end app]. rewrite <- !app_assoc. cbn [app].
  rewrite <- !app_assoc. reflexivity.
Qed.

Lemma calc_text : forall s e r, canonical (term_chunks s (TCalc e)) ++ r = slot_text s ++ S_ "calc" ++ 0x28 :: canonical (sum_chunks Blanks e) ++ 0x29 :: r.
Proof.
  intros. change (term_chunks s (TCalc e)) with ((s, Word (S_ "calc")) :: sign Tight "(" :: sum_chunks Blanks e ++ [sign Tight ")"]).
  rewrite can_cons. change (sign Tight "(") with (Tight, Sign 0x28). rewrite can_cons, can_app. cbn [slot_text part_text line_end app]. rewrite <- !app_assoc. cbn [app].
  rewrite <- !app_assoc. reflexivity.
Qed.

Lemma turl_text : forall s f a r, canonical (term_chunks s (TUrl f a)) ++ r = slot_text s ++ f ++ 0x28 :: addr_text a ++ 0x29 :: r.
Proof. exact url_text. Qed.

(** A word before a parenthesis is not one before something else. *)
Lemma call_not_word : forall f w q r, a_word f = true -> a_word w = true -> heads " ,/);}" r -> f ++ 0x28 :: q <> w ++ r.
Proof.
  intros f w q r F W H E. destruct (word_uni "( ,/);}" f w (0x28 :: q) r eq_refl F W eq_refl (heads_sub _ "( ,/);}" r H eq_refl) E) as [_ <-]. discriminate.
Qed.

Lemma is_value_not_calc : forall w, is_value w = true -> w <> S_ "calc".
Proof.
  intros w H ->. discriminate.
Qed.

Fixpoint values_uni (v : values) : forall v' s r r', values_fine v = true -> values_fine v' = true -> heads ");}" r -> heads ");}" r' ->
    canonical (values_chunks s v) ++ r = canonical (values_chunks s v') ++ r' -> v = v' /\ r = r'
with term_uni (t : term) : forall t' s r r', term_fine t = true -> term_fine t' = true -> heads " ,/);}" r -> heads " ,/);}" r' ->
    canonical (term_chunks s t) ++ r = canonical (term_chunks s t') ++ r' -> t = t' /\ r = r'.
Proof.
  - destruct v as [t l]. intros [t' l'] s r r' F F' H H' E.
    change (term_fine t && forallb (fun x => term_fine (snd x)) l = true) in F. change (term_fine t' && forallb (fun x => term_fine (snd x)) l' = true) in F'.
    apply andb_true_iff in F, F'. destruct F as [F1 F2], F' as [F1' F2']. rewrite !values_eq, !can_app, <- !app_assoc in E. fold (tails_text l) (tails_text l') in E.
    destruct (term_uni t t' s _ _ F1 F1' (tails_heads l r H) (tails_heads l' r' H') E) as [<- E2].
    clear E F1 F1'.
    assert (G : l = l' /\ r = r'); [|destruct G as [-> ->]; now split].
    revert l' F2' E2. induction l as [|[c x] l IH]; intros [|[c' x'] l'] F2' E2.
    + now split.
    + exfalso. destruct (tails_begin c' x' l' r') as (q & Q). rewrite Q in E2. cbn [tails_text flat_map canonical app] in E2. subst r. now destruct c'.
    + exfalso. destruct (tails_begin c x l r) as (q & Q). rewrite Q in E2. cbn [tails_text flat_map canonical app] in E2. subst r'. now destruct c.
    + assert (Ec : c = c').
      { destruct (tails_begin c x l r) as (q & Q), (tails_begin c' x' l' r') as (q' & Q'). rewrite Q, Q' in E2. injection E2 as Ec _. destruct c, c'; try reflexivity; discriminate. }
      subst c'. rewrite !tails_cons in E2. apply app_inv_head in E2. cbn [forallb snd] in F2, F2'. apply andb_true_iff in F2, F2'. destruct F2 as [F2 F3], F2' as [F2' F3'].
      destruct (term_uni x x' (sep_slot c) _ _ F2 F2' (tails_heads l r H) (tails_heads l' r' H') E2) as [<- E3].
      destruct (IH F3 l' F3' E3) as [<- <-]. now split.
  - assert (Wc : a_word (S_ "calc") = true) by reflexivity.
    assert (Cu : forall f v, is_value f && negb (is_url f) && values_fine v = true -> a_word f = true /\ f <> S_ "calc" /\ is_url f = false /\ values_fine v = true).
    { intros f v F. rewrite !andb_true_iff, negb_true_iff in F. destruct F as [[F U] V]. repeat split; try assumption; [now apply is_value_word|now apply is_value_not_calc]. }
    assert (Same : forall f f' q q', a_word f = true -> a_word f' = true -> f ++ 0x28 :: q = f' ++ 0x28 :: q' -> f = f' /\ q = q').
    { intros f f' q q' F F' E. destruct (word_uni "(" f f' _ _ eq_refl F F' (eq_refl : heads "(" (0x28 :: _)) (eq_refl : heads "(" (0x28 :: _)) E) as [-> E2]. injection E2 as ->. now split. }
    destruct t as [w|w|f v|e|f a]; intros t' s r r' F F' H H' E;
      (change (is_value w = true) in F || change (is_string w = true) in F || change (is_value f && negb (is_url f) && values_fine v = true) in F || change (sum_fine e = true) in F || change (url_fine f a = true) in F);
      destruct t' as [w'|w'|f' v'|e'|f' a'];
      (change (is_value w' = true) in F' || change (is_string w' = true) in F' || change (is_value f' && negb (is_url f') && values_fine v' = true) in F' || change (sum_fine e' = true) in F' || change (url_fine f' a' = true) in F');
      rewrite ?tword_text, ?tstring_text, ?call_text, ?calc_text, ?turl_text in E; apply app_inv_head in E.
    + apply is_value_word in F, F'. destruct (word_uni " ,/);}" w w' r r' eq_refl F F' H H' E) as [-> ->]. now split.
    + exfalso. apply is_value_word in F. exact (word_not_string _ _ _ _ F F' E).
    + exfalso. apply Cu in F'. apply is_value_word in F. exact (call_not_word _ _ _ _ (proj1 F') F H (eq_sym E)).
    + exfalso. apply is_value_word in F. exact (call_not_word _ _ _ _ Wc F H (eq_sym E)).
    + exfalso. apply url_word in F'. apply is_value_word in F. exact (call_not_word _ _ _ _ (proj1 F') F H (eq_sym E)).
    + exfalso. apply is_value_word in F'. exact (word_not_string _ _ _ _ F' F (eq_sym E)).
    + destruct (string_uni w w' r r' F F' E) as [-> ->]. now split.
    + exfalso. apply Cu in F'. exact (word_not_string _ _ _ _ (proj1 F') F (eq_sym E)).
    + exfalso. exact (word_not_string _ _ _ _ Wc F (eq_sym E)).
    + exfalso. apply url_word in F'. exact (word_not_string _ _ _ _ (proj1 F') F (eq_sym E)).
    + exfalso. apply Cu in F. apply is_value_word in F'. exact (call_not_word _ _ _ _ (proj1 F) F' H' E).
    + exfalso. apply Cu in F. exact (word_not_string _ _ _ _ (proj1 F) F' E).
    + apply Cu in F, F'. destruct F as (F & _ & _ & Fv), F' as (F' & _ & _ & Fv'). destruct (Same _ _ _ _ F F' E) as [-> E2].
      destruct (values_uni v v' Loose (0x29 :: r) (0x29 :: r') Fv Fv' eq_refl eq_refl E2) as [-> E3]. injection E3 as ->. now split.
    + exfalso. apply Cu in F. destruct F as (F & NC & _). destruct (Same _ _ _ _ F Wc E) as [-> _]. now apply NC.
    + exfalso. apply Cu in F. apply url_word in F'. destruct F as (F & _ & U & _), F' as [F' U']. destruct (Same _ _ _ _ F F' E) as [-> _]. now rewrite U in U'.
    + exfalso. apply is_value_word in F'. exact (call_not_word _ _ _ _ Wc F' H' E).
    + exfalso. exact (word_not_string _ _ _ _ Wc F' E).
    + exfalso. apply Cu in F'. destruct F' as (F' & NC & _). destruct (Same _ _ _ _ Wc F' E) as [<- _]. now apply NC.
    + apply app_inv_head in E. injection E as E. destruct (sum_uni e e' Blanks (0x29 :: r) (0x29 :: r') F F' eq_refl eq_refl E) as [-> E2]. injection E2 as ->. now split.
    + exfalso. apply url_word in F'. destruct F' as [F' U]. destruct (Same _ _ _ _ Wc F' E) as [<- _]. discriminate.
    + exfalso. apply url_word in F. apply is_value_word in F'. exact (call_not_word _ _ _ _ (proj1 F) F' H' E).
    + exfalso. apply url_word in F. exact (word_not_string _ _ _ _ (proj1 F) F' E).
    + exfalso. apply Cu in F'. apply url_word in F. destruct F' as (F' & _ & U' & _), F as [F U]. destruct (Same _ _ _ _ F F' E) as [-> _]. now rewrite U in U'.
    + exfalso. apply url_word in F. destruct F as [F U]. destruct (Same _ _ _ _ F Wc E) as [-> _]. discriminate.
    + destruct (url_uni f a f' a' r r' F F' E) as (-> & -> & ->). now split.
Qed.
