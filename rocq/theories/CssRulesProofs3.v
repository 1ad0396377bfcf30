(** Rules as chunks: selectors, rules, at-rules and sheets. *)
From Coq Require Import String Arith List NArith Bool Lia.
From Verif Require Import Base CssModel CssPlainSpec CssPlainProofs3 CssRulesSpec CssRulesProofs1 CssRulesProofs2 CssDirectProofs.
Import ListNotations.
Open Scope N_scope.

Definition ascii_letter (c : N) : bool := (0x61 <=? c) && (c <=? 0x7A) || (0x41 <=? c) && (c <=? 0x5A).

(** A word that names a tag, a class or an identifier. *)
Definition elem (w : str) : bool :=
  a_word w && match w with
              | c :: r => ascii_letter c || among (S_ ".#") c && match r with [] => false | _ => true end
              | [] => false
              end.

Lemma letter_range : forall c, ascii_letter c = true -> 0x41 <= c <= 0x7A.
Proof.
  intros c H. unfold ascii_letter in H. apply orb_true_iff in H. destruct H as [H|H]; apply andb_true_iff in H; destruct H as [A B];
    apply N.leb_le in A; apply N.leb_le in B; lia.
Qed.

Lemma elem_names : forall u w, elem w = true -> names u w = true.
Proof.
  intros u [|c r] H; [discriminate|]. unfold elem in H. apply andb_true_iff in H. destruct H as [_ H]. cbn [names].
  apply orb_true_iff in H. destruct H as [H|H]; [|now rewrite H, orb_true_r].
  unfold letter. pose proof (letter_range c H) as R. assert (E : c <? 0x80 = true) by (apply N.ltb_lt; lia). rewrite E.
  unfold ascii_letter in H. rewrite orb_comm in H. now rewrite H.
Qed.

Lemma elem_not_at : forall w, elem w = true -> begins (N.eqb 0x40) w = false.
Proof.
  intros [|c r] H; [discriminate|]. unfold elem in H. apply andb_true_iff in H. destruct H as [_ H]. cbn [begins]. apply N.eqb_neq. intros <-.
  cbn in H. discriminate.
Qed.

Lemma elem_word : forall w, elem w = true -> a_word w = true.
Proof. intros w H. unfold elem in H. now apply andb_true_iff in H. Qed.

(** *** Characters of names *)

Lemma name_char_word : forall c, name_char c = true -> word_char c = true.
Proof.
  intros c H. unfold name_char in H. rewrite !orb_true_iff, !andb_true_iff, !N.leb_le in H.
  assert (R : forall l, (forall d, In d l -> d <> c) -> among l c = false).
  { induction l as [|d l IH]; intros Hl; [reflexivity|]. cbn [among existsb]. apply orb_false_iff. split.
    - apply N.eqb_neq. intros E. apply (Hl d); [now left|congruence].
    - apply IH. intros e He. apply Hl. now right. }
  assert (A : ((((0x61 <= c <= 0x7A \/ 0x41 <= c <= 0x5A) \/ 0x30 <= c <= 0x39) \/ among (S_ "-_") c = true)) -> word_char c = true).
  { intros G. unfold word_char. assert (V : ((0x61 <= c <= 0x7A \/ 0x41 <= c <= 0x5A) \/ 0x30 <= c <= 0x39) \/ c = 0x2D \/ c = 0x5F).
    { destruct G as [G|G]; [now left|]. right. apply among_in in G. cbn in G. intuition congruence. }
    rewrite !R; [reflexivity| | |]; intros d Hd; cbn in Hd; repeat (destruct Hd as [<-|Hd]; [lia|]); contradiction. }
  destruct H as [H|[_ H]]; [apply A; exact H | exact H].
Qed.

Lemma name_word : forall n, is_name n = true -> forallb word_char n = true /\ n <> [].
Proof.
  intros [|c n] H; [discriminate|]. split; [|discriminate]. cbn [is_name] in H. rewrite forallb_forall in H. apply forallb_forall. intros d Hd.
  apply name_char_word, H, Hd.
Qed.

Lemma mark_word : forall m, mark_fine m = true -> forallb word_char (mark_text m) = true.
Proof. intros [n|n] H; cbn [mark_text forallb]; apply name_word in H; destruct H as [-> _]; reflexivity. Qed.

Lemma marks_word : forall l, forallb mark_fine l = true -> forallb word_char (marks_text l) = true.
Proof.
  induction l as [|m l IH]; intros H; [reflexivity|]. cbn [forallb] in H. apply andb_true_iff in H. destruct H as [H1 H2].
  unfold marks_text. cbn [flat_map]. rewrite forallb_app, (mark_word m H1). apply IH, H2.
Qed.

Lemma named_word : forall n l, is_name n = true -> forallb mark_fine l = true -> a_word (n ++ marks_text l) = true.
Proof.
  intros n l H1 H2. destruct (name_word n H1) as [H3 H4]. destruct n as [|c n]; [now destruct H4|]. cbn [app a_word].
  change (c :: n ++ marks_text l) with ((c :: n) ++ marks_text l). rewrite forallb_app, H3. now apply marks_word.
Qed.

Lemma tag_elem : forall n l, is_tag n = true -> forallb mark_fine l = true -> elem (n ++ marks_text l) = true.
Proof.
  intros n l H1 H2. unfold is_tag in H1. apply andb_true_iff in H1. destruct H1 as [H1 H3]. unfold elem. rewrite named_word by assumption.
  destruct n as [|c n]; [discriminate|]. cbn [app andb]. unfold ascii_letter. now rewrite H3.
Qed.

Lemma marks_elem : forall m l, forallb mark_fine (m :: l) = true -> elem (marks_text (m :: l)) = true.
Proof.
  intros m l H. pose proof (marks_word _ H) as W. cbn [forallb] in H. apply andb_true_iff in H. destruct H as [H1 H2].
  unfold elem. destruct m as [n|n]; unfold marks_text in *; cbn [flat_map mark_text app] in *; cbn [mark_fine] in H1; destruct n as [|c n]; try discriminate; cbn [app a_word] in *; rewrite W; reflexivity.
Qed.

(** *** Induction on compound selectors, details, arguments and selectors *)

Section Selectors_ind.
Variables (PC : compound -> Prop) (PD : detail -> Prop) (PA : argument -> Prop) (PS : selector -> Prop).
Hypothesis HC : forall e m d, Forall (fun x : detail * list mark => PD (fst x)) d -> PC (Compound e m d).
Hypothesis HH : forall n t, PD (HasAttribute n t).
Hypothesis HP : forall n, PD (PseudoClass n).
Hypothesis HE : forall n, PD (PseudoElement n).
Hypothesis HF : forall n a, PA a -> PD (Function n a).
Hypothesis HN : forall w p, PA (Nth w p).
Hypothesis HA : forall x l, PS x -> Forall PS l -> PA (Among x l).
Hypothesis HS : forall c l, PC c -> Forall (fun x : combinator * compound => PC (snd x)) l -> PS (Selector c l).

Fixpoint compound_all (c : compound) : PC c :=
  match c with
  | Compound e m d =>
      HC e m d ((fix go (l : list (detail * list mark)) : Forall (fun x => PD (fst x)) l :=
                   match l with [] => Forall_nil _ | x :: q => Forall_cons x (detail_all (fst x)) (go q) end) d)
  end
with detail_all (d : detail) : PD d :=
  match d with
  | HasAttribute n t => HH n t
  | PseudoClass n => HP n
  | PseudoElement n => HE n
  | Function n a => HF n a (argument_all a)
  end
with argument_all (a : argument) : PA a :=
  match a with
  | Nth w p => HN w p
  | Among x l =>
      HA x l (selector_all x)
        ((fix go (l : list selector) : Forall PS l := match l with [] => Forall_nil _ | y :: q => Forall_cons y (selector_all y) (go q) end) l)
  end
with selector_all (x : selector) : PS x :=
  match x with
  | Selector c l =>
      HS c l (compound_all c)
        ((fix go (l : list (combinator * compound)) : Forall (fun x => PC (snd x)) l :=
            match l with [] => Forall_nil _ | y :: q => Forall_cons y (compound_all (snd y)) (go q) end) l)
  end.

Lemma selectors_ind : (forall c, PC c) /\ (forall d, PD d) /\ (forall a, PA a) /\ (forall x, PS x).
Proof. exact (conj compound_all (conj detail_all (conj argument_all selector_all))). Qed.
End Selectors_ind.

(** *** How they are written, one level at a time *)

Definition pair_chunks (x : detail * list mark) : list chunk := detail_chunks Tight (fst x) (snd x).
Definition pair_fine (x : detail * list mark) : bool := detail_fine (fst x) && forallb mark_fine (snd x).

Lemma compound_eq : forall s e m d, compound_chunks s (Compound e m d) = first_tight s (head_chunks e m ++ flat_map pair_chunks d).
Proof. reflexivity. Qed.
Lemma function_eq : forall s n a m, detail_chunks s (Function n a) m = (s, Pseudo n) :: sign Tight "(" :: argument_chunks a ++ word Tight (marks_text m).
Proof. reflexivity. Qed.
Lemma among_eq : forall x l, argument_chunks (Among x l) = selector_chunks Loose x ++ list_with selector_chunks (fun c => sign (before_sign c) ")") x l.
Proof. reflexivity. Qed.
Lemma selector_eq : forall s c l, selector_chunks s (Selector c l) = compound_chunks s c ++ rest_with compound_chunks c l.
Proof. reflexivity. Qed.
Lemma rest_eq : forall f c k d l, rest_with f c ((k, d) :: l) = comb_chunk c k ++ f (comb_slot k) d ++ rest_with f d l.
Proof. reflexivity. Qed.
Lemma list_eq : forall f g x y l, list_with f g x (y :: l) = sign (before_sign (last_compound x)) "," :: f Loose y ++ list_with f g y l.
Proof. reflexivity. Qed.

Definition head_fine (e : option element) (m : list mark) (d : list (detail * list mark)) : bool :=
  match e with
  | Some (Tag n) => is_tag n
  | Some Any => true
  | None => match m, d with [], [] => false | _, _ => true end
  end.
Lemma compound_fine_eq : forall e m d, compound_fine (Compound e m d) = head_fine e m d && forallb mark_fine m && forallb pair_fine d.
Proof. reflexivity. Qed.
Lemma function_fine_eq : forall n a, detail_fine (Function n a) = is_name n && argument_fine a.
Proof. reflexivity. Qed.
Lemma among_fine_eq : forall x l, argument_fine (Among x l) = selector_fine x && forallb selector_fine l.
Proof. reflexivity. Qed.
Lemma selector_fine_eq : forall c l, selector_fine (Selector c l) = compound_fine c && rest_fine compound_fine c l.
Proof. reflexivity. Qed.
Lemma rest_fine_eq : forall f c k d l, rest_fine f c ((k, d) :: l) = f d && match k with Descendant => descends c d | _ => true end && rest_fine f d l.
Proof. reflexivity. Qed.

Lemma nth_word_ok : forall w, is_nth w = true -> a_word w = true.
Proof. intros w H. unfold is_nth in H. now apply andb_true_iff in H. Qed.

Lemma nth_first : forall w, is_nth w = true -> exists c r, w = c :: r /\ (0x30 <= c <= 0x39 \/ c = 0x2D).
Proof.
  intros [|c r] H; [discriminate|]. exists c, r. split; [reflexivity|]. unfold is_nth in H. apply andb_true_iff in H. destruct H as [_ H].
  apply orb_true_iff in H. destruct H as [H|H]; [left|right; now apply N.eqb_eq]. apply andb_true_iff in H. rewrite !N.leb_le in H. exact H.
Qed.

Section Sheets.
Variable u : N -> bool.
Local Notation run := (run u).
Local Notation fit := (fit u).

Definition part_end (k : kind) : bool := match k with KElement => true | KSign c => among (S_ "*])") c | _ => false end.

Lemma part_end_cases : forall k, part_end k = true -> k = KElement \/ k = KSign 0x2A \/ k = KSign 0x5D \/ k = KSign 0x29.
Proof.
  intros k H. destruct k; try discriminate; [now left|]. cbn [part_end] in H. apply among_in in H. cbn in H. destruct H as [<-|[<-|[<-|[]]]]; auto.
Qed.

Lemma elem_step : forall i l w, elem w = true -> after 0x3A (top i l) = false -> step u (top i l) (Word w) = top i (Some KElement).
Proof.
  intros i l w H A. unfold step. cbn [kind_of]. rewrite A, (elem_names u w H). now destruct i.
Qed.

Lemma elem_part : forall i l w, elem w = true -> part_ok (top i l) (Word w) = true.
Proof.
  intros i l w H. unfold part_ok. rewrite (elem_word w H), (elem_not_at w H). cbn [andb]. rewrite !andb_false_r. reflexivity.
Qed.

(** *** Words such as 2n and 50% *)

Lemma nth_kind : forall i l w, is_nth w = true -> kind_of u (top i l) (Word w) = KWord.
Proof.
  intros i l w H. destruct (nth_first w H) as (c & r & -> & R). cbn [kind_of names]. unfold letter.
  assert (E : c <? 0x80 = true) by (apply N.ltb_lt; destruct R; subst; lia). rewrite E.
  assert (E1 : (0x41 <=? c) = false) by (apply N.leb_gt; destruct R; subst; lia).
  assert (E2 : (0x61 <=? c) = false) by (apply N.leb_gt; destruct R; subst; lia).
  assert (E3 : among (S_ ".#") c = false).
  { destruct (among (S_ ".#") c) eqn:Q; [|reflexivity]. apply among_in in Q. cbn in Q. destruct Q as [<-|[<-|[]]]; destruct R; lia. }
  rewrite E1, E2, E3. cbn [andb orb]. rewrite andb_false_r. reflexivity.
Qed.

(** Where a compound selector may begin. *)
Definition fresh (s : slot) (l : option kind) : bool :=
  match s, l with
  | Blanks, None => true
  | Loose, Some (KSign d) => among (S_ "{};,>+~(") d
  | Loose, Some KLicence => true
  | _, _ => false
  end.

Lemma fresh_cases : forall s l, fresh s l = true ->
  (s = Blanks /\ l = None) \/ (s = Loose /\ l = Some KLicence) \/ exists d, s = Loose /\ l = Some (KSign d) /\ In d (S_ "{};,>+~(").
Proof.
  intros s l H. destruct s; try discriminate; destruct l as [[]|]; try discriminate; auto. cbn [fresh] in H. apply among_in in H. right. right. eauto.
Qed.

Ltac fresh_all Hl i :=
  destruct Hl as [[-> ->]|[[-> ->]|(d & -> & -> & Hd)]];
  [destruct i; reflexivity | destruct i; reflexivity | cbn in Hd; destruct i; repeat (destruct Hd as [<-|Hd]; [reflexivity|]); contradiction].

Lemma nth_run : forall i l w r, is_nth w = true -> fresh Loose l = true -> run (top i l) ((Loose, Word w) :: r) = run (top i (Some KWord)) r.
Proof.
  intros i l w r H Fr. pose proof (nth_word_ok w H) as W. cbn [CssRulesProofs1.run].
  assert (Ne : begins (N.eqb 0x40) w = false) by (destruct (nth_first w H) as (c & q & -> & R); cbn [begins]; apply N.eqb_neq; intros <-; destruct R; lia).
  assert (F : fit (top i l) Loose (Word w) = true).
  { unfold CssRulesProofs1.fit, part_ok, kept_before, direct_ok, no_joining. rewrite (nth_kind i l w H), W, Ne. cbn [part_text]. rewrite (word_begins w 0x2A W eq_refl). rewrite !andb_false_r.
    pose proof (fresh_cases Loose l Fr) as Hl. destruct Hl as [[? ?]|[[_ ->]|(d & _ & -> & Hd)]]; [discriminate|destruct i; reflexivity|].
    cbn in Hd. destruct i; repeat (destruct Hd as [<-|Hd]; [reflexivity|]); contradiction. }
  rewrite F. f_equal. unfold step. rewrite (nth_kind i l w H).
  assert (Nc : str_eqb w (S_ "calc") = false).
  { destruct (nth_first w H) as (c & q & -> & R). change (str_eqb (c :: q) (S_ "calc")) with ((c =? 0x63) && str_eqb q (S_ "alc")).
    assert (E : c =? 0x63 = false) by (apply N.eqb_neq; destruct R; subst; lia). now rewrite E. }
  rewrite Nc. destruct i; reflexivity.
Qed.

Lemma nth_sign : forall i x r, In x (S_ "+),") -> run (top i (Some KWord)) ((Loose, Sign x) :: r) = run (top i (Some (KSign x))) r.
Proof. intros i x r I1. cbn in I1. destruct i; repeat (destruct I1 as [<-|I1]; [reflexivity|]); contradiction. Qed.

(** *** Attribute selectors and pseudo classes *)

Definition detail_first (d : detail) (m : list mark) : part :=
  match d with
  | HasAttribute _ _ => Sign 0x5B
  | PseudoClass n => Pseudo (n ++ marks_text m)
  | PseudoElement _ => Sign 0x3A
  | Function n _ => Pseudo n
  end.

Definition detail_end (d : detail) (m : list mark) : kind :=
  match d, m with HasAttribute _ _, [] => KSign 0x5D | Function _ _, [] => KSign 0x29 | _, _ => KElement end.

Definition bracketed (i : bool) (k : kind) : place :=
  {| depth := if i then 1 else 0; at_rule := i; bracket := true; calc := false; parens := 0; last := Some k |}.

Lemma bracket_selects : forall i k, selects (bracketed i k) = false.
Proof. reflexivity. Qed.

Lemma pseudo_step : forall i l w, step u (top i l) (Pseudo w) = top i (Some KElement).
Proof. intros i l w. now destruct i. Qed.

Lemma value_chunk_run : forall i s k v r, value_fine v = true -> start_of s (Some k) = true -> exists k',
  run (bracketed i k) (value_chunk s v :: r) = run (bracketed i k') r /\ value_end k' = true.
Proof.
  intros i s k v r F St. destruct v as [w|t]; cbn [value_chunk value_fine] in *.
  - exists KWord. split; [|reflexivity]. apply (run_word u (bracketed i k)); [exact F|reflexivity..|exact St].
  - exists KText. split; [|reflexivity]. apply (run_text u (bracketed i k)); [exact F|reflexivity..|exact St].
Qed.

Lemma test_run : forall i t r, test_fine t = true ->
  exists k, run (bracketed i KWord) (test_chunks t ++ r) = run (bracketed i k) r /\ value_end k = true.
Proof.
  intros i t r F. destruct t as [|v|c v]; cbn [test_chunks app].
  - exists KWord. now split.
  - change (sign Loose "=") with (Loose, Sign 0x3D). rewrite (run_sign u _ 0x3D KWord); [|cbn; tauto|reflexivity..].
    exact (value_chunk_run i Loose (KSign 0x3D) v r F eq_refl).
  - apply andb_true_iff in F. destruct F as [Fc Fv].
    assert (E : forall r, run (bracketed i KWord) ((Tight, Match c) :: r) = run (bracketed i KText) r).
    { intros r'. apply among_in in Fc. cbn in Fc. destruct i; repeat (destruct Fc as [<-|Fc]; [reflexivity|]); contradiction. }
    rewrite E. exact (value_chunk_run i Tight KText v r Fv eq_refl).
Qed.

Lemma marks_after : forall i k l r, forallb mark_fine l = true -> k = KSign 0x5D \/ k = KSign 0x2A \/ k = KSign 0x29 ->
  run (top i (Some k)) (word Tight (marks_text l) ++ r) = run (top i (Some match l with [] => k | _ => KElement end)) r.
Proof.
  intros i k [|m l] r F K; [reflexivity|]. pose proof (marks_elem m l F) as E. destruct (marks_text (m :: l)) as [|c w] eqn:M; [discriminate|].
  cbn [word app CssRulesProofs1.run]. rewrite elem_step by (exact E || destruct K as [->|[->| ->]]; reflexivity).
  assert (Fi : fit (top i (Some k)) Tight (Word (c :: w)) = true).
  { unfold CssRulesProofs1.fit. rewrite elem_part by exact E. destruct K as [->|[->| ->]]; reflexivity. }
  now rewrite Fi.
Qed.

Lemma name_a_word : forall n, is_name n = true -> a_word n = true.
Proof. intros n F. destruct (name_word n F) as [W NE]. destruct n; [now destruct NE|exact W]. Qed.

Lemma detail_tight : forall i k d m, detail_fine d = true -> forallb mark_fine m = true -> part_end k = true -> fit (top i (Some k)) Tight (detail_first d m) = true.
Proof.
  intros i k d m F Fm K. apply part_end_cases in K. destruct d as [n t|n|n|n a]; cbn [detail_first].
  - destruct i, K as [->|[->|[->| ->]]]; reflexivity.
  - unfold CssRulesProofs1.fit, part_ok. rewrite (named_word n m F Fm). destruct i, K as [->|[->|[->| ->]]]; reflexivity.
  - destruct i, K as [->|[->|[->| ->]]]; reflexivity.
  - rewrite function_fine_eq in F. apply andb_true_iff in F. destruct F as [F _].
    unfold CssRulesProofs1.fit, part_ok. rewrite (name_a_word n F). destruct i, K as [->|[->|[->| ->]]]; reflexivity.
Qed.

Fixpoint details_end (k : kind) (l : list (detail * list mark)) : kind :=
  match l with [] => k | d :: r => details_end (detail_end (fst d) (snd d)) r end.

Lemma detail_end_part : forall d m, part_end (detail_end d m) = true.
Proof. intros [] []; reflexivity. Qed.

(** *** Compound selectors *)

Definition compound_first (c : compound) : part :=
  match c with
  | Compound (Some (Tag n)) m _ => Word (n ++ marks_text m)
  | Compound (Some Any) _ _ => Sign 0x2A
  | Compound None (x :: m) _ => Word (marks_text (x :: m))
  | Compound None [] ((d, m) :: _) => detail_first d m
  | Compound None [] [] => Sign 0
  end.

Definition compound_end (c : compound) : kind :=
  if ends_in_bracket c then KSign 0x5D else if ends_in_paren c then KSign 0x29 else if just_any c then KSign 0x2A else KElement.

Lemma details_end_rev : forall l k, details_end k l = match rev l with [] => k | d :: _ => detail_end (fst d) (snd d) end.
Proof.
  induction l as [|d l IH]; intros k; [reflexivity|]. cbn [details_end rev]. rewrite IH. now destruct (rev l).
Qed.

Lemma end_rev : forall l k, details_end k l = match rev l with [] => k | (HasAttribute _ _, []) :: _ => KSign 0x5D | (Function _ _, []) :: _ => KSign 0x29 | _ => KElement end.
Proof. intros l k. rewrite details_end_rev. destruct (rev l) as [|[[] []] ?]; reflexivity. Qed.

Lemma detail_chunks_first : forall s d m, detail_chunks s d m = first_tight s (detail_chunks Tight d m).
Proof. intros s [] m; reflexivity. Qed.

Lemma first_tight_app : forall s l m, l <> [] -> first_tight s (l ++ m) = first_tight s l ++ m.
Proof. intros s [|[t p] l] m H; [now destruct H|reflexivity]. Qed.

Lemma elem_run : forall i l s w r, elem w = true -> after 0x3A (top i l) = false -> fit (top i l) s (Word w) = true ->
  run (top i l) (first_tight s (word Tight w) ++ r) = run (top i (Some KElement)) r.
Proof.
  intros i l s w r E A F. destruct w as [|c w]; [discriminate|]. cbn [word first_tight app CssRulesProofs1.run]. rewrite F, elem_step by assumption. reflexivity.
Qed.

Lemma fresh_after : forall i s l, fresh s l = true -> after 0x3A (top i l) = false.
Proof.
  intros i s l H. apply fresh_cases in H. destruct H as [[_ ->]|[[_ ->]|(d & _ & -> & Hd)]]; [reflexivity..|]. cbn in Hd.
  repeat (destruct Hd as [<-|Hd]; [reflexivity|]). contradiction.
Qed.

(** The parts a compound selector begins with. *)
Definition beginning (p : part) : Prop := (exists w, p = Word w /\ elem w = true) \/ p = Sign 0x2A \/ p = Sign 0x5B \/ p = Sign 0x3A \/ exists w, p = Pseudo w /\ a_word w = true.

Lemma first_beginning : forall c, compound_fine c = true -> beginning (compound_first c).
Proof.
  intros [e m d] F. rewrite compound_fine_eq in F. apply andb_true_iff in F. destruct F as [F Fd]. apply andb_true_iff in F. destruct F as [Fe Fm].
  unfold compound_first, beginning. destruct e as [[n|]|].
  - left. eexists. split; [reflexivity|]. now apply tag_elem.
  - auto.
  - destruct m as [|m0 m].
    + destruct d as [|[d0 q] d]; [discriminate|]. cbn [forallb] in Fd. apply andb_true_iff in Fd. destruct Fd as [F0 _].
      unfold pair_fine in F0. cbn [fst snd] in F0. apply andb_true_iff in F0. destruct F0 as [F0 F1].
      destruct d0; cbn [detail_first]; [auto| |auto|].
      * right. right. right. right. eexists. split; [reflexivity|]. now apply named_word.
      * rewrite function_fine_eq in F0. apply andb_true_iff in F0. right. right. right. right. eexists. split; [reflexivity|]. now apply name_a_word.
    + left. eexists. split; [reflexivity|]. now apply marks_elem.
Qed.

Lemma fresh_fit : forall i s l p, fresh s l = true -> beginning p -> fit (top i l) s p = true.
Proof.
  intros i s l p H B. pose proof (fresh_cases s l H) as Hl.
  destruct B as [(w & -> & E)|[->|[->|[->|(w & -> & E)]]]].
  - unfold CssRulesProofs1.fit. rewrite elem_part by exact E. unfold no_joining, direct_ok, kept_before. cbn [part_text]. rewrite (word_begins w 0x2A (elem_word w E) eq_refl).
    cbn [kind_of]. rewrite (fresh_after i s l H), (elem_names u w E). fresh_all Hl i.
  - fresh_all Hl i.
  - fresh_all Hl i.
  - fresh_all Hl i.
  - unfold CssRulesProofs1.fit, part_ok. rewrite E. fresh_all Hl i.
Qed.

Lemma needed_fit : forall i c d, compound_fine d = true -> descends c d = true -> fit (top i (Some (compound_end c))) Needed (compound_first d) = true.
Proof.
  intros i c d F D. pose proof (first_beginning d F) as B. unfold descends in D. unfold compound_end.
  assert (E1 : forall w k, elem w = true -> k = KElement \/ k = KSign 0x2A \/ k = KSign 0x5D \/ k = KSign 0x29 -> fit (top i (Some k)) Needed (Word w) = true).
  { intros w k E K. unfold CssRulesProofs1.fit. rewrite elem_part by exact E. unfold kept_before. cbn [kind_of].
    assert (A : after 0x3A (top i (Some k)) = false) by (destruct K as [->|[->|[->| ->]]]; reflexivity). rewrite A, (elem_names u w E).
    destruct i, K as [->|[->|[->| ->]]]; reflexivity. }
  assert (E2 : forall w k, a_word w = true -> k = KElement \/ k = KSign 0x2A \/ k = KSign 0x5D \/ k = KSign 0x29 -> fit (top i (Some k)) Needed (Pseudo w) = true).
  { intros w k E K. unfold CssRulesProofs1.fit, part_ok. rewrite E. destruct i, K as [->|[->|[->| ->]]]; reflexivity. }
  assert (NE : begins_with is_pseudo_element d = false -> compound_first d = Sign 0x3A -> False).
  { unfold begins_with, compound_first; destruct d as [[[n|]|] [|m0 m] [|[[n1 t1|n1|n1|n1 a1] q] d]]; cbn; congruence. }
  destruct (ends_in_bracket c) eqn:B1; [|destruct (ends_in_paren c) eqn:B2; [|destruct (just_any c) eqn:J]].
  - destruct B as [(w & -> & E)|[->|[->|[->|(w & -> & E)]]]]; auto 6; now destruct i.
  - assert (J : just_any c = false) by (destruct c as [[[n|]|] [|m0 m] [|x y]]; try reflexivity; discriminate). rewrite J in D.
    cbn [orb andb] in D. apply andb_true_iff in D. destruct D as [D1 D2]. apply negb_true_iff in D1, D2.
    destruct B as [(w & -> & E)|[Q|[->|[Q|(w & -> & E)]]]]; auto 6; try (now destruct i); exfalso; first [now apply NE | idtac].
    revert D2 Q F. clear. unfold begins_any, compound_first. destruct d as [[[n|]|] [|m0 m] [|[[n1 t1|n1|n1|n1 a1] q] d]]; cbn; congruence.
  - destruct B as [(w & -> & E)|[Q|[Q|[Q|(w & -> & E)]]]]; auto; exfalso; revert D Q; clear; unfold begins_named, begins_with, compound_first, detail_first;
      destruct d as [[[n|]|] [|m0 m] [|[[n1 t1|n1|n1|n1 a1] q] d]]; cbn; congruence.
  - cbn [orb andb] in D. rewrite andb_true_r in D. apply negb_true_iff in D. destruct B as [(w & -> & E)|[->|[->|[Q|(w & -> & E)]]]]; auto; try (now destruct i); exfalso; now apply NE.
Qed.

Lemma combinator_run : forall i c x r, In x (S_ ">+~,)") ->
  run (top i (Some (compound_end c))) ((before_sign c, Sign x) :: r) = run (top i (Some (KSign x))) r.
Proof.
  intros i c x r I1. unfold compound_end, before_sign. cbn in I1.
  destruct (ends_in_bracket c); [|destruct (ends_in_paren c); [|destruct (just_any c)]]; destruct i; repeat (destruct I1 as [<-|I1]; [reflexivity|]); contradiction.
Qed.

Lemma brace_run : forall i c r, run (top i (Some (compound_end c))) (sign Loose "{" :: r) = run (body i (KSign 0x7B)) r.
Proof.
  intros i c r. unfold compound_end. destruct (ends_in_bracket c); [|destruct (ends_in_paren c); [|destruct (just_any c)]]; destruct i; reflexivity.
Qed.

Lemma last_cons : forall (k : combinator) (d : compound) (l : list (combinator * compound)) (c : compound), List.last (map snd ((k, d) :: l)) c = List.last (map snd l) d.
Proof.
  intros k d l c. cbn [map snd]. destruct l as [|[k2 d2] l]; [reflexivity|]. cbn [map snd]. clear. revert d2. induction l as [|[k3 d3] l IHl]; intros d2; [reflexivity|].
  cbn [map snd List.last] in *. apply IHl.
Qed.

Definition compound_runs (c : compound) : Prop := forall i l s r, compound_fine c = true -> after 0x3A (top i l) = false -> fit (top i l) s (compound_first c) = true ->
  run (top i l) (compound_chunks s c ++ r) = run (top i (Some (compound_end c))) r.
Definition detail_runs (d : detail) : Prop := forall m i l s r, detail_fine d = true -> forallb mark_fine m = true -> fit (top i l) s (detail_first d m) = true ->
  run (top i l) (detail_chunks s d m ++ r) = run (top i (Some (detail_end d m))) r.
Definition argument_runs (a : argument) : Prop := forall i r, argument_fine a = true ->
  run (top i (Some (KSign 0x28))) (argument_chunks a ++ r) = run (top i (Some (KSign 0x29))) r.
Definition selector_runs (x : selector) : Prop := forall i l s r, selector_fine x = true -> fresh s l = true ->
  run (top i l) (selector_chunks s x ++ r) = run (top i (Some (compound_end (last_compound x)))) r.

Lemma details_run : forall l i k r, Forall (fun x : detail * list mark => detail_runs (fst x)) l -> forallb pair_fine l = true -> part_end k = true ->
  run (top i (Some k)) (flat_map pair_chunks l ++ r) = run (top i (Some (details_end k l))) r.
Proof.
  induction l as [|[d m] l IH]; intros i k r H F K; [reflexivity|]. cbn [forallb] in F. apply andb_true_iff in F. destruct F as [F1 F2].
  unfold pair_fine in F1. cbn [fst snd] in F1. apply andb_true_iff in F1. destruct F1 as [Fd Fm]. inversion H as [|? ? H1 H2]; subst.
  cbn [flat_map details_end fst snd]. unfold pair_chunks at 1. cbn [fst snd]. rewrite <- app_assoc, H1; [|exact Fd|exact Fm|now apply detail_tight].
  apply IH; [exact H2|exact F2|apply detail_end_part].
Qed.

Lemma compound_runs_all : forall e m d, Forall (fun x : detail * list mark => detail_runs (fst x)) d -> compound_runs (Compound e m d).
Proof.
  intros e m d H i l s r F A Fi. rewrite compound_fine_eq in F. apply andb_true_iff in F. destruct F as [F Fd]. apply andb_true_iff in F. destruct F as [Fe Fm].
  rewrite compound_eq. unfold compound_first, compound_end, ends_in_bracket, ends_in_paren, just_any, head_chunks in *. cbn [element_of marks details] in *.
  destruct e as [[n|]|].
  - assert (E : elem (n ++ marks_text m) = true) by (now apply tag_elem).
    rewrite first_tight_app by (destruct (n ++ marks_text m); discriminate). rewrite <- app_assoc, elem_run by assumption.
    rewrite details_run by (assumption || reflexivity). rewrite end_rev. destruct (rev d) as [|[[] []] ?]; reflexivity.
  - assert (Q : forall q, first_tight s ((sign Tight "*" :: word Tight (marks_text m)) ++ q) = (s, Sign 0x2A) :: word Tight (marks_text m) ++ q) by reflexivity.
    rewrite Q. rewrite <- app_comm_cons, <- app_assoc.
    cbn [CssRulesProofs1.run]. rewrite Fi.
    assert (E : step u (top i l) (Sign 0x2A) = top i (Some (KSign 0x2A))) by (now destruct i). rewrite E.
    rewrite marks_after by (exact Fm || auto). rewrite details_run by (assumption || now destruct m). rewrite end_rev.
    destruct m, d as [|d0 d]; try reflexivity; cbn [rev]; destruct (rev d ++ [d0]) as [|[[] []] ?] eqn:R; try reflexivity; now destruct (rev d).
  - destruct m as [|m0 m].
    + destruct d as [|[d0 q0] d]; [discriminate|]. change (word Tight (marks_text [])) with (@nil chunk). cbn [app flat_map]. unfold pair_chunks at 1. cbn [fst snd].
      assert (NE : detail_chunks Tight d0 q0 <> []) by (now destruct d0).
      rewrite first_tight_app by exact NE. rewrite <- detail_chunks_first, <- app_assoc. cbn [forallb] in Fd. apply andb_true_iff in Fd. destruct Fd as [F0 Fd].
      unfold pair_fine in F0. cbn [fst snd] in F0. apply andb_true_iff in F0. destruct F0 as [F0 Fq]. inversion H as [|? ? H1 H2]; subst. cbn [fst] in H1.
      rewrite H1 by assumption. rewrite details_run by (assumption || apply detail_end_part).
      change (details_end (detail_end d0 q0) d) with (details_end KElement ((d0, q0) :: d)). rewrite end_rev.
      destruct (rev ((d0, q0) :: d)) as [|[[] []] ?]; reflexivity.
    + assert (E : elem (marks_text (m0 :: m)) = true) by (now apply marks_elem).
      rewrite first_tight_app by (destruct (marks_text (m0 :: m)); discriminate). rewrite <- app_assoc, elem_run by assumption.
      rewrite details_run by (assumption || reflexivity). rewrite end_rev. destruct (rev d) as [|[[] []] ?]; reflexivity.
Qed.

Lemma attribute_runs : forall n t, detail_runs (HasAttribute n t).
Proof.
  intros n t m i l s r F Fm Fi. change (is_value n && test_fine t = true) in F. apply andb_true_iff in F. destruct F as [Fn Ft].
  change (detail_chunks s (HasAttribute n t) m) with (sign s "[" :: (Loose, Word n) :: test_chunks t ++ sign Loose "]" :: word Tight (marks_text m)).
  rewrite <- !app_comm_cons, <- app_assoc. change (sign s "[") with (s, Sign 0x5B). cbn [detail_first] in Fi.
  cbn [CssRulesProofs1.run]. rewrite Fi.
  assert (E : step u (top i l) (Sign 0x5B) = bracketed i (KSign 0x5B)) by (now destruct i). rewrite E.
  change (if CssRulesProofs1.fit u (bracketed i (KSign 0x5B)) Loose (Word n) then ?a else None) with (run (bracketed i (KSign 0x5B)) ((Loose, Word n) :: test_chunks t ++ (sign Loose "]" :: word Tight (marks_text m)) ++ r)).
  rewrite run_word by (assumption || reflexivity). change (set_last (bracketed i (KSign 0x5B)) KWord) with (bracketed i KWord).
  match goal with |- context [test_chunks t ++ ?q] => destruct (test_run i t q Ft) as (k & E2 & K); rewrite E2 end.
  rewrite <- app_comm_cons.
  assert (E3 : forall r, run (bracketed i k) (sign Loose "]" :: r) = run (top i (Some (KSign 0x5D))) r).
  { intros r'. destruct k; try discriminate; try (now destruct i). cbn [value_end] in K. apply N.eqb_eq in K. subst. now destruct i. }
  rewrite E3, marks_after; [now destruct m|exact Fm|now left].
Qed.

Lemma element_runs : forall n, detail_runs (PseudoElement n).
Proof.
  intros n m i l s r F Fm Fi. change (is_name n = true) in F. change (detail_chunks s (PseudoElement n) m) with [sign s ":"; (Tight, Pseudo (n ++ marks_text m))].
  cbn [app]. change (sign s ":") with (s, Sign 0x3A). cbn [CssRulesProofs1.run detail_first] in *. rewrite Fi.
  assert (E : step u (top i l) (Sign 0x3A) = top i (Some (KSign 0x3A))) by (now destruct i). rewrite E.
  assert (E2 : fit (top i (Some (KSign 0x3A))) Tight (Pseudo (n ++ marks_text m)) = true).
  { unfold CssRulesProofs1.fit, part_ok. rewrite (named_word n m F Fm). destruct i; reflexivity. }
  rewrite E2, pseudo_step. reflexivity.
Qed.

Lemma function_runs : forall n a, argument_runs a -> detail_runs (Function n a).
Proof.
  intros n a H m i l s r F Fm Fi. rewrite function_fine_eq in F. apply andb_true_iff in F. destruct F as [F Fa]. rewrite function_eq, <- !app_comm_cons, <- app_assoc.
  cbn [CssRulesProofs1.run detail_first] in *. rewrite Fi, pseudo_step.
  assert (E : forall q, run (top i (Some KElement)) (sign Tight "(" :: q) = run (top i (Some (KSign 0x28))) q) by (now destruct i).
  change (run (top i (Some KElement)) (sign Tight "(" :: argument_chunks a ++ word Tight (marks_text m) ++ r) = run (top i (Some (detail_end (Function n a) m))) r).
  rewrite E, (H i _ Fa), marks_after; [now destruct m|exact Fm|auto].
Qed.

Lemma nth_runs : forall w p, argument_runs (Nth w p).
Proof.
  intros w p i r F. change (is_nth w && match p with Some v => is_nth v | None => true end = true) in F. apply andb_true_iff in F. destruct F as [Fw Fp].
  change (argument_chunks (Nth w p)) with ((Loose, Word w) :: match p with Some v => [sign Loose "+"; (Loose, Word v)] | None => [] end ++ [sign Loose ")"]).
  rewrite <- app_comm_cons, nth_run by (exact Fw || reflexivity). destruct p as [v|]; cbn [app].
  - change (sign Loose "+") with (Loose, Sign 0x2B). rewrite nth_sign by (cbn; tauto). rewrite nth_run by (exact Fp || reflexivity).
    change (sign Loose ")") with (Loose, Sign 0x29). now rewrite nth_sign by (cbn; tauto).
  - change (sign Loose ")") with (Loose, Sign 0x29). now rewrite nth_sign by (cbn; tauto).
Qed.

(** Selectors up to what comes after them. *)
Lemma list_run : forall stop l x i q r, Forall selector_runs l -> forallb selector_fine l = true ->
  (forall c, run (top i (Some (compound_end c))) (stop c :: r) = q) ->
  run (top i (Some (compound_end (last_compound x)))) (list_with selector_chunks stop x l ++ r) = q.
Proof.
  intros stop. induction l as [|y l IH]; intros x i q r H F S1; [apply S1|]. inversion H as [|? ? H1 H2]; subst. cbn [forallb] in F. apply andb_true_iff in F. destruct F as [Fy Fl].
  rewrite list_eq, <- app_comm_cons. change (sign (before_sign (last_compound x)) ",") with (before_sign (last_compound x), Sign 0x2C). rewrite combinator_run by (cbn; tauto).
  rewrite <- app_assoc, (H1 i (Some (KSign 0x2C)) Loose _ Fy eq_refl). now apply IH.
Qed.

Lemma among_runs : forall x l, selector_runs x -> Forall selector_runs l -> argument_runs (Among x l).
Proof.
  intros x l H Hl i r F. rewrite among_fine_eq in F. apply andb_true_iff in F. destruct F as [Fx Fl]. rewrite among_eq, <- app_assoc, (H i (Some (KSign 0x28)) Loose _ Fx eq_refl).
  apply list_run; [exact Hl|exact Fl|]. intros c. change (sign (before_sign c) ")") with (before_sign c, Sign 0x29). apply combinator_run. cbn. tauto.
Qed.

Lemma rest_run : forall l c i r, Forall (fun x : combinator * compound => compound_runs (snd x)) l -> rest_fine compound_fine c l = true ->
  run (top i (Some (compound_end c))) (rest_with compound_chunks c l ++ r) = run (top i (Some (compound_end (List.last (map snd l) c)))) r.
Proof.
  induction l as [|[k d] l IH]; intros c i r H F; [reflexivity|]. rewrite rest_fine_eq in F. apply andb_true_iff in F. destruct F as [F F2].
  apply andb_true_iff in F. destruct F as [Fd Fk]. inversion H as [|? ? H1 H2]; subst. cbn [snd] in H1.
  rewrite rest_eq, last_cons, <- !app_assoc, <- IH by assumption.
  assert (Fr : forall x q, In x (S_ ">+~") -> run (top i (Some (KSign x))) (compound_chunks Loose d ++ q) = run (top i (Some (compound_end d))) q).
  { intros x q I1. assert (Fs : fresh Loose (Some (KSign x)) = true) by (cbn in I1; repeat (destruct I1 as [<-|I1]; [reflexivity|]); contradiction).
    apply H1; [exact Fd|now apply (fresh_after i Loose)|]. apply fresh_fit; [exact Fs|now apply first_beginning]. }
  destruct k; cbn [comb_chunk comb_slot app].
  - apply H1; [exact Fd| |now apply needed_fit]. unfold compound_end. now destruct (ends_in_bracket c), (ends_in_paren c), (just_any c).
  - change (sign (before_sign c) ">") with (before_sign c, Sign 0x3E). rewrite combinator_run by (cbn; tauto). apply Fr. cbn. tauto.
  - change (sign (before_sign c) "+") with (before_sign c, Sign 0x2B). rewrite combinator_run by (cbn; tauto). apply Fr. cbn. tauto.
  - change (sign (before_sign c) "~") with (before_sign c, Sign 0x7E). rewrite combinator_run by (cbn; tauto). apply Fr. cbn. tauto.
Qed.

Lemma selector_runs_all : forall c l, compound_runs c -> Forall (fun x : combinator * compound => compound_runs (snd x)) l -> selector_runs (Selector c l).
Proof.
  intros c m H Hm i l s r F Fr. rewrite selector_fine_eq in F. apply andb_true_iff in F. destruct F as [Fc Fm].
  rewrite selector_eq, <- app_assoc. cbn [last_compound]. rewrite H; [|exact Fc|now apply (fresh_after i s)|apply fresh_fit; [exact Fr|now apply first_beginning]].
  now apply rest_run.
Qed.

Lemma all_run : (forall c, compound_runs c) /\ (forall d, detail_runs d) /\ (forall a, argument_runs a) /\ (forall x, selector_runs x).
Proof.
  apply selectors_ind.
  - exact compound_runs_all.
  - exact attribute_runs.
  - intros n m i l s r F Fm Fi. change (detail_chunks s (PseudoClass n) m) with [(s, Pseudo (n ++ marks_text m))]. cbn [app CssRulesProofs1.run detail_first] in *. now rewrite Fi, pseudo_step.
  - exact element_runs.
  - exact function_runs.
  - exact nth_runs.
  - exact among_runs.
  - exact selector_runs_all.
Qed.

Lemma selector_run : forall x, selector_runs x.
Proof. apply all_run. Qed.

(** *** Rules and sheets *)

Lemma block_run : forall i d cl r, body_fine d cl = true ->
  run (body i (KSign 0x7B)) ((declarations_chunks d cl ++ [sign Loose "}"]) ++ r) = run (top i (Some (KSign 0x7D))) r.
Proof.
  intros i d cl r F. unfold body_fine in F. apply andb_true_iff in F. destruct F as [F _]. rewrite <- app_assoc.
  destruct (declarations_run u i d cl (KSign 0x7B) ([sign Loose "}"] ++ r) F (or_introl eq_refl)) as (k & -> & K). cbn [app]. now rewrite body_shut.
Qed.

Lemma rule_run : forall i l s x r, rule_fine x = true -> fresh s l = true ->
  run (top i l) (rule_chunks s x ++ r) = run (top i (Some (KSign 0x7D))) r.
Proof.
  intros i l s [[x m] d cl] r F H. unfold rule_fine in F. cbn [selectors declarations closed fst snd] in F. apply andb_true_iff in F. destruct F as [F Fd].
  apply andb_true_iff in F. destruct F as [Fx Fm]. unfold rule_chunks. cbn [selectors declarations closed fst snd]. rewrite <- !app_assoc.
  rewrite (selector_run x i l s _ Fx H). apply list_run; [now apply Forall_forall; intros; apply selector_run|exact Fm|].
  intros c. rewrite brace_run. rewrite app_assoc. now apply block_run.
Qed.

Lemma frames_run : forall l r, forallb is_nth l = true ->
  run (top true (Some KWord)) (flat_map (fun v => [sign Loose ","; (Loose, Word v)]) l ++ r) = run (top true (Some KWord)) r.
Proof.
  induction l as [|v l IH]; intros r F; [reflexivity|]. cbn [forallb] in F. apply andb_true_iff in F. destruct F as [Fv Fl]. cbn [flat_map app].
  change (sign Loose ",") with (Loose, Sign 0x2C). rewrite nth_sign by (cbn; tauto). rewrite nth_run by (exact Fv || reflexivity). now apply IH.
Qed.

Lemma inner_run : forall k x r, inner_fine x = true -> fresh Loose (Some k) = true ->
  run (top true (Some k)) (inner_chunks x ++ r) = run (top true (Some (KSign 0x7D))) r.
Proof.
  intros k [x|w l d cl] r F H; cbn [inner_fine inner_chunks] in *; [now apply rule_run|].
  apply andb_true_iff in F. destruct F as [F Fd]. apply andb_true_iff in F. destruct F as [Fw Fl].
  rewrite <- app_comm_cons, nth_run by assumption. rewrite <- app_assoc, frames_run by exact Fl. rewrite <- app_comm_cons.
  change (run (body true (KSign 0x7B)) ((declarations_chunks d cl ++ [sign Loose "}"]) ++ r) = run (top true (Some (KSign 0x7D))) r). now apply block_run.
Qed.

Lemma inners_run : forall l k r, forallb inner_fine l = true -> fresh Loose (Some k) = true -> exists k',
  run (top true (Some k)) (flat_map inner_chunks l ++ r) = run (top true (Some k')) r /\ (k' = k \/ k' = KSign 0x7D).
Proof.
  induction l as [|x l IH]; intros k r F H; [exists k; split; [reflexivity|now left]|].
  cbn [forallb] in F. apply andb_true_iff in F. destruct F as [F1 F2]. cbn [flat_map]. rewrite <- app_assoc, inner_run by assumption.
  destruct (IH (KSign 0x7D) r F2 eq_refl) as (k' & -> & K). exists k'. split; [reflexivity|]. right. now destruct K.
Qed.

Definition fresh_end (k : kind) : Prop := k = KSign 0x7D \/ k = KSign 0x3B \/ k = KLicence.

Lemma at_fit : forall s l k r, is_name k = true -> fresh s l = true -> run (top false l) ((s, At k) :: r) = run (prelude KAt) r.
Proof.
  intros s l k r F H. cbn [CssRulesProofs1.run].
  assert (Fi : fit (top false l) s (At k) = true).
  { unfold CssRulesProofs1.fit, part_ok. rewrite (name_a_word k F). apply fresh_cases in H. destruct H as [[-> ->]|[[-> ->]|(d & -> & -> & Hd)]]; [reflexivity..|].
    cbn in Hd. repeat (destruct Hd as [<-|Hd]; [reflexivity|]). contradiction. }
  rewrite Fi. reflexivity.
Qed.

Lemma notice_run : forall s l b r, endless b = true -> fresh s l = true -> run (top false l) ((s, Licence 0x21 b) :: r) = run (top false (Some KLicence)) r.
Proof.
  intros s l b r F H. cbn [CssRulesProofs1.run].
  assert (Fi : fit (top false l) s (Licence 0x21 b) = true).
  { unfold CssRulesProofs1.fit, part_ok. rewrite F. apply fresh_cases in H. destruct H as [[-> ->]|[[-> ->]|(d & -> & -> & Hd)]]; [reflexivity..|].
    cbn in Hd. repeat (destruct Hd as [<-|Hd]; [reflexivity|]). contradiction. }
  rewrite Fi. reflexivity.
Qed.

Lemma at_passes : forall s l k c q, is_name k = true -> fresh s l = true ->
  match c with Some (c, m) => conditions_fine c m | None => true end = true -> passes u (open_at (KSign 0x7B)) q ->
  passes u (top false l) ((s, At k) :: match c with Some (c, m) => conditions_chunks c m ++ [sign Loose "{"] | None => [sign AfterAt "{"] end ++ q).
Proof.
  intros s l k c q Fk H Fc Q.
  apply (run_passes u ((s, At k) :: match c with Some (c, m) => conditions_chunks c m ++ [sign Loose "{"] | None => [sign AfterAt "{"] end) q _ (open_at (KSign 0x7B))); [|exact Q].
  rewrite at_fit by assumption. destruct c as [[c n]|]; [|reflexivity]. destruct (conditions_run u n c [sign Loose "{"] Fc) as (k' & -> & K).
  change [sign Loose "{"] with [(Loose, Sign 0x7B)]. cbn [CssRulesProofs1.run]. rewrite (after_value u _ 0x7B k'); [reflexivity|cbn; tauto|reflexivity|reflexivity|exact K].
Qed.

Lemma entry_passes : forall s l e r, entry_fine e = true -> fresh s l = true -> (forall k, fresh_end k -> passes u (top false (Some k)) r) ->
  passes u (top false l) (entry_chunks s e ++ r).
Proof.
  assert (R : forall s l e r k, run (top false l) (entry_chunks s e ++ []) = run (top false (Some k)) [] -> fresh_end k ->
    (forall k, fresh_end k -> passes u (top false (Some k)) r) -> passes u (top false l) (entry_chunks s e ++ r)).
  { intros s l e r k E K C. rewrite app_nil_r in E. apply (run_passes u _ _ _ _ E). now apply C. }
  intros s l e r F H C. destruct e as [x|k c m|k c m|k c d cl|b]; cbn [entry_fine] in F.
  - apply (R s l (Rule x) r (KSign 0x7D)); [cbn [entry_chunks]; now apply rule_run|now left|exact C].
  - apply andb_true_iff in F. destruct F as [Fk Fc]. apply (R s l (AtStatement k c m) r (KSign 0x3B)); [|right; now left|exact C]. cbn [entry_chunks].
    rewrite <- app_comm_cons, at_fit by assumption. rewrite <- app_assoc.
    destruct (conditions_run u m c ([sign Loose ";"] ++ []) Fc) as (k' & -> & K).
    change ([sign Loose ";"] ++ []) with [(Loose, Sign 0x3B)]. cbn [CssRulesProofs1.run]. rewrite (after_value u _ 0x3B k'); [reflexivity|cbn; tauto|reflexivity|reflexivity|exact K].
  - apply andb_true_iff in F. destruct F as [F Fr]. apply andb_true_iff in F. destruct F as [Fk Fc]. apply andb_true_iff in Fk. destruct Fk as [Fk _].
    cbn [entry_chunks]. rewrite <- app_comm_cons, <- !app_assoc. apply at_passes; try assumption.
    assert (E : run (open_at (KSign 0x7B)) (flat_map inner_chunks m ++ [sign Loose "}"]) = Some (top false (Some (KSign 0x7D)))).
    { unfold open_at. destruct (inners_run m (KSign 0x7B) [sign Loose "}"] Fr eq_refl) as (k' & -> & K). destruct K; subst; reflexivity. }
    rewrite app_assoc. apply (run_passes u _ _ _ _ E). apply C. now left.
  - apply andb_true_iff in F. destruct F as [F Fd]. apply andb_true_iff in F. destruct F as [F Fb]. apply andb_true_iff in F. destruct F as [Fk Fc]. apply andb_true_iff in Fk. destruct Fk as [Fk _].
    cbn [entry_chunks]. rewrite <- app_comm_cons, <- app_assoc. apply at_passes; try assumption.
    apply direct_body_passes; [exact Fb|exact Fd|]. apply C. now left.
  - apply (R s l (Notice b) r KLicence); [cbn [entry_chunks app]; now rewrite notice_run|right; now right|exact C].
Qed.

Lemma entries_passes : forall l k, forallb entry_fine l = true -> fresh_end k -> passes u (top false (Some k)) (flat_map (entry_chunks Loose) l).
Proof.
  induction l as [|e l IH]; intros k F K.
  - apply pa_end. split; [reflexivity|]. right. destruct K as [->|[->| ->]]; auto.
  - cbn [forallb] in F. apply andb_true_iff in F. destruct F as [F1 F2]. cbn [flat_map]. apply entry_passes; [exact F1|destruct K as [->|[->| ->]]; reflexivity|].
    intros k' K'. now apply IH.
Qed.

Lemma sheet_passes : forall a, sheet_fine a = true -> passes u start (sheet_chunks a).
Proof.
  intros [|e a] F.
  - apply pa_end. split; [reflexivity|now left].
  - unfold sheet_fine in F. cbn [forallb] in F. apply andb_true_iff in F. destruct F as [F1 F2]. cbn [sheet_chunks]. change start with (top false None).
    apply entry_passes; [exact F1|reflexivity|]. intros k K. now apply entries_passes.
Qed.

Theorem css_rules : forall a s, sheet_fine a = true -> laid_out None (sheet_chunks a) s -> css_minify u s = Ok (canonical (sheet_chunks a)).
Proof.
  intros a s F L. destruct (layout_plain u start (sheet_chunks a) (sheet_passes a F) None s L) as (items & -> & Pl & Co); [split; [reflexivity|split; discriminate]|].
  rewrite css_plain by exact Pl. cbn [last_at start last app] in Co. now rewrite <- Co.
Qed.

Lemma sheet_laid : forall a, sheet_fine a = true -> laid_out None (sheet_chunks a) (canonical (sheet_chunks a)).
Proof. intros a F. exact (canonical_laid u start (sheet_chunks a) (sheet_passes a F) None [] (or_introl eq_refl)). Qed.

End Sheets.
