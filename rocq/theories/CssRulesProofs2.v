(** Rules as chunks: values, declarations and the preludes of at-rules. *)
From Coq Require Import String Arith List NArith Bool Lia.
From Verif Require Import Base CssPlainSpec CssRulesSpec CssRulesProofs1.
Import ListNotations.
Open Scope N_scope.

Lemma canonical_laid : forall u x l, passes u x l -> forall prev pre, pre = [] \/ (pre = [0xA] /\ last x = Some KLicence) ->
  laid_out prev l (pre ++ canonical l).
Proof.
  intros u. assert (Gp : forall x s p prev pre, fit u x s p = true -> pre = [] \/ (pre = [0xA] /\ last x = Some KLicence) ->
    exists g, pre ++ slot_text s = gap_text g /\ gap_fits prev s p g = true).
  { intros x s p prev pre F [-> | [-> L]].
    - destruct s; cbn [slot_text app]; try (exists []; split; [reflexivity|]; unfold gap_fits; cbn; rewrite ?orb_true_r; reflexivity); exists [CssPlainSpec.Blank 0x20]; split; reflexivity.
    - destruct s; cbn [slot_text app]; try (exists [CssPlainSpec.Blank 0xA]; split; [reflexivity|]; unfold gap_fits; cbn; rewrite ?orb_true_r; reflexivity);
        try (exists [CssPlainSpec.Blank 0xA; CssPlainSpec.Blank 0x20]; split; reflexivity).
      exfalso. unfold fit, last_notice in F. rewrite L in F. cbn [negb] in F. rewrite !andb_false_r in F. discriminate. }
  intros x l Q. induction Q as [x O|x s p l F Q IH|x s s' w l C Hs Hw F Fp Q IH Q2 IH2]; intros prev pre P.
  - rewrite app_nil_r. destruct P as [-> | [-> _]]; [change (@nil N) with (gap_text []) | change [0xA] with (gap_text [CssPlainSpec.Blank 0xA])]; apply lo_end; try reflexivity; now destruct prev.
  - cbn [canonical flat_map fst snd]. fold (canonical l). rewrite <- !app_assoc.
    assert (I1 : laid_out (Some p) l (line_end p ++ canonical l)) by (apply IH; destruct p; try (now left); now right).
    destruct (Gp x s p prev pre F P) as (g & E & Fg). rewrite app_assoc, E. now apply lo_part.
  - cbn [canonical flat_map fst snd]. fold (canonical l). rewrite <- !app_assoc. cbn [line_end app].
    destruct (Gp x s (Sign 0x3A) prev pre F P) as (g & E & Fg). rewrite app_assoc, E. apply lo_part; [exact Fg|].
    assert (St : slot_text s' = []) by (destruct Hs; subst; reflexivity). rewrite St. cbn [app].
    change (laid_out (Some (Sign 0x3A)) ((s', Word w) :: l) (gap_text [] ++ part_text (Word w) ++ canonical l)). apply lo_part; [destruct Hs; subst; reflexivity|].
    apply (IH (Some (Word w)) []). now left.
Qed.

Definition set_last (x : place) (k : kind) : place :=
  {| depth := depth x; at_rule := at_rule x; bracket := bracket x; calc := calc x; parens := parens x; last := Some k |}.

Definition in_calc (x : place) (n : nat) (k : kind) : place :=
  {| depth := depth x; at_rule := at_rule x; bracket := bracket x; calc := true; parens := n; last := Some k |}.

(** Characters of a word are no signs. *)
Lemma word_begins : forall w c, a_word w = true -> among signs c = true -> begins (N.eqb c) w = false.
Proof.
  intros [|a w] c H S1; [discriminate|]. cbn [begins]. apply N.eqb_neq. intros ->. cbn [a_word forallb] in H.
  apply andb_true_iff in H. destruct H as [H _]. unfold word_char in H. rewrite S1 in H. discriminate.
Qed.

Lemma string_begins : forall t c, is_string t = true -> among signs c = true -> begins (N.eqb c) t = false.
Proof.
  intros [|a t] c H S1; [discriminate|]. cbn [begins]. apply N.eqb_neq. intros ->. cbn [is_string] in H.
  apply andb_true_iff in H. destruct H as [H _]. unfold among in H. cbn [existsb] in H. rewrite orb_false_r in H. apply orb_true_iff in H.
  destruct H as [H|H]; apply N.eqb_eq in H; subst; discriminate.
Qed.

Definition one_of (l : str) (c : N) : Prop := In c l.
Lemma among_in : forall l c, among l c = true -> In c l.
Proof. intros l c H. apply existsb_exists in H. destruct H as (d & I1 & E). apply N.eqb_eq in E. now subst. Qed.

Lemma a_word_all : forall w, a_word w = true -> forallb word_char w = true.
Proof. intros [|c w] H; [discriminate|exact H]. Qed.

Section Rules.
Variable u : N -> bool.

Definition simple (p : part) : bool := match p with Word w => a_word w | Quoted t => is_string t | _ => false end.
Definition kindv (p : part) : kind := match p with Quoted _ => KText | _ => KWord end.

Definition value_end (k : kind) : bool := match k with KWord | KText => true | KSign c => c =? 0x29 | _ => false end.

Definition start_of (s : slot) (l : option kind) : bool :=
  match s, l with
  | Loose, Some (KSign d) => among (S_ "{;:(,/[=") d
  | Tight, Some KText => true
  | Needed, Some k => value_end k
  | AfterAt, Some KAt => true
  | _, _ => false
  end.

Lemma simple_part : forall x p, simple p = true -> selects x = false -> calc x = false -> part_ok x p = true.
Proof.
  intros x p H1 Se C. unfold part_ok. rewrite C. cbn [andb]. destruct p; try discriminate; cbn [simple] in H1.
  - rewrite H1, Se. reflexivity.
  - exact H1.
Qed.

Lemma simple_star : forall p, simple p = true -> begins (N.eqb 0x2A) (part_text p) = false.
Proof. intros p H. destruct p; try discriminate; cbn [simple part_text] in *; [now apply word_begins | now apply string_begins]. Qed.

Lemma simple_kind : forall x p, simple p = true -> selects x = false -> kind_of u x p = kindv p.
Proof. intros x p H Se. destruct p; try discriminate; cbn [kind_of kindv]; [now rewrite Se | reflexivity]. Qed.

Lemma simple_fit : forall x s p, simple p = true -> selects x = false -> calc x = false -> start_of s (last x) = true -> fit u x s p = true.
Proof.
  intros x s p H Se C St. unfold fit. rewrite (simple_part x p H Se C).
  assert (NL : match p with Licence c _ => c =? 0x21 | Escape _ => false | _ => true end = true) by (destruct p; try discriminate; reflexivity). rewrite NL.
  unfold direct_ok, no_joining, last_at, last_notice, kept_before, would_match. rewrite (simple_star p H), (simple_kind x p H Se), Se, C.
  assert (Si : forall c, is_sign c p = false) by (intros; destruct p; try discriminate; reflexivity). rewrite !Si.
  assert (Ma : match p with Match c => c =? 0x2A | _ => false end = false) by (destruct p; try discriminate; reflexivity). rewrite Ma.
  rewrite !andb_false_r. cbn [negb andb].
  assert (Wd : is_word p || negb (wordy p) = true) by (destruct p; try discriminate; reflexivity).
  unfold start_of in St. destruct s; try discriminate; destruct (last x) as [k|] eqn:L; try discriminate.
  - destruct k; try discriminate. now rewrite andb_false_r.
  - destruct k; try discriminate. apply among_in in St. cbn in St.
    repeat (destruct St as [<-|St]; [cbn; rewrite ?andb_false_r; destruct p; try discriminate; reflexivity|]). contradiction.
  - destruct k; try discriminate; cbn in St |- *.
    + destruct p; try discriminate; reflexivity.
    + destruct p; try discriminate; reflexivity.
    + apply N.eqb_eq in St. subst c. destruct p; try discriminate; reflexivity.
  - destruct k; try discriminate. cbn [andb]. destruct (is_word p); [reflexivity|]. cbn [orb] in Wd |- *. apply negb_true_iff in Wd. now rewrite Wd.
Qed.

Lemma simple_step : forall x p, match p with Word w => is_value w | Quoted t => is_string t | _ => false end = true ->
  selects x = false -> calc x = false -> step u x p = set_last x (kindv p).
Proof.
  intros x p H Se C. destruct p as [w| | |t| | | |]; try discriminate; unfold step, set_last.
  - cbn [kind_of]. rewrite Se. cbn [andb is_sign kindv]. rewrite !andb_false_r. cbn [orb]. rewrite C. cbn [orb].
    unfold is_value in H. apply andb_true_iff in H. destruct H as [_ H]. apply negb_true_iff in H. rewrite H. reflexivity.
  - cbn [kind_of is_sign kindv]. rewrite !andb_false_r. cbn [andb negb orb]. rewrite C. reflexivity.
Qed.

Lemma is_value_word : forall w, is_value w = true -> a_word w = true.
Proof. intros w H. unfold is_value in H. now apply andb_true_iff in H. Qed.

Lemma run_word : forall x s w r, is_value w = true -> selects x = false -> calc x = false -> start_of s (last x) = true ->
  run u x ((s, Word w) :: r) = run u (set_last x KWord) r.
Proof.
  intros x s w r H Se C St. cbn [run]. rewrite simple_fit by (try assumption; now apply is_value_word). now rewrite simple_step.
Qed.

Lemma run_text : forall x s t r, is_string t = true -> selects x = false -> calc x = false -> start_of s (last x) = true ->
  run u x ((s, Quoted t) :: r) = run u (set_last x KText) r.
Proof. intros x s t r H Se C St. cbn [run]. rewrite simple_fit by assumption. now rewrite simple_step. Qed.

(** Signs after a value. *)
Lemma after_value : forall x c k, In c (S_ "),/:=;{") -> calc x = false -> last x = Some k -> value_end k = true -> fit u x Loose (Sign c) = true.
Proof.
  intros [d a b cl n l] c k I1 C L V. cbn in C, L. subst. cbn in I1.
  destruct k; try discriminate; cbn in V; try (apply N.eqb_eq in V; subst);
    repeat (destruct I1 as [<-|I1]; [reflexivity|]); contradiction.
Qed.

Lemma step_sign : forall x c, In c (S_ "(),/:=") -> calc x = false -> step u x (Sign c) = set_last x (KSign c).
Proof.
  intros [d a b cl n l] c I1 C. cbn in C. subst. cbn in I1. repeat (destruct I1 as [<-|I1]; [reflexivity|]). contradiction.
Qed.

Lemma run_sign : forall x c k r, In c (S_ "),/:=") -> calc x = false -> last x = Some k -> value_end k = true ->
  run u x ((Loose, Sign c) :: r) = run u (set_last x (KSign c)) r.
Proof.
  intros x c k r I1 C L V. cbn [run]. rewrite (after_value x c k); [|cbn in I1 |- *; tauto|assumption..]. rewrite step_sign; [reflexivity| |exact C].
  cbn in I1 |- *. tauto.
Qed.

Lemma run_call : forall x r, calc x = false -> last x = Some KWord ->
  run u x (sign Tight "(" :: r) = run u (set_last x (KSign 0x28)) r.
Proof.
  intros [d a b cl n l] r C L. cbn in C, L. subst. reflexivity.
Qed.

(** *** calc *)

Definition calc_start (s : slot) (k : kind) : bool :=
  match s, k with
  | Blanks, KSign c => c =? 0x28
  | Spread, KWord => true
  | Spread, KSign c => among (S_ "+*/") c
  | _, _ => false
  end.
Definition calc_end (k : kind) : bool := match k with KWord => true | KSign c => c =? 0x29 | _ => false end.

Lemma calc_word : forall x n s k w r, a_word w = true -> selects x = false -> calc_start s k = true \/ (s = Spread /\ calc_end k = true) ->
  run u (in_calc x (S n) k) ((s, Word w) :: r) = run u (in_calc x (S n) KWord) r.
Proof.
  intros [d a b cl m l] n s k w r H Se K. unfold in_calc. cbn [depth at_rule bracket]. cbn [run].
  assert (F : fit u {| depth := d; at_rule := a; bracket := b; calc := true; parens := S n; last := Some k |} s (Word w) = true).
  { unfold selects in Se. cbn [depth at_rule bracket] in Se.
    unfold fit, part_ok, direct_ok, no_joining, last_at, last_notice, kept_before, would_match, after, selects. cbn [depth at_rule bracket calc parens last].
    cbn [part_text is_sign wordy kind_of]. unfold selects, after. cbn [depth at_rule bracket calc parens last]. rewrite Se, H, (word_begins w 0x2A H eq_refl). cbn [andb negb Nat.eqb].
    rewrite !andb_false_r. cbn [negb andb].
    destruct K as [K|[-> K]].
    - destruct s; try discriminate; destruct k; try discriminate; cbn [calc_start] in K.
      + apply N.eqb_eq in K. subst. reflexivity.
      + reflexivity.
      + apply among_in in K. cbn in K. repeat (destruct K as [<-|K]; [reflexivity|]). contradiction.
    - destruct k; try discriminate; [reflexivity|]. cbn [calc_end] in K. apply N.eqb_eq in K. subst. reflexivity. }
  rewrite F. f_equal. unfold step. unfold selects in Se. cbn [depth at_rule bracket] in Se. cbn [kind_of]. unfold selects. cbn [depth at_rule bracket calc parens last].
  rewrite Se. reflexivity.
Qed.

Lemma calc_operator : forall x n k c r, among (S_ "+-*/") c = true -> selects x = false -> calc_end k = true -> exists k',
  run u (in_calc x (S n) k) ((Spread, if c =? 0x2D then Word [0x2D] else Sign c) :: r) = run u (in_calc x (S n) k') r
  /\ calc_start Spread k' = true.
Proof.
  intros x n k c r O Se K. apply among_in in O. cbn in O.
  assert (Sg : forall c, In c (S_ "+*/") -> run u (in_calc x (S n) k) ((Spread, Sign c) :: r) = run u (in_calc x (S n) (KSign c)) r).
  { destruct x as [d a b cl m l]. intros e He. cbn in He. destruct k; try discriminate.
    - repeat (destruct He as [<-|He]; [reflexivity|]). contradiction.
    - cbn [calc_end] in K. apply N.eqb_eq in K. subst. repeat (destruct He as [<-|He]; [reflexivity|]). contradiction. }
  destruct O as [<-|[<-|[<-|[<-|[]]]]].
  - eexists. split; [apply Sg; now left | reflexivity].
  - eexists. split; [apply calc_word; [reflexivity|exact Se|right; split; [reflexivity|exact K]] | reflexivity].
  - eexists. split; [apply Sg; right; now left | reflexivity].
  - eexists. split; [apply Sg; right; right; now left | reflexivity].
Qed.

Lemma calc_open : forall x n s k r, calc_start s k = true ->
  run u (in_calc x (S n) k) (sign s "(" :: r) = run u (in_calc x (S (S n)) (KSign 0x28)) r.
Proof.
  intros [d a b cl m l] n s k r K. destruct s; try discriminate; destruct k; try discriminate; cbn [calc_start] in K.
  - apply N.eqb_eq in K. subst. reflexivity.
  - reflexivity.
  - apply among_in in K. cbn in K. repeat (destruct K as [<-|K]; [reflexivity|]). contradiction.
Qed.

Lemma calc_shut : forall x n k r, calc_end k = true ->
  run u (in_calc x (S (S n)) k) (sign Tight ")" :: r) = run u (in_calc x (S n) (KSign 0x29)) r.
Proof.
  intros [d a b cl m l] n k r K. destruct k; try discriminate; [reflexivity|]. cbn [calc_end] in K. apply N.eqb_eq in K. subst. reflexivity.
Qed.

Definition sum_tail (x : N * operand) : list chunk :=
  (Spread, if fst x =? 0x2D then Word [0x2D] else Sign (fst x)) :: operand_chunks Spread (snd x).

Lemma sum_eq : forall s o l, sum_chunks s (Sum o l) = operand_chunks s o ++ flat_map sum_tail l.
Proof. reflexivity. Qed.

Lemma parens_eq : forall s e, operand_chunks s (Parens e) = sign s "(" :: sum_chunks Blanks e ++ [sign Tight ")"].
Proof. reflexivity. Qed.

Fixpoint sum_run (e : sum) : forall x n s k r, sum_fine e = true -> selects x = false -> calc_start s k = true -> exists k',
    run u (in_calc x (S n) k) (sum_chunks s e ++ r) = run u (in_calc x (S n) k') r /\ calc_end k' = true
with operand_run (o : operand) : forall x n s k r, operand_fine o = true -> selects x = false -> calc_start s k = true -> exists k',
    run u (in_calc x (S n) k) (operand_chunks s o ++ r) = run u (in_calc x (S n) k') r /\ calc_end k' = true.
Proof.
  - destruct e as [o l]. intros x n s k r F Se K.
    change (operand_fine o && forallb (fun x => among (S_ "+-*/") (fst x) && operand_fine (snd x)) l = true) in F.
    apply andb_true_iff in F. destruct F as [F1 F2].
    rewrite sum_eq, <- app_assoc. destruct (operand_run o x n s k (flat_map sum_tail l ++ r) F1 Se K) as (k1 & E1 & K1). rewrite E1.
    clear E1 F1 K s k o. revert k1 K1.
    induction l as [|[c o] l IH]; intros k1 K1.
    + exists k1. split; [reflexivity|exact K1].
    + cbn [forallb fst snd] in F2. apply andb_true_iff in F2. destruct F2 as [F2 F3]. apply andb_true_iff in F2. destruct F2 as [Fc Fo].
      cbn [flat_map]. unfold sum_tail at 1. cbn [fst snd]. rewrite <- !app_comm_cons, <- app_assoc.
      destruct (calc_operator x n k1 c (operand_chunks Spread o ++ flat_map sum_tail l ++ r) Fc Se K1) as (k2 & E2 & K2). rewrite E2.
      destruct (operand_run o x n Spread k2 (flat_map sum_tail l ++ r) Fo Se K2) as (k3 & E3 & K3). rewrite E3.
      exact (IH F3 k3 K3).
  - destruct o as [w|e]; intros x n s k r F Se K.
    + exists KWord. split; [|reflexivity]. apply (calc_word x n s k w r); [now apply is_value_word|exact Se|now left].
    + rewrite parens_eq, <- app_comm_cons, calc_open by exact K. rewrite <- app_assoc.
      destruct (sum_run e x (S n) Blanks (KSign 0x28) ([sign Tight ")"] ++ r) F Se eq_refl) as (k1 & E1 & K1). rewrite E1.
      cbn [app]. rewrite calc_shut by exact K1. eexists. split; reflexivity.
Qed.

Lemma calc_run : forall x s e r, sum_fine e = true -> selects x = false -> calc x = false -> parens x = 0%nat -> start_of s (last x) = true ->
  run u x (term_chunks s (TCalc e) ++ r) = run u (set_last x (KSign 0x29)) r.
Proof.
  intros x s e r F Se C P St.
  change (term_chunks s (TCalc e) ++ r) with ((s, Word (S_ "calc")) :: (sign Tight "(" :: sum_chunks Blanks e ++ [sign Tight ")"]) ++ r).
  cbn [run]. rewrite simple_fit by (try assumption; reflexivity).
  assert (E : step u x (Word (S_ "calc")) = in_calc x 0 KWord).
  { unfold step, in_calc. cbn [kind_of]. rewrite Se. cbn [andb is_sign]. rewrite !andb_false_r, P. rewrite orb_true_r. reflexivity. }
  rewrite E, <- app_comm_cons, <- app_assoc.
  assert (E2 : forall r, run u (in_calc x 0 KWord) (sign Tight "(" :: r) = run u (in_calc x 1 (KSign 0x28)) r) by (destruct x; reflexivity).
  rewrite E2. destruct (sum_run e x 0 Blanks (KSign 0x28) ([sign Tight ")"] ++ r) F Se eq_refl) as (k1 & E1 & K1). rewrite E1. cbn [app].
  destruct x as [d a b cl m l]. cbn in C, P. subst. destruct k1; try discriminate; [reflexivity|]. cbn [calc_end] in K1. apply N.eqb_eq in K1. subst. reflexivity.
Qed.

(** *** Urls *)

(** [q] may stand directly after [p]. *)
Definition joins (p q : part) : bool :=
  match p, q with
  | Word _, Word _ => false
  | Sign d, Sign e => negb ((e =? 0x3D) && among (S_ "~|$^*") d) && negb ((d =? 0x2F) && (e =? 0x2A))
  | Sign d, Match e => negb ((d =? 0x2F) && (e =? 0x2A))
  | _, _ => true
  end.

Definition piece (p : part) : bool :=
  match p with
  | Word w => is_value w
  | Sign c => among (S_ ",>:;/+=*|~$^") c
  | Match c => among (S_ "~|$^*") c
  | Quoted t => is_string t
  | _ => false
  end.

Fixpoint linked (l : list part) : bool :=
  match l with [] => true | p :: r => piece p && match r with q :: _ => joins p q | [] => true end && linked r end.

Definition kindp (p : part) : kind := match p with Word _ => KWord | Sign c => KSign c | _ => KText end.

(** A semicolon outside braces would end an at-rule. *)
Definition deep (x : place) (p : part) : bool := negb (Nat.eqb (depth x) 0) || negb (is_sign 0x3B p).

Lemma step_piece : forall x p, piece p = true -> selects x = false -> calc x = false -> deep x p = true -> step u x p = set_last x (kindp p).
Proof.
  intros x p F Se C D. destruct p as [w|w|w|t|c|c|c b|c]; try discriminate; cbn [piece] in F.
  - now apply (simple_step x (Word w)).
  - now apply (simple_step x (Quoted t)).
  - destruct x as [d a b cl n l]. cbn in C. subst. apply among_in in F. unfold deep in D. cbn [depth] in D.
    cbn in F. repeat (destruct F as [<-|F]; [try reflexivity; cbn in D; rewrite orb_false_r in D; unfold step, set_last; cbn; apply negb_true_iff in D; now rewrite D|]).
    contradiction.
  - destruct x as [d a b cl n l]. cbn in C. subst. reflexivity.
Qed.

Lemma fit_tight : forall x p q, piece p = true -> piece q = true -> joins p q = true -> last x = Some (kindp p) -> selects x = false -> calc x = false ->
  fit u x Tight q = true.
Proof.
  intros x p q Fp Fq J L Se C.
  assert (P : part_ok x q = true).
  { destruct q as [w|w|w|t|c|c|c b|c]; try discriminate; unfold part_ok; rewrite C; cbn [andb piece] in *.
    - rewrite Se, (is_value_word w Fq). reflexivity.
    - exact Fq.
    - apply among_in in Fq. cbn in Fq. repeat (destruct Fq as [<-|Fq]; [reflexivity|]). contradiction.
    - exact Fq. }
  unfold fit. rewrite P. assert (NL : match q with Licence c _ => c =? 0x21 | Escape _ => false | _ => true end = true) by (destruct q; try discriminate; reflexivity). rewrite NL.
  unfold last_at, last_notice. rewrite L.
  assert (N1 : negb match kindp p with KAt => true | _ => false end = true) by (now destruct p).
  assert (N2 : negb match kindp p with KLicence => true | _ => false end = true) by (now destruct p).
  rewrite N1, N2, !andb_true_r. cbn [andb].
  unfold direct_ok, would_match, after. rewrite L, Se.
  destruct q as [w|w|w|t|c|c|c b|c]; try discriminate; cbn [is_sign wordy part_text andb negb] in *; rewrite ?andb_false_r; cbn [andb negb].
  - rewrite (word_begins w 0x2A (is_value_word w Fq) eq_refl), andb_false_r. cbn [negb andb]. destruct p; try discriminate; cbn [kindp]; try reflexivity. now rewrite andb_false_r.
  - rewrite (string_begins t 0x2A Fq eq_refl), andb_false_r. reflexivity.
  - cbn [begins]. destruct p as [w|w|w|t|d|d|d b|d]; try discriminate; cbn [kindp]; rewrite ?andb_false_r; try reflexivity.
    cbn [joins] in J. rewrite (N.eqb_sym 0x2A c). apply andb_true_iff in J. destruct J as [-> ->]. reflexivity.
  - cbn [begins]. destruct p as [w|w|w|t|d|d|d b|d]; try discriminate; cbn [kindp]; rewrite ?andb_false_r; try reflexivity.
    cbn [joins] in J. rewrite (N.eqb_sym 0x2A c), J. reflexivity.
Qed.

Lemma fit_first : forall x q, piece q = true -> last x = Some (KSign 0x28) -> selects x = false -> calc x = false -> fit u x Blanks q = true.
Proof.
  intros x q Fq L Se C.
  assert (P : part_ok x q = true).
  { destruct q as [w|w|w|t|c|c|c b|c]; try discriminate; unfold part_ok; rewrite C; cbn [andb piece] in *.
    - rewrite Se, (is_value_word w Fq). reflexivity.
    - exact Fq.
    - apply among_in in Fq. cbn in Fq. repeat (destruct Fq as [<-|Fq]; [reflexivity|]). contradiction.
    - exact Fq. }
  unfold fit. rewrite P. unfold direct_ok, no_joining, would_match, after, last_at, kept_before. rewrite L, C, Se.
  destruct q as [w|w|w|t|c|c|c b|c]; try discriminate; cbn; rewrite ?andb_false_r; reflexivity.
Qed.

Definition closing (k : kind) : bool := match k with KWord | KText => true | KSign c => among (S_ "(,>:;/+=*|~$^") c | _ => false end.

Lemma closing_piece : forall p, piece p = true -> closing (kindp p) = true.
Proof.
  intros p F. destruct p; try discriminate; try reflexivity. cbn [piece kindp closing] in *. unfold among in *. cbn [existsb S_] in *. 
  change (existsb (N.eqb c) (S_ ",>:;/+=*|~$^") = true) in F. change ((c =? 0x28) || existsb (N.eqb c) (S_ ",>:;/+=*|~$^") = true). rewrite F. apply orb_true_r.
Qed.

Lemma url_shut : forall x k r, closing k = true -> calc x = false -> last x = Some k ->
  run u x (sign Blanks ")" :: r) = run u (set_last x (KSign 0x29)) r.
Proof.
  intros [d a b cl n l] k r K C L. cbn in C, L. subst. destruct k; try discriminate; try reflexivity. cbn [closing] in K. apply among_in in K. cbn in K.
  repeat (destruct K as [<-|K]; [reflexivity|]). contradiction.
Qed.

Lemma tight_run : forall l p x r, linked (p :: l) = true -> selects x = false -> calc x = false -> forallb (deep x) l = true -> last x = Some (kindp p) ->
  exists k, run u x (map (pair Tight) l ++ r) = run u (set_last x k) r /\ closing k = true.
Proof.
  induction l as [|q l IH]; intros p x r F Se C D L.
  - exists (kindp p). split; [destruct x as [? ? ? ? ? la]; cbn in L; subst; reflexivity|]. cbn [linked] in F. rewrite !andb_true_r in F. now apply closing_piece.
  - cbn [linked] in F. apply andb_true_iff in F. destruct F as [F F2]. apply andb_true_iff in F. destruct F as [Fp J]. pose proof F2 as F3.
    apply andb_true_iff in F3. destruct F3 as [Fq _]. apply andb_true_iff in Fq. destruct Fq as [Fq _].
    cbn [forallb] in D. apply andb_true_iff in D. destruct D as [Dq D].
    cbn [map app run]. rewrite (fit_tight x p q) by assumption. rewrite step_piece by assumption.
    exact (IH q (set_last x (kindp q)) r F2 Se C D eq_refl).
Qed.

Definition address (a : value_of) : list part := match a with Bare w => address_parts w | Text t => [Quoted t] end.

Lemma url_eq : forall s f a, url_chunks s f a = (s, Word f) :: sign Tight "(" :: first_tight Blanks (map (pair Tight) (address a)) ++ [sign Blanks ")"].
Proof. reflexivity. Qed.

Lemma linked_run : forall l x r, linked l = true -> selects x = false -> calc x = false -> forallb (deep x) l = true -> last x = Some (KSign 0x28) ->
  run u x (first_tight Blanks (map (pair Tight) l) ++ sign Blanks ")" :: r) = run u (set_last x (KSign 0x29)) r.
Proof.
  intros [|p l] x r F Se C D L; cbn [map first_tight app].
  - now apply (url_shut x (KSign 0x28)).
  - pose proof F as F3. apply andb_true_iff in F3. destruct F3 as [Fp _]. apply andb_true_iff in Fp. destruct Fp as [Fp _].
    cbn [forallb] in D. apply andb_true_iff in D. destruct D as [Dp D].
    cbn [run]. rewrite fit_first by assumption. rewrite step_piece by assumption.
    destruct (tight_run l p (set_last x (kindp p)) (sign Blanks ")" :: r) F Se C D eq_refl) as (k & -> & K).
    rewrite (url_shut (set_last (set_last x (kindp p)) k) k r K C eq_refl). reflexivity.
Qed.

(** The parts of an address. *)
Definition address_head (l : list part) (a : str) : Prop :=
  match l with
  | Word w :: _ => begins word_char a = true
  | Sign c :: _ | Match c :: _ => begins (N.eqb c) a = true /\ word_char c = false
  | [] => a = []
  | _ => False
  end.

Definition not_calc (p : part) : bool := match p with Word v => negb (str_eqb v (S_ "calc")) | _ => true end.

Definition weak_piece (p : part) : bool :=
  match p with
  | Word w => a_word w
  | Sign c => among (S_ ",>:;/+=*|~$^") c
  | Match c => among (S_ "~|$^*") c
  | _ => false
  end.
Fixpoint weakly (l : list part) : bool :=
  match l with [] => true | p :: r => weak_piece p && match r with q :: _ => joins p q | [] => true end && weakly r end.

Lemma weakly_linked : forall l, weakly l = true -> forallb not_calc l = true -> linked l = true.
Proof.
  induction l as [|p l IH]; intros W Nc; [reflexivity|]. cbn [weakly forallb linked] in *. rewrite !andb_true_iff in *. destruct W as [[W J] W2], Nc as [Np Nc].
  split; [split; [|exact J]|now apply IH]. destruct p; try discriminate; cbn [weak_piece piece not_calc] in *; try assumption. unfold is_value. now rewrite W, Np.
Qed.

Lemma address_weakly : forall a, forallb (fun c => word_char c || among (S_ ",>:;/+=*|~$^") c) a = true -> no_comment a = true ->
  weakly (address_parts a) = true /\ address_head (address_parts a) a.
Proof.
  induction a as [|c a IH]; intros F Nc; [split; reflexivity|]. cbn [forallb no_comment] in F, Nc. apply andb_true_iff in F, Nc. destruct F as [Fc F], Nc as [Nc1 Nc].
  destruct (IH F Nc) as [W H]. cbn [address_parts]. destruct (word_char c) eqn:Wc.
  - destruct (address_parts a) as [|p l] eqn:El.
    + split; [cbn; now rewrite Wc|]. exact Wc.
    + destruct p as [w|w|w|t|d|d|d b|d]; cbn [address_head] in H; try contradiction; (split; [|exact Wc]).
      * cbn [weakly weak_piece] in W |- *. rewrite !andb_true_iff in *. destruct W as [[W1 W2] W3]. split; [split|exact W3].
        -- cbn [a_word forallb]. rewrite Wc. cbn [andb]. now apply a_word_all.
        -- now destruct l.
      * cbn [weakly weak_piece] in W |- *. rewrite W. cbn [a_word forallb joins]. now rewrite Wc.
      * cbn [weakly weak_piece] in W |- *. rewrite W. cbn [a_word forallb joins]. now rewrite Wc.
  - assert (Sc : among (S_ ",>:;/+=*|~$^") c = true) by (exact Fc).
    destruct (address_parts a) as [|p l] eqn:El.
    + split; [cbn [weakly weak_piece]; now rewrite Sc|]. cbn. now rewrite N.eqb_refl.
    + destruct p as [w|w|w|t|d|d|d b|d]; cbn [address_head] in H; try contradiction.
      * split; [cbn [weakly weak_piece] in W |- *; rewrite Sc, W; reflexivity|]. cbn. now rewrite N.eqb_refl.
      * destruct ((d =? 0x3D) && among (S_ "~|$^*") c) eqn:M.
        -- apply andb_true_iff in M. destruct M as [_ M]. split; [|cbn; now rewrite N.eqb_refl].
           cbn [weakly weak_piece] in W |- *. rewrite !andb_true_iff in W |- *. destruct W as [[_ _] W]. repeat split; try assumption. now destruct l.
        -- split; [|cbn; now rewrite N.eqb_refl]. cbn [weakly weak_piece] in W |- *. rewrite Sc, W. cbn [joins andb]. rewrite M, andb_true_r. cbn [negb andb].
           destruct H as [H _]. destruct a as [|e a]; [discriminate|]. cbn [begins] in *. apply N.eqb_eq in H. subst e. rewrite (N.eqb_sym 0x2A d) in Nc1. exact Nc1.
      * split; [|cbn; now rewrite N.eqb_refl]. cbn [weakly weak_piece] in W |- *. rewrite Sc, W. cbn [joins andb]. rewrite andb_true_r.
        destruct H as [H _]. destruct a as [|e a]; [discriminate|]. cbn [begins] in *. apply N.eqb_eq in H. subst e. rewrite (N.eqb_sym 0x2A d) in Nc1. exact Nc1.
Qed.

Lemma address_linked : forall a, address_fine a = true -> linked (address a) = true.
Proof.
  intros [w|t] F; cbn [address_fine address] in *.
  - apply andb_true_iff in F. destruct F as [F Nc]. apply andb_true_iff in F. destruct F as [F1 F2]. apply weakly_linked; [now apply address_weakly|exact Nc].
  - cbn [linked piece]. now rewrite F.
Qed.

Lemma url_run : forall x s f a r, url_fine f a = true -> selects x = false -> calc x = false -> forallb (deep x) (address a) = true ->
  start_of s (last x) = true -> run u x (url_chunks s f a ++ r) = run u (set_last x (KSign 0x29)) r.
Proof.
  intros x s f a r F Se C D St. unfold url_fine in F. apply andb_true_iff in F. destruct F as [F Fa]. apply andb_true_iff in F. destruct F as [Ff _].
  rewrite url_eq, <- !app_comm_cons, <- app_assoc. rewrite run_word by assumption. rewrite run_call by (assumption || reflexivity).
  change (set_last (set_last x KWord) (KSign 0x28)) with (set_last x (KSign 0x28)). cbn [app].
  exact (linked_run (address a) (set_last x (KSign 0x28)) r (address_linked a Fa) Se C D eq_refl).
Qed.

Lemma deep_all : forall x l, Nat.eqb (depth x) 0 = false -> forallb (deep x) l = true.
Proof. intros x l H. apply forallb_forall. intros p _. unfold deep. now rewrite H. Qed.

(** No semicolon in the address. *)
Lemma deep_none : forall x a, match a with Bare w => forallb (fun c => negb (c =? 0x3B)) w | Text _ => true end = true -> forallb (deep x) (address a) = true.
Proof.
  intros x [w|t] H; cbn [address].
  - induction w as [|c w IH]; [reflexivity|]. cbn [forallb] in H. apply andb_true_iff in H. destruct H as [Hc H]. specialize (IH H). cbn [address_parts].
    assert (Dw : forall v, deep x (Word v) = true) by (intros; unfold deep; cbn; apply orb_true_r).
    assert (Ds : deep x (Sign c) = true) by (unfold deep; cbn [is_sign]; rewrite Hc; apply orb_true_r).
    assert (Dm : deep x (Match c) = true) by (unfold deep; cbn; apply orb_true_r).
    destruct (word_char c).
    + destruct (address_parts w) as [|p l]; [cbn; now rewrite Dw|]. destruct p; cbn [forallb] in *; rewrite ?Dw; try exact IH. apply andb_true_iff in IH. now destruct IH.
    + destruct (address_parts w) as [|p l]; [cbn; now rewrite Ds|]. destruct p; try (cbn [forallb] in *; now rewrite Ds).
      destruct (_ && _); cbn [forallb] in *; [|now rewrite Ds]. rewrite Dm. apply andb_true_iff in IH. now destruct IH.
  - cbn. unfold deep. cbn. now rewrite orb_true_r.
Qed.

(** *** Values *)

Definition value_tail (x : separator * term) : list chunk :=
  match fst x with
  | Space => term_chunks Needed (snd x)
  | Comma => sign Loose "," :: term_chunks Loose (snd x)
  | Slash => sign Loose "/" :: term_chunks Loose (snd x)
  end.

Lemma values_eq : forall s t l, values_chunks s (Values t l) = term_chunks s t ++ flat_map value_tail l.
Proof. reflexivity. Qed.

Lemma call_eq : forall s f v, term_chunks s (TCall f v) = (s, Word f) :: sign Tight "(" :: values_chunks Loose v ++ [sign Loose ")"].
Proof. reflexivity. Qed.

Fixpoint values_run (v : values) : forall x s r, values_fine v = true -> selects x = false -> calc x = false -> parens x = 0%nat ->
    Nat.eqb (depth x) 0 = false -> start_of s (last x) = true -> exists k,
    run u x (values_chunks s v ++ r) = run u (set_last x k) r /\ value_end k = true
with term_run (t : term) : forall x s r, term_fine t = true -> selects x = false -> calc x = false -> parens x = 0%nat ->
    Nat.eqb (depth x) 0 = false -> start_of s (last x) = true -> exists k,
    run u x (term_chunks s t ++ r) = run u (set_last x k) r /\ value_end k = true.
Proof.
  - destruct v as [t l]. intros x s r F Se C P Dp St.
    change (term_fine t && forallb (fun x => term_fine (snd x)) l = true) in F. apply andb_true_iff in F. destruct F as [F1 F2].
    rewrite values_eq, <- app_assoc. destruct (term_run t x s (flat_map value_tail l ++ r) F1 Se C P Dp St) as (k1 & E1 & K1). rewrite E1.
    clear E1 F1 St s t. revert k1 K1.
    induction l as [|[c t] l IH]; intros k1 K1.
    + exists k1. split; [reflexivity|exact K1].
    + cbn [forallb fst snd] in F2. apply andb_true_iff in F2. destruct F2 as [Ft F3].
      cbn [flat_map]. unfold value_tail at 1. cbn [fst snd]. destruct c.
      * rewrite <- app_assoc. destruct (term_run t (set_last x k1) Needed (flat_map value_tail l ++ r) Ft Se C P Dp K1) as (k3 & E3 & K3). rewrite E3.
        exact (IH F3 k3 K3).
      * rewrite <- !app_comm_cons, <- app_assoc. change (sign Loose ",") with (Loose, Sign 0x2C).
        rewrite (run_sign (set_last x k1) 0x2C k1); [|cbn; tauto|exact C|reflexivity|exact K1].
        destruct (term_run t (set_last x (KSign 0x2C)) Loose (flat_map value_tail l ++ r) Ft Se C P Dp eq_refl) as (k3 & E3 & K3).
        change (set_last (set_last x k1) (KSign 0x2C)) with (set_last x (KSign 0x2C)). rewrite E3.
        exact (IH F3 k3 K3).
      * rewrite <- !app_comm_cons, <- app_assoc. change (sign Loose "/") with (Loose, Sign 0x2F).
        rewrite (run_sign (set_last x k1) 0x2F k1); [|cbn; tauto|exact C|reflexivity|exact K1].
        destruct (term_run t (set_last x (KSign 0x2F)) Loose (flat_map value_tail l ++ r) Ft Se C P Dp eq_refl) as (k3 & E3 & K3).
        change (set_last (set_last x k1) (KSign 0x2F)) with (set_last x (KSign 0x2F)). rewrite E3.
        exact (IH F3 k3 K3).
  - destruct t as [w|t|f v|e|f a]; intros x s r F Se C P Dp St.
    + exists KWord. split; [|reflexivity]. apply (run_word x s w r); assumption.
    + exists KText. split; [|reflexivity]. apply (run_text x s t r); assumption.
    + change (is_value f && negb (is_url f) && values_fine v = true) in F. apply andb_true_iff in F. destruct F as [F1 F2]. apply andb_true_iff in F1. destruct F1 as [F1 _].
      rewrite call_eq, <- !app_comm_cons, <- app_assoc. rewrite run_word by assumption. rewrite run_call by (assumption || reflexivity).
      destruct (values_run v (set_last x (KSign 0x28)) Loose ([sign Loose ")"] ++ r) F2 Se C P Dp eq_refl) as (k1 & E1 & K1).
      change (set_last (set_last x KWord) (KSign 0x28)) with (set_last x (KSign 0x28)). rewrite E1. cbn [app].
      change (sign Loose ")") with (Loose, Sign 0x29). rewrite (run_sign _ 0x29 k1); [|cbn; tauto|exact C|reflexivity|exact K1].
      exists (KSign 0x29). split; reflexivity.
    + exists (KSign 0x29). split; [|reflexivity]. now apply calc_run.
    + exists (KSign 0x29). split; [|reflexivity]. apply (url_run x s f a r F Se C (deep_all x _ Dp) St).
Qed.

(** *** Declarations *)

Definition inside (d : nat) (a : bool) (l : option kind) : place :=
  {| depth := d; at_rule := a; bracket := false; calc := false; parens := 0; last := l |}.

(** Places of declarations: in the braces of a rule at the top or in an at-rule. *)
Definition body (i : bool) (k : kind) : place := inside (if i then 2 else 1) i (Some k).

Lemma declaration_run : forall i d k r, declaration_fine d = true -> k = KSign 0x7B \/ k = KSign 0x3B -> exists k',
  run u (body i k) (declaration_chunks d ++ r) = run u (body i k') r /\ value_end k' = true.
Proof.
  intros i d k r F K. unfold declaration_fine in F. apply andb_true_iff in F. destruct F as [F1 F2].
  assert (Se : forall k, selects (body i k) = false) by (now destruct i).
  unfold declaration_chunks. rewrite <- !app_comm_cons. rewrite run_word; [|assumption|apply Se|reflexivity|now destruct K; subst].
  change (sign Loose ":") with (Loose, Sign 0x3A).
  rewrite (run_sign _ 0x3A KWord); [|cbn; tauto|reflexivity..].
  exact (values_run (set_to d) (body i (KSign 0x3A)) Loose r F2 (Se _) eq_refl eq_refl (if i as i return Nat.eqb (depth (body i (KSign 0x3A))) 0 = false then eq_refl else eq_refl) eq_refl).
Qed.

Lemma body_sign : forall i k c r, In c (S_ ";") -> value_end k = true ->
  run u (body i k) ((Loose, Sign c) :: r) = run u (body i (KSign c)) r.
Proof.
  intros i k c r I1 V. cbn [run]. rewrite (after_value _ c k); [|cbn in *; tauto|reflexivity|reflexivity|exact V].
  cbn in I1. destruct I1 as [<-|[]]. now destruct i.
Qed.

Definition decl_end (k : kind) : bool := value_end k || match k with KSign c => among (S_ "{;") c | _ => false end.

Lemma declarations_run : forall i l c k r, forallb declaration_fine l = true -> k = KSign 0x7B \/ k = KSign 0x3B -> exists k',
  run u (body i k) (declarations_chunks l c ++ r) = run u (body i k') r /\ decl_end k' = true.
Proof.
  intros i l c. induction l as [|d l IH]; intros k r F K.
  - exists k. split; [reflexivity|]. destruct K; subst; reflexivity.
  - cbn [forallb] in F. apply andb_true_iff in F. destruct F as [F1 F2]. cbn [declarations_chunks]. rewrite <- app_assoc.
    match goal with |- context [declaration_chunks d ++ ?m] => destruct (declaration_run i d k m F1 K) as (k1 & E1 & K1); rewrite E1 end.
    destruct l as [|e l].
    + destruct c.
      * cbn [app]. change (sign Loose ";") with (Loose, Sign 0x3B). rewrite body_sign by (cbn; tauto). eexists. split; [reflexivity|]. reflexivity.
      * exists k1. split; [reflexivity|]. unfold decl_end. now rewrite K1.
    + rewrite <- app_comm_cons. change (sign Loose ";") with (Loose, Sign 0x3B). rewrite body_sign by (cbn; tauto). apply IH; [exact F2|now right].
Qed.

(** Where rules stand: outside braces, or in the block of an at-rule. *)
Definition top (i : bool) (l : option kind) : place := inside (if i then 1 else 0) i l.

Lemma body_shut : forall i k r, decl_end k = true -> run u (body i k) (sign Loose "}" :: r) = run u (top i (Some (KSign 0x7D))) r.
Proof.
  intros i k r D. change (sign Loose "}") with (Loose, Sign 0x7D). unfold decl_end in D. apply orb_true_iff in D.
  destruct k; try (destruct D; discriminate); try (now destruct i).
  assert (E : In c [0x29; 0x7B; 0x3B]) by (destruct D as [D|D]; [apply N.eqb_eq in D; subst; now left | right; apply among_in in D; exact D]).
  cbn in E. destruct i; repeat (destruct E as [<-|E]; [reflexivity|]); contradiction.
Qed.

(** *** Preludes of at-rules *)

Definition prelude (k : kind) : place := inside 0 true (Some k).

Definition condition_end (c : condition) : kind := match c with CWord _ | CPage _ _ => KWord | CString _ => KText | CFeature _ _ | CUrl _ _ => KSign 0x29 end.

Definition signed (c : condition) : bool := match c with CFeature _ _ | CPage None _ => true | _ => false end.

Definition condition_start (s : slot) (k : kind) (c : condition) : bool :=
  match s, k with
  | AfterAt, KAt => true
  | Loose, KSign d => d =? 0x2C
  | Needed, KWord => match c with CPage None _ => false | _ => true end
  | Needed, KText => negb (signed c)
  | Needed, KSign d => (d =? 0x29) && negb (signed c)
  | _, _ => false
  end.

Lemma prelude_open : forall s k c r, condition_start s k c = true -> match c with CFeature _ _ => true | _ => false end = true ->
  run u (prelude k) (sign s "(" :: r) = run u (prelude (KSign 0x28)) r.
Proof.
  intros s k c r K C. destruct c; try discriminate. destruct s; try discriminate; destruct k; try discriminate; cbn [condition_start] in K; try reflexivity.
  - apply N.eqb_eq in K. subst. reflexivity.
  - cbn [signed negb] in K. rewrite andb_false_r in K. discriminate.
Qed.

(** The colon before a page and the word behind it. *)
Lemma prelude_colon : forall s k c r, condition_start s k c = true -> match c with CPage None _ => true | _ => false end = true ->
  run u (prelude k) (sign s ":" :: r) = run u (prelude (KSign 0x3A)) r.
Proof.
  intros s k c r K C. destruct c as [| | | |[w|] p]; try discriminate. destruct s; try discriminate; destruct k; try discriminate; cbn [condition_start] in K; try reflexivity.
  - apply N.eqb_eq in K. subst. reflexivity.
  - cbn [signed negb] in K. rewrite andb_false_r in K. discriminate.
Qed.

Lemma prelude_page : forall p r, is_value p = true -> run u (prelude (KSign 0x3A)) ((Tight, Word p) :: r) = run u (prelude KWord) r.
Proof.
  intros p r F. cbn [run]. rewrite (simple_step (prelude (KSign 0x3A)) (Word p) F eq_refl eq_refl).
  assert (Ok : fit u (prelude (KSign 0x3A)) Tight (Word p) = true); [|now rewrite Ok].
  unfold fit. rewrite (simple_part (prelude (KSign 0x3A)) (Word p) (is_value_word p F) eq_refl eq_refl). reflexivity.
Qed.

Lemma condition_run : forall c s k r, condition_fine c = true -> condition_start s k c = true ->
  run u (prelude k) (condition_chunks s c ++ r) = run u (prelude (condition_end c)) r.
Proof.
  intros c s k r F K. destruct c as [w|t|n v|f a|[w|] p]; cbn [condition_fine condition_chunks condition_end] in *.
  1,2,4,5: assert (St : start_of s (Some k) = true) by
    (destruct s; try discriminate; destruct k; try discriminate; cbn [condition_start start_of value_end] in *; try reflexivity;
      [apply N.eqb_eq in K; subst; reflexivity | cbn [signed negb] in K; rewrite andb_true_r in K; exact K]).
  - cbn [app]. apply (run_word (prelude k)); [exact F|reflexivity..|exact St].
  - cbn [app]. apply (run_text (prelude k)); [exact F|reflexivity..|exact St].
  - apply andb_true_iff in F. destruct F as [F D]. apply (url_run (prelude k) s f a r F eq_refl eq_refl (deep_none _ a D) St).
  - apply andb_true_iff in F. destruct F as [F G]. cbn [app]. rewrite (run_word (prelude k) s w _ G eq_refl eq_refl St).
    exact (prelude_page p r F).
  - apply andb_true_iff in F. destruct F as [F1 F2]. rewrite <- !app_comm_cons, (prelude_open s k (CFeature n v)) by (exact K || reflexivity).
    rewrite run_word by (assumption || reflexivity). destruct v as [w|]; cbn [app].
    + change (sign Loose ":") with (Loose, Sign 0x3A). rewrite (run_sign _ 0x3A KWord); [|cbn; tauto|reflexivity..].
      rewrite run_word by (assumption || reflexivity). change (sign Loose ")") with (Loose, Sign 0x29). rewrite (run_sign _ 0x29 KWord); [|cbn; tauto|reflexivity..]. reflexivity.
    + change (sign Loose ")") with (Loose, Sign 0x29). rewrite (run_sign _ 0x29 KWord); [|cbn; tauto|reflexivity..]. reflexivity.
  - apply andb_true_iff in F. destruct F as [F _]. cbn [app]. rewrite (prelude_colon s k (CPage None p)) by (exact K || reflexivity). exact (prelude_page p r F).
Qed.

Lemma conditions_run : forall l c r, conditions_fine c l = true -> exists k,
  run u (prelude KAt) (conditions_chunks c l ++ r) = run u (prelude k) r /\ value_end k = true.
Proof.
  intros l c r F. unfold conditions_chunks. rewrite <- app_assoc. rewrite condition_run; [|destruct l; apply andb_true_iff in F; tauto|reflexivity].
  revert c F. induction l as [|[b d] l IH]; intros c F.
  - exists (condition_end c). split; [reflexivity|]. now destruct c.
  - cbn [conditions_fine] in F. apply andb_true_iff in F. destruct F as [Fc F]. apply andb_true_iff in F. destruct F as [Fs Fd].
    assert (Fd' : condition_fine d = true) by (destruct l; apply andb_true_iff in Fd; tauto).
    cbn [flat_map fst snd]. destruct b.
    + rewrite <- !app_comm_cons, <- app_assoc. change (sign Loose ",") with (Loose, Sign 0x2C).
      rewrite (run_sign _ 0x2C (condition_end c)); [|cbn; tauto|reflexivity|reflexivity|now destruct c].
      change (set_last (prelude (condition_end c)) (KSign 0x2C)) with (prelude (KSign 0x2C)).
      rewrite condition_run by (assumption || reflexivity). exact (IH d Fd).
    + rewrite <- app_assoc. rewrite condition_run; [exact (IH d Fd)|exact Fd'|]. cbn [orb] in Fs. destruct d as [| | | |[?|] ?], c; try discriminate; reflexivity.
Qed.

End Rules.
