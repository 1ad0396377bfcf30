(** Rules as chunks: declarations in the block of an at-rule. *)
From Coq Require Import String Arith List NArith Bool Lia.
From Verif Require Import Base CssPlainSpec CssRulesSpec CssRulesProofs1 CssRulesProofs2.
Import ListNotations.
Open Scope N_scope.

Section Direct.
Variable u : N -> bool.
Notation passes := (passes u).

(** Where such a declaration stands. *)
Definition open_at (k : kind) : place := top true (Some k).

Definition worded (k : kind) : Prop := k = KWord \/ k = KElement.
Definition ended (k : kind) : Prop := worded k \/ k = KText \/ k = KSign 0x29.

Lemma at_word : forall w, a_word w = true -> begins (N.eqb 0x2A) w = false.
Proof. intros w H. now apply word_begins. Qed.

Lemma word_step : forall k w, is_value w = true -> exists k', step u (open_at k) (Word w) = open_at k' /\ worded k'.
Proof.
  intros k w H. unfold is_value in H. apply andb_true_iff in H. destruct H as [_ H]. apply negb_true_iff in H.
  assert (K : kind_of u (open_at k) (Word w) = KElement \/ kind_of u (open_at k) (Word w) = KWord) by (unfold kind_of; destruct (_ && _); auto).
  unfold step. destruct K as [->| ->]; [exists KElement|exists KWord; rewrite H]; (split; [reflexivity|]); [now right|now left].
Qed.

(** What may stand before a word or a string. *)
Definition begun (s : slot) (k : kind) : Prop :=
  (s = Loose /\ exists c, k = KSign c /\ In c (S_ "{;,/(")) \/ (s = Needed /\ ended k) \/ (s = Blanks /\ k = KSign 0x28).

Lemma word_fit : forall s k w, begun s k -> a_word w = true -> no_at w = true -> fit u (open_at k) s (Word w) = true.
Proof.
  intros s k w B W A. unfold no_at in A. apply negb_true_iff in A. pose proof (at_word w W) as St.
  assert (P : part_ok (open_at k) (Word w) = true) by (unfold part_ok; rewrite W, A; cbn; now rewrite ?andb_false_r).
  unfold fit. rewrite P. cbn [andb].
  assert (D : forall k, (exists c, k = KSign c /\ c <> 0x3A) \/ k = KText -> direct_ok (open_at k) (Word w) = true).
  { intros k' Hk. unfold direct_ok, would_match, after. cbn [part_text]. rewrite St, ?andb_false_r. cbn [is_sign andb negb wordy].
    destruct Hk as [(c & -> & N)| ->]; [|reflexivity]. cbn [open_at top inside last]. apply N.eqb_neq in N. now rewrite N. }
  assert (K : forall c, kept_before u (open_at (KSign c)) (Word w) = keeps false (KSign c) (Some (if names u w && negb (c =? 0x3A) then KElement else KWord))).
  { intros c. unfold kept_before. cbn. rewrite andb_comm. reflexivity. }
  destruct B as [(-> & c & -> & I)|[(-> & E)|(-> & ->)]].
  - assert (Nc : c <> 0x3A) by (intros ->; cbn in I; intuition discriminate). rewrite (D _ (or_introl (ex_intro _ c (conj eq_refl Nc)))).
    cbn in I. repeat (destruct I as [<-|I]; [rewrite K; unfold no_joining, would_match, after; cbn; now destruct (names u w)|]). contradiction.
  - destruct E as [[->| ->]|[->| ->]]; unfold no_joining, would_match, after, kept_before; cbn; try reflexivity; now destruct (names u w).
  - assert (Nc : 0x28 <> 0x3A) by discriminate. rewrite (D (KSign 0x28) (or_introl (ex_intro _ 0x28 (conj eq_refl Nc)))). unfold no_joining, would_match, after. rewrite K. cbn. now destruct (names u w).
Qed.

Lemma word_passes : forall s k w r, begun s k -> is_value w = true -> no_at w = true -> (forall k', worded k' -> passes (open_at k') r) ->
  passes (open_at k) ((s, Word w) :: r).
Proof.
  intros s k w r B W A C. apply pa_part; [apply word_fit; [exact B|now apply is_value_word|exact A]|]. destruct (word_step k w W) as (k' & -> & K). now apply C.
Qed.

Lemma text_passes : forall s k t r, begun s k \/ (s = Blanks /\ k = KSign 0x3A) -> is_string t = true -> passes (open_at KText) r ->
  passes (open_at k) ((s, Quoted t) :: r).
Proof.
  intros s k t r B T C. apply pa_part; [|exact C]. assert (St : begins (N.eqb 0x2A) t = false) by now apply string_begins.
  assert (P : part_ok (open_at k) (Quoted t) = true) by exact T.
  unfold fit. rewrite P. cbn [andb]. unfold direct_ok, no_joining, would_match, after, kept_before. cbn [part_text]. rewrite St, ?andb_false_r.
  destruct B as [[(-> & c & -> & I)|[(-> & E)|(-> & ->)]]|(-> & ->)].
  - cbn in I. repeat (destruct I as [<-|I]; [reflexivity|]). contradiction.
  - destruct E as [[->| ->]|[->| ->]]; reflexivity.
  - reflexivity.
  - reflexivity.
Qed.

Lemma sign_passes : forall k c r, ended k -> In c (S_ "),/;") -> passes (open_at (KSign c)) r -> passes (open_at k) ((Loose, Sign c) :: r).
Proof.
  intros k c r E I C. apply pa_part; cbn in I.
  - destruct E as [[->| ->]|[->| ->]]; repeat (destruct I as [<-|I]; [reflexivity|]); contradiction.
  - destruct E as [[->| ->]|[->| ->]]; repeat (destruct I as [<-|I]; [exact C|]); contradiction.
Qed.

Lemma open_passes : forall k r, worded k -> passes (open_at (KSign 0x28)) r -> passes (open_at k) (sign Tight "(" :: r).
Proof. intros k r [->| ->] C; (apply pa_part; [reflexivity|exact C]). Qed.

(** *** Addresses *)

Definition no_ats (p : part) : bool := match p with Word w => no_at w | _ => true end.

Definition follows (p : part) (k : kind) : Prop :=
  match p with Word _ => worded k | Sign c => k = KSign c | _ => k = KText end.

Definition parted (p : part) (l : list part) : Prop :=
  match p, l with Sign c, Word _ :: _ => c <> 0x3A | _, _ => True end.

Definition shutting (k : kind) : Prop := worded k \/ k = KText \/ exists c, k = KSign c /\ In c (S_ "(,>:;/+=*|~$^").

Lemma shut_passes : forall k r, shutting k -> passes (open_at (KSign 0x29)) r -> passes (open_at k) (sign Blanks ")" :: r).
Proof.
  intros k r [[->| ->]|[->|(c & -> & I)]] C; (apply pa_part; [|exact C]); try reflexivity. cbn in I. repeat (destruct I as [<-|I]; [reflexivity|]). contradiction.
Qed.

Lemma follows_shutting : forall p k, piece p = true -> follows p k -> shutting k.
Proof.
  intros p k P F. destruct p; try discriminate; cbn [follows] in F.
  - now left.
  - right. now left.
  - right. right. exists c. split; [exact F|]. right. now apply among_in in P.
  - right. now left.
Qed.

Lemma piece_step : forall k p, piece p = true -> exists k', step u (open_at k) p = open_at k' /\ follows p k'.
Proof.
  intros k p P. destruct p; try discriminate; cbn [piece] in P.
  - now apply word_step.
  - eexists. split; reflexivity.
  - apply among_in in P. cbn in P. exists (KSign c). split; [|reflexivity]. repeat (destruct P as [<-|P]; [reflexivity|]). contradiction.
  - eexists. split; reflexivity.
Qed.

Lemma piece_ok : forall k q, piece q = true -> no_ats q = true -> part_ok (open_at k) q = true.
Proof.
  intros k q P A. destruct q as [w|w|w|t|c|c|c b|c]; try discriminate; unfold part_ok; cbn [piece no_ats] in *.
  - unfold no_at in A. apply negb_true_iff in A. rewrite (is_value_word w P), A. cbn. now rewrite ?andb_false_r.
  - exact P.
  - apply among_in in P. cbn in P. repeat (destruct P as [<-|P]; [reflexivity|]). contradiction.
  - exact P.
Qed.

(** What may follow directly. *)
Lemma piece_fit : forall p q k, piece p = true -> piece q = true -> no_ats q = true -> joins p q = true -> parted p [q] -> follows p k ->
  fit u (open_at k) Tight q = true.
Proof.
  intros p q k Pp Pq A J D F. unfold fit. rewrite (piece_ok k q Pq A).
  assert (NL : match q with Licence c _ => c =? 0x21 | Escape _ => false | _ => true end = true) by (destruct q; try discriminate; reflexivity). rewrite NL.
  assert (N1 : negb (last_at (open_at k)) = true) by (destruct p; try discriminate; cbn [follows] in F; try subst; try reflexivity; destruct F; subst; reflexivity).
  assert (N2 : negb (last_notice (open_at k)) = true) by (destruct p; try discriminate; cbn [follows] in F; try subst; try reflexivity; destruct F; subst; reflexivity).
  rewrite N1, N2, !andb_true_r. cbn [andb].
  unfold direct_ok, would_match, after. cbn [open_at top inside last].
  destruct q as [w|w|w|t|c|c|c b|c]; try discriminate; cbn [is_sign wordy part_text andb negb piece] in *; rewrite ?andb_false_r; cbn [andb negb].
  - rewrite (at_word w (is_value_word w Pq)), andb_false_r. cbn [negb andb]. destruct p; try discriminate; cbn [follows] in F; try (subst; reflexivity).
    subst k. cbn [parted] in D. apply N.eqb_neq in D. now rewrite D.
  - rewrite (string_begins t 0x2A Pq eq_refl), andb_false_r. reflexivity.
  - cbn [begins]. destruct p as [w|w|w|t|d|d|d b|d]; try discriminate; cbn [follows] in F; try (destruct F as [->| ->]); try subst k; rewrite ?andb_false_r; try reflexivity.
    cbn [joins] in J. rewrite (N.eqb_sym 0x2A c). apply andb_true_iff in J. destruct J as [-> ->]. reflexivity.
  - cbn [begins]. destruct p as [w|w|w|t|d|d|d b|d]; try discriminate; cbn [follows] in F; try (destruct F as [->| ->]); try subst k; rewrite ?andb_false_r; try reflexivity.
    cbn [joins] in J. rewrite (N.eqb_sym 0x2A c), J. reflexivity.
Qed.

Lemma pseudo_fit : forall p w k, piece p = true -> a_word w = true -> follows p k -> fit u (open_at k) Tight (Pseudo w) = true.
Proof.
  intros p w k P W F. unfold fit, part_ok, direct_ok, would_match, after. rewrite W.
  destruct p; try discriminate; cbn [follows] in F; try (destruct F as [->| ->]); try subst k; try reflexivity.
  cbn. now rewrite ?andb_false_r.
Qed.

Lemma colon_step : forall k w, step u (open_at k) (Pseudo w) = open_at KElement.
Proof. reflexivity. Qed.

Lemma parts_passes : forall n l p k r, (length l <= n)%nat -> linked (p :: l) = true -> forallb no_ats l = true -> follows p k -> parted p l ->
  (forall k', shutting k' -> passes (open_at k') r) -> passes (open_at k) (map (pair Tight) l ++ r).
Proof.
  induction n as [|n IH]; intros l p k r Hn L A F D C; (destruct l as [|q l]; [apply C, (follows_shutting p); [cbn [linked] in L; rewrite !andb_true_iff in L; tauto|exact F]|]).
  { cbn in Hn. lia. }
  cbn [linked] in L. apply andb_true_iff in L. destruct L as [L L2]. apply andb_true_iff in L. destruct L as [Pp J].
  pose proof L2 as L3. cbn [linked] in L3. apply andb_true_iff in L3. destruct L3 as [L3 L4]. apply andb_true_iff in L3. destruct L3 as [Pq Jq].
  cbn [forallb] in A. apply andb_true_iff in A. destruct A as [Aq A]. cbn [length] in Hn. cbn [map app].
  assert (D1 : parted p [q]) by (destruct p; try exact I; destruct q; try exact I; exact D).
  pose proof (piece_fit p q k Pp Pq Aq J D1 F) as Fq.
  assert (Plain : parted q l -> passes (open_at k) ((Tight, q) :: map (pair Tight) l ++ r)).
  { intro Dq. apply pa_part; [exact Fq|]. destruct (piece_step k q Pq) as (k' & -> & K). apply (IH l q k' r); try assumption. lia. }
  destruct q as [w|w|w|t|c|c|c b|c]; try (apply Plain; exact I). destruct l as [|[w|w|w|t|d|d|d b|d] l]; try (apply Plain; exact I).
  destruct (N.eq_dec c 0x3A) as [->|Nc]; [|apply Plain; exact Nc].
  cbn [linked] in L4. apply andb_true_iff in L4. destruct L4 as [L4 L5]. pose proof L4 as L6. apply andb_true_iff in L4. destruct L4 as [Pw _]. cbn [piece] in Pw.
  cbn [map app]. apply pa_colon; [reflexivity|now left|now apply is_value_word|exact Fq|apply (pseudo_fit p); [exact Pp|now apply is_value_word|exact F]| |discriminate].
  rewrite colon_step. cbn [forallb] in A. apply andb_true_iff in A. apply (IH l (Word w) KElement r); [cbn [length] in Hn; lia| |exact (proj2 A)|now right|exact I|exact C].
  cbn [linked]. now rewrite L6, L5.
Qed.

Lemma first_fit : forall q, piece q = true -> no_ats q = true -> fit u (open_at (KSign 0x28)) Blanks q = true.
Proof.
  intros q P A. unfold fit. rewrite (piece_ok _ q P A). destruct q as [w|w|w|t|c|c|c b|c]; try discriminate.
  - unfold no_joining, kept_before, direct_ok, would_match, after. cbn. rewrite ?andb_false_r. now destruct (names u w).
  - cbn. unfold direct_ok, would_match, after. cbn. now rewrite ?andb_false_r.
  - unfold no_joining, kept_before, direct_ok, would_match, after. cbn. now rewrite ?andb_false_r.
  - unfold no_joining, kept_before, direct_ok, would_match, after. cbn. now rewrite ?andb_false_r.
Qed.

Lemma address_passes : forall l r, linked l = true -> forallb no_ats l = true -> passes (open_at (KSign 0x29)) r ->
  passes (open_at (KSign 0x28)) (first_tight Blanks (map (pair Tight) l) ++ sign Blanks ")" :: r).
Proof.
  intros [|q l] r L A C; cbn [map first_tight app]; [apply shut_passes; [right; right; exists 0x28; split; [reflexivity|cbn; tauto]|exact C]|].
  pose proof L as L3. cbn [linked] in L3. apply andb_true_iff in L3. destruct L3 as [L3 L4]. apply andb_true_iff in L3. destruct L3 as [Pq Jq].
  pose proof A as A0. cbn [forallb] in A. apply andb_true_iff in A. destruct A as [Aq A].
  pose proof (first_fit q Pq Aq) as Fq.
  assert (Cs : forall k', shutting k' -> passes (open_at k') (sign Blanks ")" :: r)) by (intros; now apply shut_passes).
  assert (Plain : parted q l -> passes (open_at (KSign 0x28)) ((Blanks, q) :: map (pair Tight) l ++ sign Blanks ")" :: r)).
  { intro Dq. apply pa_part; [exact Fq|]. destruct (piece_step (KSign 0x28) q Pq) as (k' & -> & K). now apply (parts_passes (length l) l q). }
  destruct q as [w|w|w|t|c|c|c b|c]; try (apply Plain; exact I). destruct l as [|[w|w|w|t|d|d|d b|d] l]; try (apply Plain; exact I).
  destruct (N.eq_dec c 0x3A) as [->|Nc]; [|apply Plain; exact Nc].
  cbn [linked] in L4. pose proof L4 as L6. apply andb_true_iff in L4. destruct L4 as [L4 L5]. apply andb_true_iff in L4. destruct L4 as [Pw _]. cbn [piece] in Pw.
  cbn [map app]. apply pa_colon; [reflexivity|now left|now apply is_value_word|exact Fq| | |discriminate].
  - unfold fit, part_ok. now rewrite (is_value_word w Pw).
  - rewrite colon_step. cbn [forallb] in A. apply andb_true_iff in A. apply (parts_passes (length l) l (Word w)); [lia|exact L6|exact (proj2 A)|now right|exact I|exact Cs].
Qed.

Lemma address_no_ats : forall a, match a with Bare w => forallb (fun c => negb (c =? 0x40)) w | Text _ => true end = true -> forallb no_ats (address a) = true.
Proof.
  intros [w|t] H; [|reflexivity]. cbn [address]. induction w as [|c w IH]; [reflexivity|]. cbn [forallb] in H. apply andb_true_iff in H. destruct H as [Hc H]. specialize (IH H).
  cbn [address_parts]. assert (Nc : forall v, no_at (c :: v) = true) by (intro v; unfold no_at; cbn [begins]; now rewrite N.eqb_sym).
  destruct (word_char c).
  - destruct (address_parts w) as [|[v|v|v|t|d|d|d b|d] l]; cbn [forallb no_ats] in *; rewrite ?Nc; try exact IH; try reflexivity. apply andb_true_iff in IH. exact (proj2 IH).
  - destruct (address_parts w) as [|[v|v|v|t|d|d|d b|d] l]; cbn [forallb no_ats] in *; try exact IH; try reflexivity. destruct ((d =? 0x3D) && _); exact IH.
Qed.

Lemma url_no_at : forall f, is_url f = true -> no_at f = true.
Proof.
  intros [|c f] H; [reflexivity|]. unfold no_at. cbn [begins]. apply negb_true_iff, N.eqb_neq. intros <-. unfold is_url in H. cbn in H. discriminate.
Qed.

(** *** Values *)

Definition head_part (t : term) : part :=
  match t with TWord w => Word w | TString t => Quoted t | TCall f _ => Word f | TCalc _ => Word (S_ "calc") | TUrl f _ => Word f end.

Definition term_tail (t : term) : list chunk := tl (term_chunks Tight t).

Lemma term_split : forall s t, term_chunks s t = (s, head_part t) :: term_tail t.
Proof. intros s []; reflexivity. Qed.

Definition head_kind (t : term) (k : kind) : Prop := match t with TString _ => k = KText | _ => worded k end.

Lemma head_passes : forall s k t r, begun s k -> term_fine t = true -> direct_term t = true -> (forall k', head_kind t k' -> passes (open_at k') r) ->
  passes (open_at k) ((s, head_part t) :: r).
Proof.
  intros s k t r B F D C. destruct t as [w|t|f v|e|f a]; cbn [head_part].
  - now apply word_passes.
  - apply text_passes; [now left|exact F|now apply C].
  - change (is_value f && negb (is_url f) && values_fine v = true) in F. change (no_at f && direct_values v = true) in D. rewrite !andb_true_iff in F. rewrite !andb_true_iff in D. destruct F as [[F _] _], D as [D _]. apply word_passes; assumption.
  - discriminate.
  - change (url_fine f a = true) in F. unfold url_fine in F. rewrite !andb_true_iff in F. apply word_passes; [exact B|tauto|apply url_no_at; tauto|exact C].
Qed.

Fixpoint tail_passes (t : term) : forall k r, term_fine t = true -> direct_term t = true -> head_kind t k ->
    (forall k', ended k' -> passes (open_at k') r) -> passes (open_at k) (term_tail t ++ r)
with values_passes (v : values) : forall s k r, values_fine v = true -> direct_values v = true -> begun s k ->
    (forall k', ended k' -> passes (open_at k') r) -> passes (open_at k) (values_chunks s v ++ r).
Proof.
  - destruct t as [w|t|f v|e|f a]; intros k r F D K C.
    + apply C. now left.
    + apply C. right. now left.
    + change (is_value f && negb (is_url f) && values_fine v = true) in F. change (no_at f && direct_values v = true) in D. rewrite !andb_true_iff in F. rewrite !andb_true_iff in D.
      change (term_tail (TCall f v)) with (sign Tight "(" :: values_chunks Loose v ++ [sign Loose ")"]). rewrite <- app_comm_cons, <- app_assoc.
      apply open_passes; [exact K|]. apply values_passes; [tauto|tauto|left; split; [reflexivity|exists 0x28; split; [reflexivity|cbn; tauto]]|].
      intros k' E. cbn [app]. apply (sign_passes k' 0x29); [exact E|cbn; tauto|]. apply C. right. now right.
    + discriminate.
    + change (url_fine f a = true) in F. unfold url_fine in F. rewrite !andb_true_iff in F.
      change (term_tail (TUrl f a)) with (sign Tight "(" :: first_tight Blanks (map (pair Tight) (address a)) ++ [sign Blanks ")"]). rewrite <- app_comm_cons, <- app_assoc.
      apply open_passes; [exact K|]. apply address_passes; [apply address_linked; tauto|now apply address_no_ats|]. apply C. right. now right.
  - destruct v as [t l]. intros s k r F D B C.
    change (term_fine t && forallb (fun x => term_fine (snd x)) l = true) in F. change (direct_term t && forallb (fun x => direct_term (snd x)) l = true) in D.
    apply andb_true_iff in F, D. destruct F as [F1 F2], D as [D1 D2].
    rewrite values_eq, term_split, <- !app_comm_cons, <- app_assoc. apply head_passes; [exact B|exact F1|exact D1|]. intros k1 K1.
    apply (tail_passes t); [exact F1|exact D1|exact K1|]. clear - tail_passes F2 D2 C.
    induction l as [|[c t] l IH]; intros k1 E1; [now apply C|].
    cbn [forallb fst snd] in F2, D2. apply andb_true_iff in F2, D2. destruct F2 as [Ft F2], D2 as [Dt D2]. cbn [flat_map]. unfold value_tail at 1. cbn [fst snd]. destruct c.
    + rewrite term_split, <- !app_comm_cons, <- app_assoc. apply head_passes; [right; left; split; [reflexivity|exact E1]|exact Ft|exact Dt|]. intros k2 K2.
      apply (tail_passes t); [exact Ft|exact Dt|exact K2|]. now apply IH.
    + rewrite term_split, <- !app_comm_cons, <- app_assoc. apply (sign_passes k1 0x2C); [exact E1|cbn; tauto|]. apply head_passes; [left; split; [reflexivity|exists 0x2C; split; [reflexivity|cbn; tauto]]|exact Ft|exact Dt|]. intros k2 K2.
      apply (tail_passes t); [exact Ft|exact Dt|exact K2|]. now apply IH.
    + rewrite term_split, <- !app_comm_cons, <- app_assoc. apply (sign_passes k1 0x2F); [exact E1|cbn; tauto|]. apply head_passes; [left; split; [reflexivity|exists 0x2F; split; [reflexivity|cbn; tauto]]|exact Ft|exact Dt|]. intros k2 K2.
      apply (tail_passes t); [exact Ft|exact Dt|exact K2|]. now apply IH.
Qed.

(** The value behind the colon. *)
Lemma colon_passes : forall k t r, worded k -> term_fine t = true -> direct_term t = true -> (forall k', head_kind t k' -> passes (open_at k') r) ->
  passes (open_at k) (sign Tight ":" :: (Blanks, head_part t) :: r).
Proof.
  intros k t r K F D C. change (sign Tight ":") with (Tight, Sign 0x3A).
  assert (Wd : forall w, is_value w = true -> (forall k', worded k' -> passes (open_at k') r) -> passes (open_at k) ((Tight, Sign 0x3A) :: (Blanks, Word w) :: r)).
  { intros w W Cw. apply pa_colon; [reflexivity|now right|now apply is_value_word|destruct K; subst; reflexivity| |apply Cw; now right|].
    - unfold fit, part_ok. rewrite (is_value_word w W). destruct K; subst; reflexivity.
    - intros _. change (step u (open_at k) (Sign 0x3A)) with (open_at (KSign 0x3A)). destruct (word_step (KSign 0x3A) w W) as (k' & -> & K'). now apply Cw. }
  destruct t as [w|t|f v|e|f a]; cbn [head_part].
  - now apply Wd.
  - apply pa_part; [destruct K; subst; reflexivity|]. apply text_passes; [right; now split|exact F|now apply C].
  - change (is_value f && negb (is_url f) && values_fine v = true) in F. rewrite !andb_true_iff in F. apply Wd; [tauto|exact C].
  - discriminate.
  - change (url_fine f a = true) in F. unfold url_fine in F. rewrite !andb_true_iff in F. apply Wd; [tauto|exact C].
Qed.

Lemma direct_declaration_passes : forall d k r, declaration_fine d = true -> direct_fine d = true -> k = KSign 0x7B \/ k = KSign 0x3B ->
  (forall k', ended k' -> passes (open_at k') r) -> passes (open_at k) (direct_declaration d ++ r).
Proof.
  intros [p [t l]] k r F D K C. unfold declaration_fine in F. unfold direct_fine in D. cbn [property set_to] in *. apply andb_true_iff in F, D. destruct F as [Fp Fv], D as [Dp Dv].
  unfold direct_declaration. cbn [property set_to]. rewrite <- !app_comm_cons. apply word_passes; [left; split; [reflexivity|]; destruct K; subst; eexists; (split; [reflexivity|cbn; tauto])|exact Fp|exact Dp|].
  intros k1 K1. change (term_fine t && forallb (fun x => term_fine (snd x)) l = true) in Fv. change (direct_term t && forallb (fun x => direct_term (snd x)) l = true) in Dv.
  apply andb_true_iff in Fv, Dv. destruct Fv as [Ft Fl], Dv as [Dt Dl]. rewrite values_eq, term_split, <- !app_comm_cons, <- app_assoc. apply colon_passes; [exact K1|exact Ft|exact Dt|].
  intros k2 K2. apply (tail_passes t); [exact Ft|exact Dt|exact K2|]. clear - Fl Dl C.
  induction l as [|[c t] l IH]; intros k1 E1; [now apply C|].
  cbn [forallb fst snd] in Fl, Dl. apply andb_true_iff in Fl, Dl. destruct Fl as [Ft Fl], Dl as [Dt Dl]. cbn [flat_map]. unfold value_tail at 1. cbn [fst snd]. destruct c.
  + rewrite term_split, <- !app_comm_cons, <- app_assoc. apply head_passes; [right; left; split; [reflexivity|exact E1]|exact Ft|exact Dt|]. intros k2 K2.
    apply (tail_passes t); [exact Ft|exact Dt|exact K2|]. now apply IH.
  + rewrite term_split, <- !app_comm_cons, <- app_assoc. apply (sign_passes k1 0x2C); [exact E1|cbn; tauto|]. apply head_passes; [left; split; [reflexivity|exists 0x2C; split; [reflexivity|cbn; tauto]]|exact Ft|exact Dt|]. intros k2 K2.
    apply (tail_passes t); [exact Ft|exact Dt|exact K2|]. now apply IH.
  + rewrite term_split, <- !app_comm_cons, <- app_assoc. apply (sign_passes k1 0x2F); [exact E1|cbn; tauto|]. apply head_passes; [left; split; [reflexivity|exists 0x2F; split; [reflexivity|cbn; tauto]]|exact Ft|exact Dt|]. intros k2 K2.
    apply (tail_passes t); [exact Ft|exact Dt|exact K2|]. now apply IH.
Qed.

Definition body_end (k : kind) : Prop := ended k \/ k = KSign 0x7B \/ k = KSign 0x3B.

Lemma direct_declarations_passes : forall l cl k r, forallb declaration_fine l = true -> forallb direct_fine l = true -> k = KSign 0x7B \/ k = KSign 0x3B ->
  (forall k', body_end k' -> passes (open_at k') r) -> passes (open_at k) (direct_declarations l cl ++ r).
Proof.
  induction l as [|d l IH]; intros cl k r F D K C; [apply C; now right|].
  cbn [forallb] in F, D. apply andb_true_iff in F, D. destruct F as [F1 F2], D as [D1 D2]. cbn [direct_declarations]. rewrite <- app_assoc.
  apply direct_declaration_passes; [exact F1|exact D1|exact K|]. intros k1 E1. destruct l as [|e l].
  - destruct cl; [|apply C; now left]. cbn [app]. apply (sign_passes k1 0x3B); [exact E1|cbn; tauto|]. apply C. right. now right.
  - rewrite <- app_comm_cons. apply (sign_passes k1 0x3B); [exact E1|cbn; tauto|]. apply IH; [exact F2|exact D2|now right|exact C].
Qed.

Lemma direct_body_passes : forall d cl r, body_fine d cl = true -> forallb direct_fine d = true -> passes (top false (Some (KSign 0x7D))) r ->
  passes (open_at (KSign 0x7B)) ((direct_declarations d cl ++ [sign Loose "}"]) ++ r).
Proof.
  intros d cl r F D C. unfold body_fine in F. apply andb_true_iff in F. destruct F as [F _]. rewrite <- app_assoc.
  apply direct_declarations_passes; [exact F|exact D|now left|]. intros k K. change ([sign Loose "}"] ++ r) with ((Loose, Sign 0x7D) :: r).
  destruct K as [[[->| ->]|[->| ->]]|[->| ->]]; (apply pa_part; [reflexivity|exact C]).
Qed.
End Direct.
