(** The documented aggregation of plain programs: the text, its tokens and its tree. *)
From Coq Require Import String List NArith ZArith Bool Lia ZifyBool ZifyN Arith Permutation.
From Verif Require Import Base JsModel JsUtilModel JsUtilSpec JsUtilProofs JsUtilProofs2 JsLexSpec
  JsLexProofs1 JsLexProofs2 JsLexProofs3 JsWords JsLexProofs4 JsLexProofs6 JsRoundSpec JsRoundProofs1 JsRoundProofs2 JsRoundProofs3
  JsLayoutSpec JsLayoutProofs JsAggModel JsAggSpec JsAggProofs3 JsPipeSpec JsPipeProofs
  EsSpec EsProofs1 EsProofs2 JsPlainSpec JsPlainProofs1 JsPlainProofs2 JsTreeSpec JsTreeProofs1 JsTreeProofs4 JsTreeProofs5
  JsAggTreeSpec JsAggTreeProofs1.
Import ListNotations.
Open Scope N_scope.

Section T.
Variables start_u part_u : N -> bool.
Notation id_part := (EsSpec.id_part start_u part_u).
Notation plain_piece := (JsPlainSpec.plain_piece start_u part_u).
Notation splain := (JsPlainSpec.plain start_u part_u).
Notation runs_on := (EsSpec.runs_on start_u part_u).
Notation sapart := (JsPlainSpec.apart start_u part_u).
Notation pairs := (Forall2 (fun e ts => plain_piece e = true /\ mins e ts)).

(** ** Tokens of one piece *)

Lemma punct_in : forall e, plain_piece e = true -> fst e = Punct -> In (snd e) puncts.
Proof.
  intros e H K. destruct (piece_shape _ _ e H) as (c & s & E & M). rewrite K in M. destruct M as (M & _). unfold is_punct in M.
  apply existsb_exists in M. destruct M as (q & I & Q). apply str_eqb_eq in Q. rewrite Q. exact I.
Qed.

Definition neutral (t : token) : bool := negb (wordy t) && match t with TString _ | TCreatedVar _ => false | _ => true end.

Lemma sign_neutral : forall e, plain_piece e = true -> fst e = Punct -> forallb neutral (sign_tokens (snd e)) = true.
Proof.
  intros e H K. pose proof (punct_in e H K) as I.
  assert (F : forallb (fun p => forallb neutral (sign_tokens p)) puncts = true) by (vm_compute; reflexivity). rewrite forallb_forall in F. exact (F _ I).
Qed.

Lemma word_token_other : forall w y, word_token w = TOther y -> y = w.
Proof.
  intros w y H. unfold word_token in H. destruct (keyword_of w); [discriminate H|]. destruct (u64_of w); [discriminate H|]. destruct (f64_ok w); [discriminate H|]. now injection H.
Qed.

(** A word, a quoted literal, or neutral tokens. *)
Lemma mins_cases : forall e ts, plain_piece e = true -> mins e ts ->
  (word e = true /\ quoted e = false /\ ts = [word_token (snd e)])
  \/ (word e = false /\ quoted e = true /\ ts = [TString (snd e)])
  \/ (word e = false /\ quoted e = false /\ forallb neutral ts = true).
Proof.
  intros e ts H M. pose proof (sign_neutral e H) as SN. unfold mins in M. unfold word, quoted. destruct (fst e) eqn:Q; try contradiction; auto.
  - right. right. subst ts. auto.
  - right. right. destruct M as (b & g & i & -> & _). auto.
Qed.

Lemma occ_neutral : forall ts s, forallb neutral ts = true -> occurrences ts s = 0%nat.
Proof.
  intros ts s H. unfold occurrences. induction ts as [|t ts IH]; [reflexivity|]. cbn [forallb] in H. apply andb_true_iff in H. destruct H as [A B]. cbn [filter].
  destruct t; try exact (IH B). discriminate A.
Qed.

Lemma occ_word : forall w s, occurrences [word_token w] s = 0%nat.
Proof. intros w s. unfold occurrences. cbn [filter]. pose proof (word_token_wordy w) as W. destruct (word_token w); try reflexivity. discriminate W. Qed.

Lemma times_occ : forall ps tss s, pairs ps tss -> occurrences (concat tss) s = times ps s.
Proof.
  intros ps tss s F. induction F as [|e ts ps tss [P M] F IH]; [reflexivity|]. cbn [concat]. rewrite occurrences_app, IH. unfold times. cbn [filter].
  destruct (mins_cases e ts P M) as [(_ & -> & ->)|[(_ & -> & ->)|(_ & -> & N)]]; cbn [andb].
  - rewrite occ_word. reflexivity.
  - unfold occurrences. cbn [filter]. destruct (str_eqb (snd e) s); reflexivity.
  - rewrite (occ_neutral _ _ N). reflexivity.
Qed.

Lemma twice_repeated : forall ps tss e, pairs ps tss -> quoted e = true -> twice (concat tss) (TString (snd e)) = repeated ps e.
Proof. intros ps tss e F Q. cbn [twice]. unfold repeated. rewrite Q, (times_occ _ _ _ F). reflexivity. Qed.

Lemma clear_neutral : forall whole ts r, forallb neutral ts = true -> clear_of_words whole (ts ++ r) = clear_of_words whole r.
Proof.
  intros whole ts r H. induction ts as [|t ts IH]; [reflexivity|]. cbn [forallb] in H. apply andb_true_iff in H. destruct H as [A B]. rewrite <- (IH B).
  cbn [app clear_of_words]. destruct (ts ++ r) as [|b l]; [reflexivity|].
  apply andb_true_iff in A. destruct A as [A1 A2]. apply negb_true_iff in A1. rewrite A1.
  assert (T : twice whole t = false) by (destruct t; (reflexivity || discriminate A2)). rewrite T. cbn [orb andb negb]. rewrite andb_false_r. reflexivity.
Qed.

Lemma beside_cons : forall whole a l, beside whole (a :: l) = match l with
  | b :: _ => negb (repeated whole b && (word a || kind_eqb (fst a) Regex || repeated whole a))
      && negb (repeated whole a && word b && negb (named ["in"; "instanceof"]%string b)) && beside whole l
  | [] => true end.
Proof. intros whole a [|b l]; reflexivity. Qed.

Lemma clear_cons : forall whole a l, clear_of_words whole (a :: l) = match l with
  | b :: _ => negb (twice whole b && (wordy a || twice whole a)) && negb (twice whole a && wordy b && negb (is_in b)) && clear_of_words whole l
  | [] => true end.
Proof. intros whole a [|b l]; reflexivity. Qed.

Lemma neutral_first : forall t, neutral t = true -> wordy t = false /\ forall w, twice w t = false.
Proof. intros t H. unfold neutral in H. apply andb_true_iff in H. destruct H as [A B]. apply negb_true_iff in A. split; [exact A|]. intro w. destruct t; (reflexivity || discriminate B). Qed.

Lemma word_twice : forall w t, wordy t = true -> twice w t = false.
Proof. intros w t H. destruct t; (reflexivity || discriminate H). Qed.

Lemma head_facts : forall ps0 tss0 e ts, pairs ps0 tss0 -> plain_piece e = true -> mins e ts -> exists t r, ts = t :: r
  /\ wordy t = word e /\ twice (concat tss0) t = repeated ps0 e /\ is_in t = named ["in"; "instanceof"]%string e.
Proof.
  intros ps0 tss0 e ts F P M. destruct (mins_fits _ _ e ts P M) as [F1 F2 F3 F4 F5 F6 F7 F8 F9]. destruct ts as [|t r]; [congruence|]. exists t, r. split; [reflexivity|]. cbn [hd] in F7.
  split; [|split; [|exact F7]]; destruct (mins_cases e (t :: r) P M) as [(W & Q & E)|[(W & Q & E)|(W & Q & N)]].
  - injection E as -> ->. rewrite W. apply word_token_wordy.
  - injection E as -> ->. rewrite W. reflexivity.
  - cbn [forallb] in N. apply andb_true_iff in N. rewrite W. exact (proj1 (neutral_first _ (proj1 N))).
  - injection E as -> ->. unfold repeated. rewrite Q. apply word_twice, word_token_wordy.
  - injection E as -> ->. exact (twice_repeated _ _ e F Q).
  - cbn [forallb] in N. apply andb_true_iff in N. unfold repeated. rewrite Q. exact (proj2 (neutral_first _ (proj1 N)) _).
Qed.

Lemma clear_beside : forall ps0 tss0, pairs ps0 tss0 -> forall ps tss, pairs ps tss -> beside ps0 ps = true -> clear_of_words (concat tss0) (concat tss) = true.
Proof.
  intros ps0 tss0 F0 ps tss F. induction F as [|e ts ps tss [P M] F IH]; intro B; [reflexivity|]. cbn [concat].
  assert (B' : beside ps0 ps = true) by (rewrite beside_cons in B; destruct ps; [reflexivity|apply andb_true_iff in B; exact (proj2 B)]). specialize (IH B').
  assert (N : forallb neutral ts = true -> clear_of_words (concat tss0) (ts ++ concat tss) = true) by (intro N; rewrite (clear_neutral _ _ _ N); exact IH).
  destruct (head_facts ps0 tss0 e ts F0 P M) as (t & r & E & W & T & _).
  assert (S : r = [] -> clear_of_words (concat tss0) (ts ++ concat tss) = true).
  { intros ->. subst ts. cbn [app]. rewrite clear_cons. destruct F as [|e2 ts2 ps tss [P2 M2] F]; [reflexivity|].
    destruct (head_facts ps0 tss0 e2 ts2 F0 P2 M2) as (t2 & r2 & E2 & W2 & T2 & I2). subst ts2. cbn [concat app]. cbn [concat app] in IH.
    rewrite beside_cons in B. apply andb_true_iff in B. destruct B as [B _]. apply andb_true_iff in B. destruct B as [B1 B2]. rewrite IH, W, T, W2, T2, I2, B2, !andb_true_r.
    apply negb_true_iff in B1. apply negb_true_iff. destruct (repeated ps0 e2); [|reflexivity]. cbn [andb] in *. apply orb_false_iff in B1. destruct B1 as [B1 ->]. apply orb_false_iff in B1. rewrite (proj1 B1). reflexivity. }
  destruct (mins_cases e ts P M) as [(_ & _ & ->)|[(_ & _ & ->)|(_ & _ & Z)]]; [| |exact (N Z)]; apply S; injection E as _ <-; reflexivity.
Qed.

Lemma no_r_tokens : forall ps tss, pairs ps tss -> r_free ps = true -> no_r_names (concat tss).
Proof.
  intros ps tss F. induction F as [|e ts ps tss [P M] F IH]; intros R y I; [exact I|]. cbn [r_free forallb] in R. apply andb_true_iff in R. destruct R as [R1 R2].
  cbn [concat] in I. apply in_app_or in I. destruct I as [I|I]; [|exact (IH R2 y I)].
  destruct (mins_cases e ts P M) as [(W & _ & ->)|[(_ & _ & ->)|(_ & _ & Z)]].
  - destruct I as [I|[]]. apply word_token_other in I. rewrite W, <- I in R1. discriminate R1.
  - destruct I as [I|[]]. discriminate I.
  - rewrite forallb_forall in Z. specialize (Z _ I). discriminate Z.
Qed.

(** ** The replaced tokens *)

Definition created (ds : list (str * str)) (t : token) : token :=
  match t with TString s => match name_of ds s with Some x => TCreatedVar x | None => t end | _ => t end.

Lemma name_of_in : forall ds s x, name_of ds s = Some x -> In (x, s) ds.
Proof.
  induction ds as [|[y t] ds IH]; intros s x H; [discriminate H|]. cbn [name_of] in H. destruct (str_eqb s t) eqn:E; [|right; now apply IH].
  apply str_eqb_eq in E. injection H as ->. subst t. now left.
Qed.

Lemma name_of_is : forall ds s x, NoDup (map snd ds) -> In (x, s) ds -> name_of ds s = Some x.
Proof.
  induction ds as [|[y t] ds IH]; intros s x N I; [destruct I|]. cbn [map snd] in N. inversion N as [|? ? N1 N2]; subst. cbn [name_of]. destruct I as [I|I].
  - injection I as -> ->. rewrite str_eqb_refl. reflexivity.
  - destruct (str_eqb s t) eqn:E; [|now apply IH]. apply str_eqb_eq in E. subst t. exfalso. apply N1. apply in_map_iff. exists (x, s). auto.
Qed.

Lemma name_of_none : forall ds s, ~ In s (map snd ds) -> name_of ds s = None.
Proof.
  induction ds as [|[y t] ds IH]; intros s N; [reflexivity|]. cbn [name_of]. cbn [map snd] in N. destruct (str_eqb s t) eqn:E.
  - apply str_eqb_eq in E. exfalso. apply N. now left.
  - apply IH. intro I. apply N. now right.
Qed.

Lemma map_nth : forall (h : token -> token) l l', length l' = length l ->
  (forall i t, nth_error l i = Some t -> nth_error l' i = Some (h t)) -> l' = map h l.
Proof.
  intro h. induction l as [|t l IH]; intros [|t' l'] L H; try discriminate L; [reflexivity|]. cbn [map]. f_equal.
  - specialize (H 0%nat t eq_refl). cbn in H. now injection H.
  - apply IH; [now injection L|]. intros i x E. exact (H (S i) x E).
Qed.

Lemma aggregation_created : forall ts vars ds ts', aggregation ts vars ds ts' -> no_r_names ts -> ts' = map (created ds) ts.
Proof.
  intros ts vars ds ts' A N.
  assert (V : forall s, vars s = None).
  { intro s. destruct (vars s) as [[n v]|] eqn:E; [|reflexivity]. exfalso. destruct (an_vars _ _ _ _ A s n v E) as (x & _ & (X & y & ->) & _). apply (N y). now apply nth_error_In in X. }
  apply map_nth; [exact (an_length _ _ _ _ A)|]. intros i t E. destruct (an_tokens _ _ _ _ A i t E) as (t' & -> & G). f_equal.
  destruct G as [t H|s x H I|s n H|s n v x H|s H1 H2].
  - destruct t; try reflexivity. exfalso. exact (H _ eq_refl).
  - cbn [created]. rewrite (name_of_is ds s x (an_literals _ _ _ _ A) I). reflexivity.
  - rewrite V in H. discriminate H.
  - rewrite V in H. discriminate H.
  - cbn [created]. rewrite (name_of_none ds s H2). reflexivity.
Qed.

Lemma created_useful : forall ds ts, filter (fun t => negb (useless t)) (map (created ds) ts) = map (created ds) (filter (fun t => negb (useless t)) ts).
Proof.
  intros ds ts. induction ts as [|t ts IH]; [reflexivity|]. cbn [map filter].
  assert (E : useless (created ds t) = useless t) by (destruct t; try reflexivity; cbn [created]; destruct (name_of ds s); reflexivity). rewrite E.
  destruct (useless t); cbn [negb map]; rewrite IH; reflexivity.
Qed.

Definition renamed_token (ds : list (str * str)) (t : token) : token := JsPipeProofs.plain (created ds t).

Lemma plain_word : forall w, JsPipeProofs.plain (word_token w) = word_token w.
Proof. intro w. pose proof (word_token_wordy w) as W. destruct (word_token w); try reflexivity. discriminate W. Qed.

(** ** The pieces of the result *)

Definition declarator_pieces (d : str * str) : list element := [(Name, fst d); P "="; literal_of (snd d)].
Definition declaring_pieces (ds : list (str * str)) : list element :=
  match ds with
  | [] => []
  | d :: r => JsTreeSpec.K "var" :: declarator_pieces d ++ flat_map (fun d => P "," :: declarator_pieces d) r ++ [P ";"]
  end.

Lemma literal_piece : forall e, plain_piece e = true -> quoted e = true -> literal_of (snd e) = e.
Proof.
  intros e H Q. unfold quoted in Q. destruct e as [k s]. unfold literal_of. cbn [fst snd] in *. destruct k; try discriminate Q.
  - destruct (text_chars _ _ (Text, s) H eq_refl) as (q & b & E & [-> | ->] & _); cbn [snd] in E; subst s; reflexivity.
  - destruct (template_chars _ _ (Template, s) H eq_refl) as (b & E & _). cbn [snd] in E. subst s. reflexivity.
Qed.

Lemma alnum_part : forall c, alnum c = true -> id_part c = true.
Proof.
  intros c H. assert (D : letter c || digit c = true) by (unfold letter, digit, alnum in *; lia).
  unfold EsSpec.id_part, EsSpec.id_start. apply orb_true_iff in D. destruct D as [-> | ->]; [reflexivity|]. rewrite !orb_true_r. reflexivity.
Qed.

Lemma take_all : forall f s, forallb f s = true -> take_while f s = (s, []).
Proof.
  intros f. induction s as [|c s IH]; intro H; [reflexivity|]. cbn [forallb] in H. apply andb_true_iff in H. destruct H as [A B]. cbn [take_while]. rewrite A, (IH B). reflexivity.
Qed.

Lemma name_piece : forall x, new_name x -> plain_piece (Name, x) = true.
Proof.
  intros x (l & -> & F).
  assert (A : forallb id_part (S_ "r_" ++ l) = true).
  { cbn [S_ app]. change (S_ "r_" ++ l) with (0x72 :: 0x5F :: l). cbn [forallb]. apply andb_true_iff. split; [reflexivity|]. apply andb_true_iff. split; [reflexivity|].
    apply forallb_forall. intros c I. rewrite Forall_forall in F. exact (alnum_part c (F c I)). }
  unfold JsPlainSpec.plain_piece. apply andb_true_iff. split; [|cbn [fst snd]; reflexivity].
  unfold JsPlainSpec.alone. cbn [fst snd kind_eqb].
  assert (Z : scan start_u part_u false false (S_ "r_" ++ l) = Some ((Name, S_ "r_" ++ l), [])).
  { change (S_ "r_" ++ l) with (0x72 :: 0x5F :: l) in *. unfold EsSpec.scan, EsSpec.take_name. rewrite (take_all _ _ A). reflexivity. }
  rewrite Z. cbn [fst snd]. apply str_eqb_refl.
Qed.

(** The piece for a piece. *)
Definition swap_piece (ds : list (str * str)) (e : element) : element := match name_for ds e with Some x => (Name, x) | None => e end.

Section Ds.
Variable ds : list (str * str).
Variable whole : list element.
Hypothesis names : forall x s, In (x, s) ds -> new_name x.
Hypothesis drawn : forall x s, In (x, s) ds -> exists e, plain_piece e = true /\ quoted e = true /\ snd e = s /\ repeated whole e = true.
Notation R := (swap_piece ds).

Lemma for_quoted : forall e x, name_for ds e = Some x -> quoted e = true.
Proof. intros e x H. unfold name_for in H. destruct (quoted e); [reflexivity|discriminate H]. Qed.

Lemma for_in : forall e x, name_for ds e = Some x -> In (x, snd e) ds.
Proof. intros e x H. unfold name_for in H. destruct (quoted e); [|discriminate H]. now apply name_of_in. Qed.

Lemma for_name : forall e x, name_for ds e = Some x -> exists y, x = S_ "r_" ++ y.
Proof. intros e x H. destruct (names _ _ (for_in e x H)) as (l & -> & _). eauto. Qed.

Lemma for_repeated : forall e x, name_for ds e = Some x -> repeated whole e = true.
Proof.
  intros e x H. destruct (drawn _ _ (for_in e x H)) as (e' & _ & _ & E & T). unfold repeated in *. rewrite E in T. rewrite (for_quoted e x H).
  apply andb_true_iff in T. exact (proj2 T).
Qed.

Lemma for_kept : forall e, negb (repeated whole e) = true -> name_for ds e = None.
Proof. intros e H. destruct (name_for ds e) as [x|] eqn:E; [|reflexivity]. rewrite (for_repeated e x E) in H. discriminate H. Qed.

Lemma for_kept' : forall e, negb (repeated whole e) = true -> named_for ds e = None.
Proof. intros e H. unfold named_for. rewrite (for_kept e H). reflexivity. Qed.

Lemma R_plain : forall e, quoted e = false -> R e = e.
Proof. intros e H. unfold swap_piece, name_for. rewrite H. reflexivity. Qed.

(** Either the piece is left, or it becomes a name. *)
Lemma R_cases : forall e, R e = e \/ exists x, name_for ds e = Some x /\ new_name x /\ R e = (Name, x).
Proof.
  intro e. unfold swap_piece. destruct (name_for ds e) as [x|] eqn:E; [right|left; reflexivity]. exists x. split; [reflexivity|]. split; [exact (names _ _ (for_in e x E))|reflexivity].
Qed.

Lemma R_piece : forall e, plain_piece e = true -> plain_piece (R e) = true.
Proof. intros e H. destruct (R_cases e) as [-> | (x & _ & N & ->)]; [exact H|now apply name_piece]. Qed.

Lemma R_tokens : forall e ts, plain_piece e = true -> mins e ts -> mins (R e) (map (renamed_token ds) ts).
Proof.
  intros e ts P M. destruct (mins_cases e ts P M) as [(W & Q & E)|[(W & Q & E)|(W & Q & N)]].
  - rewrite (R_plain e Q). rewrite E in *. cbn [map]. unfold renamed_token. pose proof (word_token_wordy (snd e)) as T. destruct (word_token (snd e)); try discriminate T; exact M.
  - rewrite E in *. cbn [map]. unfold renamed_token, created. unfold swap_piece, name_for. rewrite Q. destruct (name_of ds (snd e)) as [x|] eqn:X; [|exact M].
    cbn [JsPipeProofs.plain]. unfold mins. cbn [fst snd]. rewrite (new_name_other x (names _ _ (name_of_in _ _ _ X))). reflexivity.
  - rewrite (R_plain e Q). replace (map (renamed_token ds) ts) with ts; [exact M|]. clear - N. induction ts as [|t ts IH]; [reflexivity|].
    cbn [forallb] in N. apply andb_true_iff in N. destruct N as [A B]. cbn [map]. rewrite <- (IH B). f_equal. destruct t; try reflexivity; discriminate A.
Qed.

Lemma R_pairs : forall ps tss, pairs ps tss -> pairs (map R ps) (map (map (renamed_token ds)) tss).
Proof.
  intros ps tss F. induction F as [|e ts ps tss [P M] F IH]; [constructor|]. cbn [map]. constructor; [|exact IH]. split; [exact (R_piece e P)|exact (R_tokens e ts P M)].
Qed.

Lemma declarator_pairs : forall d, In d ds -> pairs (declarator_pieces d) [[TOther (fst d)]; [TOperation Equal]; [TString (snd d)]].
Proof.
  intros [x s] I. unfold declarator_pieces. cbn [fst snd]. constructor; [|constructor; [|constructor; [|constructor]]].
  - split; [exact (name_piece x (names x s I))|]. unfold mins. cbn [fst snd]. rewrite (new_name_other x (names x s I)). reflexivity.
  - split; reflexivity.
  - destruct (drawn x s I) as (e & P & Q & <- & _). rewrite (literal_piece e P Q). split; [exact P|]. unfold mins, quoted in *. destruct (fst e); try discriminate Q; reflexivity.
Qed.

Lemma declared_pairs : ds <> [] -> exists tss, pairs (declaring_pieces ds) tss /\ concat tss = declared ds.
Proof.
  intro Ne. pose proof declarator_pairs as D. destruct ds as [|d r]; [congruence|]. clear Ne.
  assert (Z : forall r', incl r' r -> exists tss, pairs (flat_map (fun d => P "," :: declarator_pieces d) r' ++ [P ";"]) tss
    /\ concat tss = flat_map (fun d => TChar Comma :: declarator d) r' ++ [TChar SemiColon]).
  { induction r' as [|d' r' IH]; intro I.
    - exists [[TChar SemiColon]]. split; [|reflexivity]. repeat constructor.
    - destruct IH as (tss & A & B); [intros y Y; apply I; now right|]. exists ([TChar Comma] :: [[TOther (fst d')]; [TOperation Equal]; [TString (snd d')]] ++ tss). split.
      + cbn [flat_map app]. constructor; [split; reflexivity|]. rewrite <- app_assoc. apply (Forall2_app (l1 := declarator_pieces d') (l1' := [[TOther (fst d')]; [TOperation Equal]; [TString (snd d')]])); [|exact A]. apply D. right. apply I. now left.
      + cbn [concat app flat_map declarator]. rewrite B. reflexivity. }
  destruct (Z r (incl_refl r)) as (tss & A & B). exists ([TKeyword KVar] :: [[TOther (fst d)]; [TOperation Equal]; [TString (snd d)]] ++ tss). split.
  - unfold declaring_pieces. constructor; [split; reflexivity|]. apply (Forall2_app (l1 := declarator_pieces d) (l1' := [[TOther (fst d)]; [TOperation Equal]; [TString (snd d)]])); [|exact A]. apply D. now left.
  - unfold declared. cbn [concat app declarator]. rewrite B. reflexivity.
Qed.

(** ** No token runs on *)

Lemma first_not_part : forall e, plain_piece e = true -> word e = false -> exists c s, snd e = c :: s /\ id_part c = false.
Proof.
  intros e H W. destruct (piece_shape _ _ e H) as (c & s & E & M). exists c, s. split; [exact E|]. unfold word in W. destruct (fst e) eqn:K; try discriminate W.
  1-3: unfold JsPlainSpec.plain_piece in H; rewrite K, andb_false_r in H; discriminate H.
  - pose proof (punct_in e H K) as I. rewrite E in I.
    assert (F : forallb (fun p => match p with c :: _ => negb (id_part c) | [] => true end) puncts = true) by (vm_compute; reflexivity).
    rewrite forallb_forall in F. specialize (F _ I). now apply negb_true_iff in F.
  - destruct M as ([-> | ->] & _); reflexivity.
  - destruct M as ([-> | M] & _); [reflexivity|discriminate M].
  - destruct M as (-> & _). reflexivity.
Qed.

Lemma before_name : forall a x, plain_piece a = true -> word a = false -> fst a <> Regex -> new_name x -> runs_on a x = false.
Proof.
  intros a x H W NR (l & -> & _). change (S_ "r_" ++ l) with (0x72 :: 0x5F :: l). unfold EsSpec.runs_on. destruct (fst a) eqn:K; try reflexivity; try (unfold word in W; rewrite K in W; discriminate W).
  - unfold JsPlainSpec.plain_piece in H. rewrite K, andb_false_r in H. discriminate H.
  - pose proof (punct_in a H K) as I.
    assert (F : forallb (fun t => negb (existsb (fun p => str_eqb (firstn (S (length t)) p) (t ++ [0x72])) puncts
      || ((str_eqb t (S_ ".") || str_eqb t (S_ "?.")) && digit 0x72) || (str_eqb t (S_ "/") && one_of (S_ "/*") 0x72))) puncts = true) by (vm_compute; reflexivity).
    rewrite forallb_forall in F. specialize (F _ I). now apply negb_true_iff in F.
  - congruence.
Qed.

Lemma R_apart : forall ps, forallb plain_piece ps = true -> sapart ps = true -> beside whole ps = true -> sapart (map R ps) = true.
Proof.
  induction ps as [|a ps IH]; intros H A B; [reflexivity|]. cbn [forallb] in H. apply andb_true_iff in H. destruct H as [Pa H].
  cbn [JsPlainSpec.apart] in A. apply andb_true_iff in A. destruct A as [A1 A2]. rewrite beside_cons in B. cbn [map JsPlainSpec.apart].
  destruct ps as [|b ps]; [reflexivity|]. apply andb_true_iff in B. destruct B as [B B3]. apply andb_true_iff in B. destruct B as [B1 B2]. rewrite (IH H A2 B3), andb_true_r. cbn [map].
  cbn [forallb] in H. apply andb_true_iff in H. destruct H as [Pb _]. apply negb_true_iff in B1, B2.
  destruct (R_cases b) as [Eb|(y & Fb & Ny & Eb)]; destruct (R_cases a) as [Ea|(x & Fa & Nx & Ea)]; rewrite Ea, Eb.
  - exact A1.
  - apply orb_true_iff. rewrite (for_repeated a x Fa) in B2. cbn [andb] in B2. destruct (word b) eqn:W.
    + left. unfold spaced. cbn [sticky fst]. rewrite W. reflexivity.
    + right. destruct (first_not_part b Pb W) as (c & s & -> & N). unfold EsSpec.runs_on. cbn [fst]. rewrite N. reflexivity.
  - apply orb_true_iff. right. rewrite (for_repeated b y Fb) in B1. cbn [andb] in B1. apply orb_false_iff in B1. destruct B1 as [B1 _]. apply orb_false_iff in B1. destruct B1 as [W NR].
    cbn [snd]. rewrite (before_name a y Pa W); [reflexivity| |exact Ny]. intro K. rewrite K in NR. discriminate NR.
  - exfalso. rewrite (for_repeated b y Fb), (for_repeated a x Fa) in B1. rewrite orb_true_r in B1. discriminate B1.
Qed.

Lemma semi_apart : forall e, spaced (P ";") e || negb (runs_on (P ";") (snd e)) = true.
Proof. intro e. apply orb_true_iff. right. destruct (snd e) as [|c s]; reflexivity. Qed.

Lemma apart_cons : forall a b r, sapart (a :: b :: r) = (spaced a b || negb (runs_on a (snd b))) && sapart (b :: r).
Proof. reflexivity. Qed.

Lemma declarator_apart : forall d e r, In d ds -> e = P "," \/ e = P ";" -> sapart (e :: r) = true -> sapart (declarator_pieces d ++ e :: r) = true.
Proof.
  intros [x s] e r I E A. destruct (drawn x s I) as (q & P & Q & <- & _). unfold declarator_pieces. cbn [fst snd app]. rewrite (literal_piece q P Q), !apart_cons, A.
  assert (L : forall y, runs_on q y = false) by (intros [|c y]; [reflexivity|]; unfold EsSpec.runs_on; unfold quoted in Q; destruct (fst q); try discriminate Q; reflexivity).
  rewrite L, !orb_true_r. cbn [negb andb]. rewrite !andb_true_r.
  assert (Z : runs_on (JsTreeSpec.P "=") (snd q) = false).
  { destruct (first_not_part q P) as (c & t & T & _); [unfold word; unfold quoted in Q; destruct (fst q); try discriminate Q; reflexivity|].
    unfold quoted in Q. destruct (fst q) eqn:K; try discriminate Q.
    - destruct (text_chars _ _ q P K) as (h & b & -> & [-> | ->] & _); reflexivity.
    - destruct (template_chars _ _ q P K) as (b & -> & _); reflexivity. }
  rewrite Z. apply orb_true_r.
Qed.

Lemma declaring_apart : forall l, ds <> [] -> sapart l = true -> sapart (declaring_pieces ds ++ l) = true.
Proof.
  intros l Ne A. pose proof declarator_apart as D. pose proof names as Nm. clear drawn names. destruct ds as [|d r]; [congruence|]. clear Ne.
  assert (Z : forall r', incl r' r -> exists e q, flat_map (fun d => P "," :: declarator_pieces d) r' ++ [P ";"] ++ l = e :: q /\ (e = P "," \/ e = P ";") /\ sapart (e :: q) = true).
  { induction r' as [|d' r' IH]; intro I.
    - exists (P ";"), l. split; [reflexivity|]. split; [right; reflexivity|]. cbn [JsPlainSpec.apart]. rewrite A, andb_true_r. destruct l; [reflexivity|apply semi_apart].
    - destruct IH as (e & q & E & O & S); [intros y Y; apply I; now right|]. exists (P ","), (declarator_pieces d' ++ e :: q). split; [cbn [flat_map]; rewrite <- app_assoc, E; reflexivity|]. split; [left; reflexivity|].
      assert (J : In d' (d :: r)) by (right; apply I; now left).
      pose proof (D d' e q J O S) as W. unfold declarator_pieces in *. cbn [app] in *. rewrite apart_cons, W, andb_true_r. apply orb_true_iff. right. cbn [snd].
      destruct d' as [x s]. cbn [fst]. rewrite (before_name (P ",") x); [reflexivity|reflexivity|reflexivity|discriminate|exact (Nm x s J)]. }
  destruct (Z r (incl_refl r)) as (e & q & E & O & S). unfold declaring_pieces. change (sapart (JsTreeSpec.K "var" :: (declarator_pieces d ++ flat_map (fun d => P "," :: declarator_pieces d) r ++ [P ";"]) ++ l) = true). rewrite <- !app_assoc, E.
  pose proof (D d e q (or_introl eq_refl) O S) as W. unfold declarator_pieces in *. cbn [app] in *. rewrite apart_cons, W. reflexivity.
Qed.

(** ** Regular expressions and divisions *)

Lemma R_goal : forall ps past x past', forallb plain_piece ps = true -> usual_goal past = usual_goal (x :: past') ->
  goal_ok usual_goal past ps = true -> goal_ok usual_goal (x :: past') (map R ps) = true.
Proof.
  induction ps as [|e ps IH]; intros past x past' H U G; [reflexivity|]. cbn [forallb] in H. apply andb_true_iff in H. destruct H as [P H].
  cbn [goal_ok map] in *. apply andb_true_iff in G. destruct G as [G1 G2]. apply andb_true_iff. split.
  - rewrite <- U. destruct (R_cases e) as [-> | (y & F & _ & ->)]; [exact G1|reflexivity].
  - apply (IH (next_past past e)); [exact H| |exact G2]. destruct (R_cases e) as [-> | (y & F & _ & ->)].
    + unfold next_past. destruct past; [|reflexivity]. destruct (str_eqb (snd e) (S_ ";")) eqn:S; [|reflexivity]. rewrite (semicolon_piece _ _ e P S). reflexivity.
    + assert (N : kind_eqb (fst e) Punct = false) by (apply for_quoted in F; unfold quoted in F; destruct (fst e); try discriminate F; reflexivity).
      unfold next_past. destruct past; [|cbn [usual_goal fst]; rewrite N; reflexivity]. destruct (str_eqb (snd e) (S_ ";")) eqn:S; [|cbn [usual_goal fst]; rewrite N; reflexivity].
      rewrite (semicolon_piece _ _ e P S) in N. discriminate N.
Qed.

Definition calm (e : element) : bool := negb (kind_eqb (fst e) Regex) && negb (sign ["/"; "/="]%string e).

Lemma goal_calm : forall l x past r, forallb calm l = true -> goal_ok usual_goal (x :: past) (l ++ r) = goal_ok usual_goal (rev l ++ x :: past) r.
Proof.
  induction l as [|e l IH]; intros x past r H; [reflexivity|]. cbn [forallb] in H. apply andb_true_iff in H. destruct H as [C H]. unfold calm in C. apply andb_true_iff in C. destruct C as [C1 C2].
  apply negb_true_iff in C1, C2. cbn [app goal_ok]. rewrite C1, C2. cbn [andb]. change (next_past (x :: past) e) with (e :: x :: past). rewrite (IH e (x :: past) r H). cbn [rev]. rewrite <- app_assoc. reflexivity.
Qed.

Lemma declaring_goal : forall ps, ds <> [] -> forallb plain_piece ps = true -> goal_ok usual_goal [] ps = true ->
  goal_ok usual_goal [] (declaring_pieces ds ++ map R ps) = true.
Proof.
  intros ps Ne H G. assert (E : exists m, declaring_pieces ds = JsTreeSpec.K "var" :: m ++ [P ";"] /\ forallb calm (m ++ [P ";"]) = true).
  { assert (D : forall d, forallb calm (declarator_pieces d) = true) by (intros [x s]; unfold declarator_pieces, literal_of, calm; cbn [fst snd forallb]; destruct (starts (N.eqb 0x60) s); reflexivity).
    clear - Ne D. destruct ds as [|d r]; [congruence|]. unfold declaring_pieces. exists (declarator_pieces d ++ flat_map (fun d => P "," :: declarator_pieces d) r).
    split; [rewrite <- app_assoc; reflexivity|]. rewrite !forallb_app, D. cbn [andb]. apply andb_true_iff. split; [|reflexivity].
    clear Ne. induction r as [|d' r IH]; [reflexivity|]. cbn [flat_map app forallb]. rewrite forallb_app, D, IH. reflexivity. }
  destruct E as (m & -> & C). cbn [app goal_ok]. change (next_past [] (JsTreeSpec.K "var")) with [JsTreeSpec.K "var"].
  change (kind_eqb (fst (JsTreeSpec.K "var")) Regex) with false. change (sign ["/"; "/="]%string (JsTreeSpec.K "var")) with false. cbn [andb].
  rewrite (goal_calm _ _ _ _ C). rewrite rev_app_distr. cbn [rev app]. apply (R_goal ps []); [exact H|reflexivity|exact G].
Qed.

(** ** The tree *)

Lemma name_ident : forall x, new_name x -> binding x = true.
Proof.
  intros x (l & -> & _). unfold binding, ident.
  assert (N : forall q, forallb (fun w => negb (str_eqb (firstn 2 (S_ w)) (S_ "r_"))) q = true -> is_text q (S_ "r_" ++ l) = false).
  { intros q H. unfold is_text. induction q as [|w q IH]; [reflexivity|]. cbn [forallb] in H. apply andb_true_iff in H. destruct H as [A B].
    cbn [map existsb]. rewrite (IH B), orb_false_r. apply not_true_iff_false. intro E. apply str_eqb_eq in E. rewrite <- E in A. discriminate A. }
  rewrite !N; reflexivity.
Qed.

Lemma declared_tree : forall ds', ds' <> [] -> incl ds' ds ->
  w_decls (map (fun d => (PName (fst d), Some (ELit (literal_of (snd d))))) ds')
    (map (pair false) (match ds' with [] => [] | d :: r => declarator_pieces d ++ flat_map (fun d => P "," :: declarator_pieces d) r end)).
Proof.
  assert (D : forall d, In d ds -> w_decl (PName (fst d), Some (ELit (literal_of (snd d)))) (map (pair false) (declarator_pieces d))).
  { intros [x s] I. unfold declarator_pieces. cbn [fst snd map]. change [(false, (Name, x)); (false, P "="); (false, literal_of s)] with ([(false, (Name, x))] ++ (false, P "=") :: [(false, literal_of s)]).
    apply wv_value.
    - apply wpa_name, name_ident, (names x s I).
    - apply wa_cond, wc_bin, wb_unary, wu_post, wp_left, wl_primary, wr_lit. unfold literal_of, literal. cbn [fst]. destruct (starts (N.eqb 0x60) s); reflexivity. }
  induction ds' as [|d r IH]; intros Ne I; [congruence|]. cbn [map]. destruct r as [|d' r].
  - cbn [map flat_map]. rewrite app_nil_r. apply wv_one, D, I. now left.
  - cbn [flat_map]. rewrite map_app. cbn [app map]. apply wv_cons; [apply D, I; now left|]. apply IH; [discriminate|]. intros y Y. apply I. now right.
Qed.

Lemma rens_pairs : forall ps, rens (fun e => [R e]) (map (pair false) ps) = map (pair false) (map R ps).
Proof. induction ps as [|e ps IH]; [reflexivity|]. cbn [map]. rewrite <- IH. reflexivity. Qed.

Lemma name_left : forall e x, named_for ds e = Some x -> quoted e = true /\ exists y r, [R e] = (Name, y) :: r /\ ident y = true
  /\ forallb (fun a => negb (named ["in"; "of"]%string a)) r = true /\ forall b, w_left x ((b, (Name, y)) :: map (pair false) r).
Proof.
  intros e x H. unfold named_for, swap_piece in *. destruct (name_for ds e) as [y|] eqn:E; [|discriminate H]. injection H as <-. split; [exact (for_quoted e y E)|].
  assert (I : ident y = true) by (pose proof (name_ident y (names _ _ (for_in e y E))) as B; unfold binding in B; apply andb_true_iff in B; exact (proj1 B)).
  exists y, []. split; [reflexivity|]. split; [exact I|]. split; [reflexivity|]. intro b. apply wl_primary, wr_word, I.
Qed.

Lemma name_left_none : forall e, named_for ds e = None -> [R e] = [e].
Proof. intros e H. unfold named_for, swap_piece in *. destruct (name_for ds e); [discriminate H|reflexivity]. Qed.

Lemma whole_tree : forall t l, ds <> [] -> program t (lines false l) -> keys_once whole t = true ->
  program (declaring ds :: swapped_tree ds t) (map (pair false) (declaring_pieces ds ++ map R (pieces l))).
Proof.
  intros t l Ne W Ko. pose proof (program_flat t _ W) as Wf. rewrite lines_flat in Wf.
  pose proof (program_swap (named_for ds) (fun e => [R e]) (fun e => negb (repeated whole e)) name_left_none name_left for_kept' t _ Wf Ko) as Ws. rewrite rens_pairs in Ws.
  rewrite map_app.
  assert (S : w_stmt false (declaring ds) (map (pair false) (declaring_pieces ds))).
  { pose proof (declared_tree ds Ne (incl_refl ds)) as T. unfold declaring. destruct ds as [|d r]; [congruence|]. unfold declaring_pieces. cbn [map]. rewrite app_assoc, map_app.
    apply wt_var; [reflexivity|exact T|]. apply wn_semicolon. }
  apply ws_some. unfold program in Ws. fold (swapped_tree ds t) in Ws. inversion Ws as [b E1 E2 E3|b t' ts Ws1 E1 E2 E3]; subst.
  - rewrite app_nil_r. apply ws_one. revert S. generalize (map (pair false) (declaring_pieces ds)). intros ts S. unfold declaring in *. inversion S; subst. apply wt_var; try assumption.
    match goal with H : w_end false ?u |- w_end true ?u => inversion H; subst; constructor end.
  - apply ws_cons; assumption.
Qed.
End Ds.

(** ** Everything *)

Section Order.
Variable order : forall A : Type, list A -> list A.
Hypothesis order_ok : forall A (l : list A), Permutation (order A l) l.

Theorem documented_tree : forall l t, splain None false l = true -> sapart (pieces l) = true -> program t (lines false l) ->
  r_free (pieces l) = true -> beside (pieces l) (pieces l) = true -> keys_once (pieces l) t = true ->
  exists d ds, documented order (text l) = Ok d /\ NoDup (map fst ds) /\ NoDup (map snd ds)
    /\ (forall x s, In (x, s) ds -> new_name x /\ exists e, In e (pieces l) /\ snd e = s /\ repeated (pieces l) e = true)
    /\ es_program start_u part_u d = Some (match ds with [] => drop_empty t | _ => declaring ds :: swapped_tree ds t end).
Proof.
  intros l t H A W Rf B Ko. destruct (run _ _ l None false [] [] H) as (v & w & tss & Rd & F & Kp); [split; [left; reflexivity|reflexivity]|].
  cbn [flush rev app] in Kp. change (kept []) with (@nil token) in Kp. cbn [app] in Kp.
  set (ts0 := rev (flush w v)) in *. assert (L : lexes (text l) ts0) by (exists v, w; auto). pose proof (lexes_tokenize _ _ L) as T. destruct (lexes_known _ _ L) as [R0 _].
  assert (Fk : filter (fun t => negb (useless t)) ts0 = concat tss) by exact Kp.
  pose proof (no_r_tokens _ _ F Rf) as N.
  assert (N0 : no_r_names ts0).
  { intros y I. apply (N y). rewrite <- Fk. apply filter_In. auto. }
  destruct (aggregate_spec order order_ok ts0 None) as (vars & ds & ts' & E & G). cbn [app] in E.
  destruct (aggregation_swapped ts0 vars ds ts' G N0 R0 (known_plain ts0 R0)) as [Gd Fw]. pose proof (useful_swapped ts0 ds ts0 ts' Fw) as Fu.
  pose proof (aggregation_created ts0 vars ds ts' G N0) as Cr.
  assert (Fc : filter (fun t => negb (useless t)) ts' = map (created ds) (concat tss)) by (rewrite Cr, created_useful, Fk; reflexivity).
  assert (Occ : forall s, occurrences ts0 s = times (pieces l) s) by (intro s; rewrite <- (occurrences_useful ts0), Fk; exact (times_occ _ _ s F)).
  assert (PP : forallb plain_piece (pieces l) = true) by exact (pieces_plain _ _ l None false H).
  assert (Dr : forall x s, In (x, s) ds -> exists e, In e (pieces l) /\ plain_piece e = true /\ quoted e = true /\ snd e = s /\ repeated (pieces l) e = true).
  { intros x s I. destruct (an_pays _ _ _ _ G x s I) as (_ & O & _). rewrite Occ in O. assert (O' := O). unfold times in O.
    destruct (filter (fun x => quoted x && str_eqb (snd x) s) (pieces l)) as [|e q] eqn:Q; [cbn in O; lia|].
    assert (J : In e (e :: q)) by now left. rewrite <- Q in J. apply filter_In in J. destruct J as [J M]. apply andb_true_iff in M. destruct M as [M1 M2]. apply str_eqb_eq in M2.
    exists e. split; [exact J|]. split; [rewrite forallb_forall in PP; exact (PP e J)|]. split; [exact M1|]. split; [exact M2|]. unfold repeated. rewrite M1, M2. apply Nat.leb_le. exact O'. }
  unfold documented, aggregate_strings. rewrite T. cbn [obind]. rewrite E. cbn [obind]. rewrite clean_tokens_eq. cbn [obind]. rewrite filter_app, declarations_useful, Fc.
  eexists. exists ds. split; [reflexivity|]. split; [exact (proj1 Gd)|]. split; [exact (an_literals _ _ _ _ G)|].
  split; [intros x s I; split; [exact (proj1 (proj2 Gd x s I))|]; destruct (Dr x s I) as (e & J & _ & _ & S & Rp); eauto|].
  destruct ds as [|d0 r] eqn:Ed.
  - assert (Z : map (created []) (concat tss) = concat tss) by (rewrite <- (map_id (concat tss)) at 2; apply map_ext; intros []; reflexivity). rewrite Z. cbn [declarations app].
    destruct (dropped _ _ _ _ F) as (tss' & F' & D). rewrite D, tokens_show_joined, (printed _ _ _ _ F'). exact (tree_output _ _ t l H A W).
  - rewrite <- Ed in *. assert (Ne : ds <> []) by (rewrite Ed; discriminate).
    assert (D : forall q, drop_semicolons (declarations ds ++ q) = declarations ds ++ q) by (intro q; rewrite Ed; reflexivity). rewrite D.
    rewrite Fk, Fc in Fu.
    assert (Rus : Forall readable (concat tss)) by (rewrite <- Fk; apply Forall_forall; intros x I; apply filter_In in I; rewrite Forall_forall in R0; now apply R0).
    assert (Cl : clear_of_words ts0 (concat tss) = true).
    { rewrite (clear_ext ts0 (concat tss)); [exact (clear_beside _ _ F _ _ F B)|]. intros []; try reflexivity. cbn [twice]. rewrite <- (occurrences_useful ts0), Fk. reflexivity. }
    pose proof (joined_body ts0 ds _ _ Fu Rus Cl) as Jb. rewrite tokens_show_joined.
    rewrite (joined_declared ds _ (map JsPipeProofs.plain (map (created ds) (concat tss))) Ne Jb); [| |exact (swapped_head ts0 ds _ _ Fu)].
    2:{ destruct (concat tss); exact I. }
    assert (Nm : forall x s, In (x, s) ds -> new_name x) by (intros x s I; exact (proj1 (proj2 Gd x s I))).
    assert (Dw : forall x s, In (x, s) ds -> exists e, plain_piece e = true /\ quoted e = true /\ snd e = s /\ repeated (pieces l) e = true) by (intros x s I; destruct (Dr x s I) as (e & _ & X); eauto).
    destruct (declared_pairs ds (pieces l) Nm Dw Ne) as (tsd & Fd & Cd). rewrite <- Cd, map_map.
    change (fun x => JsPipeProofs.plain (created ds x)) with (renamed_token ds). rewrite concat_map, <- concat_app.
    rewrite (printed start_u part_u (declaring_pieces ds ++ map (swap_piece ds) (pieces l))); [|apply Forall2_app; [exact Fd|exact (R_pairs ds Nm _ _ F)]].
    unfold es_program, es_lines, start. rewrite compact_lines.
    + apply program_parse. exact (whole_tree ds (pieces l) Nm Dw t l Ne W Ko).
    + rewrite forallb_app. apply andb_true_iff. split.
      * clear - Fd. induction Fd as [|e1 ts1 ps1 tss1 [P1 M1] F1 IH]; [reflexivity|]. cbn [forallb]. rewrite P1. exact IH.
      * pose proof (R_pairs ds Nm _ _ F) as Fr. clear - Fr. induction Fr as [|e1 ts1 ps1 tss1 [P1 M1] F1 IH]; [reflexivity|]. cbn [forallb]. rewrite P1. exact IH.
    + apply (declaring_apart ds (pieces l) Nm Dw); [exact Ne|]. exact (R_apart ds (pieces l) Nm Dw _ PP A B).
    + apply (declaring_goal ds Nm); [exact Ne|exact PP|exact (usual_ok _ _ l None false [] H (or_introl eq_refl))].
Qed.
End Order.
End T.
