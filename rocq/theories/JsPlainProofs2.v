(** Plain programs: the minified text, and the tokens that an engine reads from both. *)
From Coq Require Import String List NArith ZArith Bool Lia ZifyBool ZifyN Arith.
From Verif Require Import Base JsModel JsUtilModel JsUtilSpec JsUtilProofs JsUtilProofs2 JsLexSpec
  JsLexProofs1 JsLexProofs2 JsLexProofs3 JsWords JsLexProofs4 JsLexProofs6 JsRoundSpec JsRoundProofs1 JsRoundProofs2 JsRoundProofs3 JsLayoutSpec
  JsLayoutProofs EsSpec EsProofs1 EsProofs2 JsPlainSpec JsPlainProofs1.
Import ListNotations.
Open Scope N_scope.

(** ** Between tokens *)

Lemma in_line : forall s, between InLine s = true -> exists b n r, s = b ++ n :: r
  /\ Forall (fun c => line_end c = false) b /\ newline n = true /\ between Idle r = true.
Proof.
  induction s as [|c s IH]; intro H; [discriminate H|]. cbn [between] in H. destruct ((c =? 0xA) || (c =? 0xD)) eqn:N.
  - exists [], c, s. auto.
  - destruct (line_end c) eqn:L; [discriminate H|]. destruct (IH H) as (b & n & r & -> & F & Nn & B). exists (c :: b), n, r. auto.
Qed.

Lemma has_end_cons : forall c b, has_comment_end (c :: b) = match b with d :: _ => ((c =? 0x2A) && (d =? 0x2F)) || has_comment_end b | [] => false end.
Proof. intros c [|d b]; reflexivity. Qed.

Lemma take_comment_cons : forall c d s, take_comment (c :: d :: s) = if (c =? 0x2A) && (d =? 0x2F) then Some s else take_comment (d :: s).
Proof. reflexivity. Qed.

Definition closes (s b r : str) : Prop :=
  s = b ++ 0x2A :: 0x2F :: r /\ has_comment_end (b ++ [0x2A]) = false /\ take_comment s = Some r /\ between Idle r = true.

Lemma closes_more : forall c s b r, closes s b r -> (c = 0x2A -> exists d t, s = d :: t /\ d <> 0x2F) -> closes (c :: s) (c :: b) r.
Proof.
  intros c s b r (E & F & T & B) N. destruct s as [|d s]; [discriminate T|].
  assert (X : (c =? 0x2A) && (d =? 0x2F) = false).
  { destruct (N.eqb_spec c 0x2A) as [->|]; [|reflexivity]. destruct (N eq_refl) as (d' & t & Q & K). injection Q as -> _. cbn [andb]. apply N.eqb_neq. exact K. }
  split; [rewrite E; reflexivity|]. split; [|split; [|exact B]].
  - cbn [app]. rewrite has_end_cons, F. destruct b as [|d' b]; cbn [app] in *.
    + injection E as -> _. rewrite orb_false_r. apply andb_false_iff. right. reflexivity.
    + injection E as -> _. rewrite X. reflexivity.
  - rewrite take_comment_cons, X. exact T.
Qed.

Lemma in_block : forall s, (between InBlock s = true -> exists b r, closes s b r) /\ (between Star s = true -> exists b r, closes (0x2A :: s) b r).
Proof.
  induction s as [|c s [IH1 IH2]]; [split; intro H; discriminate H|]. split; intro H; cbn [between] in H.
  - destruct (N.eqb_spec c 0x2A) as [->|N]; [exact (IH2 H)|]. destruct (IH1 H) as (b & r & C). exists (c :: b), r. apply closes_more; [exact C|]. intro; contradiction.
  - destruct (N.eqb_spec c 0x2F) as [->|N1].
    + exists [], s. split; [reflexivity|]. split; [reflexivity|]. split; [reflexivity|exact H].
    + destruct (N.eqb_spec c 0x2A) as [->|N2].
      * destruct (IH2 H) as (b & r & C). exists (0x2A :: b), r. apply closes_more; [exact C|]. intros _. exists 0x2A, s. split; [reflexivity|discriminate].
      * destruct (IH1 H) as (b & r & C). exists (0x2A :: c :: b), r. apply closes_more; [apply closes_more; [exact C|intro; contradiction]|].
        intros _. exists c, s. auto.
Qed.

Lemma opened : forall s, between Opened s = true -> exists b r, closes s b r /\ hd_error b <> Some 0x21.
Proof.
  intros [|c s] H; [discriminate H|]. cbn [between] in H. destruct (N.eqb_spec c 0x21) as [->|N]; [discriminate H|]. destruct (N.eqb_spec c 0x2A) as [->|N2].
  - destruct (proj2 (in_block s) H) as (b & r & C). exists b, r. split; [exact C|]. destruct C as (E & _). destruct b as [|d b]; [discriminate|]. cbn [app] in E. injection E as <- _. discriminate.
  - destruct (proj1 (in_block s) H) as (b & r & C). exists (c :: b), r. split; [apply closes_more; [exact C|intro; contradiction]|]. cbn [hd_error]. congruence.
Qed.

(** A gap starts with a blank or with a comment. *)
Lemma between_cases : forall g, between Idle g = true -> g = []
  \/ (exists c r, g = c :: r /\ one_of [0x9; 0xA; 0xD; 0x20] c = true /\ between Idle r = true)
  \/ (exists b n r, g = 0x2F :: 0x2F :: b ++ n :: r /\ Forall (fun c => line_end c = false) b /\ newline n = true /\ between Idle r = true)
  \/ (exists s b r, g = 0x2F :: 0x2A :: s /\ closes s b r /\ hd_error b <> Some 0x21).
Proof.
  intros [|c g] H; [left; reflexivity|right]. cbn [between] in H. destruct (one_of [0x9; 0xA; 0xD; 0x20] c) eqn:O; [left; eauto|right].
  destruct (N.eqb_spec c 0x2F) as [->|]; [|discriminate H]. destruct g as [|d g]; [discriminate H|]. cbn [between] in H.
  destruct (N.eqb_spec d 0x2F) as [->|].
  - left. destruct (in_line g H) as (b & n & r & -> & F & N & B). exists b, n, r. auto.
  - right. destruct (N.eqb_spec d 0x2A) as [->|]; [|discriminate H]. destruct (opened g H) as (b & r & C & X). exists g, b, r. auto.
Qed.

Lemma between_layout : forall n g, (length g <= n)%nat -> between Idle g = true -> layout g.
Proof.
  induction n as [|n IH]; intros g L H.
  - destruct g; [constructor|cbn [length] in L; lia].
  - destruct (between_cases g H) as [->|[(c & r & -> & O & B)|[(b & nl & r & -> & F & N & B)|(s & b & r & -> & (-> & F & T & B) & X)]]].
    + constructor.
    + apply ly_blank; [exact O|]. apply IH; [cbn [length] in L; lia|exact B].
    + apply ly_line; [|exact N|].
      * eapply Forall_impl; [|exact F]. cbv beta. intros c E. unfold line_end, newline in *. lia.
      * apply IH; [|exact B]. cbn [length] in L. rewrite app_length in L. cbn [length] in L. lia.
    + apply ly_block; [|exact X|].
      * unfold comment_body. rewrite F. reflexivity.
      * apply IH; [|exact B]. cbn [length] in L. rewrite app_length in L. cbn [length] in L. lia.
Qed.

Section P.
Variables start_u part_u : N -> bool.
Notation plain_piece := (plain_piece start_u part_u).
Notation plain := (JsPlainSpec.plain start_u part_u).
Notation mins := mins.
Notation state_ok := (state_ok start_u part_u).
Notation dflt := (TChar Space).

(** ** The tokens of the whole program *)

Lemma kept_app : forall a b, kept (a ++ b) = kept a ++ kept b.
Proof. intros. apply filter_app. Qed.

Lemma kept_useless : forall x, Forall (fun t => useless t = true) x -> kept x = [].
Proof. intros x F. induction F as [|t x H F IH]; [reflexivity|]. unfold kept. cbn [filter]. rewrite H. exact IH. Qed.

Lemma kept_useful : forall e ts, fits e ts -> kept ts = ts.
Proof.
  intros e ts F. destruct F as [_ U _ _ _ _ _ _ _]. unfold kept. induction ts as [|t ts IH]; [reflexivity|]. cbn [forallb] in U. apply andb_true_iff in U. destruct U as [U1 U2].
  apply andb_true_iff in U1. cbn [filter]. rewrite (proj1 U1). f_equal. exact (IH U2).
Qed.

Lemma run : forall l prev direct v w, plain prev direct l = true -> state_ok prev direct v w ->
  exists v' w' tss, reads v w (text l) v' w' [] /\ Forall2 (fun e ts => plain_piece e = true /\ mins e ts) (pieces l) tss
    /\ kept (rev (flush w' v')) = kept (rev (flush w v)) ++ concat tss.
Proof.
  induction l as [|[g|e] l IH]; intros prev direct v w H OK.
  - exists v, w, []. split; [constructor|]. split; [constructor|]. cbn [concat]. rewrite app_nil_r. reflexivity.
  - cbn [JsPlainSpec.plain] in H. apply andb_true_iff in H. destruct H as [H PL]. apply andb_true_iff in H. destruct H as [H _]. apply andb_true_iff in H. destruct H as [B Ne].
    assert (Gn : g <> []) by (destruct g; [discriminate Ne|discriminate]).
    destruct (layout_reads g (between_layout _ g (le_n _) B) Gn v w (text l)) as (x & R & U).
    destruct (IH prev false (x ++ flush w v) [] PL) as (v' & w' & tss & R2 & F & K).
    { destruct OK as [_ S]. split; [left; reflexivity|]. cbn [flush]. destruct prev as [p|].
      - destruct S as (P & ts & M & S). split; [exact P|]. exists ts. split; [exact M|]. rewrite (useless_significant x _ U). exact S.
      - rewrite (useless_significant x _ U). exact S. }
    exists v', w', tss. split; [eapply reads_trans; [exact R|exact R2]|]. split; [exact F|]. rewrite K. cbn [flush]. rewrite rev_app_distr, kept_app.
    rewrite (kept_useless (rev x)) by (apply Forall_rev; exact U). rewrite app_nil_r. reflexivity.
  - destruct (step start_u part_u prev direct e l v w H OK) as (v1 & w1 & ts & R & M & E & OK1).
    cbn [JsPlainSpec.plain] in H. apply andb_true_iff in H. destruct H as [H PL]. apply andb_true_iff in H. destruct H as [H _]. apply andb_true_iff in H. destruct H as [P _].
    destruct (IH (Some e) true v1 w1 PL OK1) as (v' & w' & tss & R2 & F & K).
    exists v', w', (ts :: tss). split; [eapply reads_trans; [exact R|exact R2]|]. split; [constructor; auto|].
    rewrite K, E, rev_app_distr, rev_involutive, kept_app. rewrite (kept_useful e ts (mins_fits _ _ e ts P M)). cbn [concat]. rewrite <- app_assoc. reflexivity.
Qed.

(** ** The printed text *)

Lemma joined_app : forall a b, a <> [] -> b <> [] -> joined (a ++ b) = joined a ++ separator (last a dflt) (hd dflt b) ++ joined b.
Proof.
  induction a as [|t a IH]; intros b Na Nb; [congruence|]. destruct a as [|u a].
  - cbn [app last]. destruct b as [|x b]; [congruence|]. cbn [joined hd]. rewrite app_nil_r. reflexivity.
  - change (joined ((t :: u :: a) ++ b)) with (token_show t ++ separator t u ++ joined ((u :: a) ++ b)).
    change (joined (t :: u :: a)) with (token_show t ++ separator t u ++ joined (u :: a)).
    change (last (t :: u :: a) dflt) with (last (u :: a) dflt).
    rewrite (IH b ltac:(discriminate) Nb), <- !app_assoc. reflexivity.
Qed.

Lemma printed : forall l tss, Forall2 (fun e ts => plain_piece e = true /\ mins e ts) l tss -> joined (concat tss) = compact l.
Proof.
  intros l tss F. induction F as [|e ts l tss [P M] F IH]; [reflexivity|]. destruct (mins_fits _ _ e ts P M) as [F1 F2 F3 F4 F5 F6 F7 F8 F9].
  cbn [concat compact]. destruct F as [|e2 ts2 l tss [P2 M2] F].
  - cbn [concat]. rewrite !app_nil_r. exact F3.
  - destruct (mins_fits _ _ e2 ts2 P2 M2) as [G1 G2 G3 G4 G5 G6 G7 G8 G9].
    assert (N2 : concat (ts2 :: tss) <> []) by (cbn [concat]; destruct ts2; [congruence|discriminate]).
    rewrite (joined_app ts _ F1 N2), F3, IH. f_equal. f_equal.
    assert (Hh : hd dflt (concat (ts2 :: tss)) = hd dflt ts2) by (cbn [concat]; destruct ts2; [congruence|reflexivity]).
    rewrite Hh. unfold separator, spaced. rewrite F4, F5, G6, G7. reflexivity.
Qed.

Lemma dropped : forall l tss, Forall2 (fun e ts => plain_piece e = true /\ mins e ts) l tss -> exists tss',
  Forall2 (fun e ts => plain_piece e = true /\ mins e ts) (skip_semicolons l) tss' /\ drop_semicolons (concat tss) = concat tss'.
Proof.
  intros l tss F. induction F as [|e ts l tss [P M] F IH]; [exists []; split; [constructor|reflexivity]|].
  destruct (mins_fits _ _ e ts P M) as [F1 F2 F3 F4 F5 F6 F7 F8 F9]. cbn [skip_semicolons]. destruct (str_eqb (snd e) (S_ ";")).
  - destruct IH as (tss' & A & B). exists tss'. split; [exact A|]. subst ts. cbn [concat app drop_semicolons]. exact B.
  - exists (ts :: tss). split; [constructor; auto|]. cbn [concat]. destruct ts as [|t ts]; [congruence|]. cbn [hd] in F8. cbn [app drop_semicolons]. rewrite F8. reflexivity.
Qed.

Theorem plain_minify : forall l, plain None false l = true -> js_minify (text l) = Ok (compact (skip_semicolons (pieces l))).
Proof.
  intros l H. destruct (run l None false [] [] H) as (v & w & tss & R & F & K); [split; [left; reflexivity|reflexivity]|].
  rewrite (minify_kept (text l) (rev (flush w v))); [|exists v, w; auto]. rewrite K. cbn [flush rev app]. change (kept []) with (@nil token). cbn [app].
  destruct (dropped _ _ F) as (tss' & F' & D). rewrite D, tokens_show_joined. f_equal. exact (printed _ _ F').
Qed.

(** ** The tokens that an engine reads *)

Variable goal : list element -> bool.
Notation scan_at := (scan_at start_u part_u goal).
Notation read := (EsSpec.read start_u part_u goal).
Notation es_read := (es_read start_u part_u goal).
Notation es_tokens := (es_tokens start_u part_u goal).
Notation runs_on := (EsSpec.runs_on start_u part_u).
Notation goal_ok := (goal_ok goal).
Notation apart := (JsPlainSpec.apart start_u part_u).

Definition silent (e : element) : bool := match fst e with Blank | Comment => true | _ => false end.

Lemma silent_runs : forall e s, silent e = true -> runs_on e s = false.
Proof. intros e [|c s] H; [reflexivity|]. unfold silent in H. unfold EsSpec.runs_on. destruct (fst e); try discriminate H; reflexivity. Qed.

Lemma last_cons : forall e l, silent e = true \/ l <> [] -> silent (last_of l) = true -> silent (last_of (e :: l)) = true.
Proof. intros e [|x l] H S; [destruct H as [H|H]; [exact H|congruence]|exact S]. Qed.

Lemma take_line : forall b n r, Forall (fun c => line_end c = false) b -> newline n = true ->
  snd (take_while (fun c => negb (line_end c)) (b ++ n :: r)) = n :: r.
Proof.
  intros b n r F N. induction F as [|c b H F IH]; cbn [app take_while].
  - replace (line_end n) with true by (unfold line_end, newline in *; lia). reflexivity.
  - rewrite H. cbn [negb snd]. exact IH.
Qed.

Lemma gap_es : forall n g st, (length g <= n)%nat -> between Idle g = true -> exists l, es_read st g = Some (l, st)
  /\ forallb (fun e => negb (matters e)) l = true /\ silent (last_of l) = true /\ (l = [] -> g = []).
Proof.
  induction n as [|n IH]; intros g st L H.
  - destruct g; [exists []; repeat split; reflexivity|cbn [length] in L; lia].
  - destruct (between_cases g H) as [->|[(c & r & -> & O & B)|[(b & nl & r & -> & F & N & B)|(s & b & r & -> & (E & F & T & B) & X)]]].
    + exists []. repeat split; reflexivity.
    + destruct (IH r st ltac:(cbn [length] in L; lia) B) as (l & R & M & Si & Z). exists ((Blank, []) :: l).
      split; [|split; [exact M|split; [apply last_cons; [left; reflexivity|exact Si]|discriminate]]].
      unfold EsSpec.es_read in *. cbn [length]. rewrite (read_step start_u part_u goal). unfold EsSpec.scan_at. cbn [EsSpec.scan].
      replace (white c || line_end c) with true by (unfold one_of in O; cbn [existsb] in O; unfold white, line_end; lia).
      change (next st (Blank, [])) with st. rewrite R. reflexivity.
    + cbn [length] in L. rewrite app_length in L. cbn [length] in L.
      destruct (IH r st ltac:(lia) B) as (l & R & M & Si & Z). exists ((LineComment, []) :: (Blank, []) :: l).
      split; [|split; [exact M|split; [|discriminate]]].
      * unfold EsSpec.es_read in *. cbn [length]. rewrite (read_step start_u part_u goal). unfold EsSpec.scan_at. cbn [EsSpec.scan].
        change (white 0x2F || line_end 0x2F) with false. change (0x2F =? 0x2F) with true. cbv iota. cbn [scan_slash]. change (0x2F =? 0x2F) with true. cbv iota.
        rewrite (take_line b nl r F N). change (next st (LineComment, [])) with st.
        assert (R2 : read (S (length r)) st (nl :: r) = Some ((Blank, []) :: l, st)).
        { rewrite (read_step start_u part_u goal). unfold EsSpec.scan_at. cbn [EsSpec.scan].
          replace (white nl || line_end nl) with true by (unfold newline in N; unfold white, line_end; lia).
          change (next st (Blank, [])) with st. rewrite R. reflexivity. }
        rewrite (read_more start_u part_u goal (S (length r)) _ st (nl :: r) _ R2); [reflexivity|]. rewrite app_length. cbn [length]. lia.
      * apply (last_cons (LineComment, []) ((Blank, []) :: l)); [right; discriminate|]. apply last_cons; [left; reflexivity|exact Si].
    + assert (Ls : (length r <= length s)%nat) by (rewrite E, app_length; cbn [length]; lia).
      cbn [length] in L. destruct (IH r st ltac:(lia) B) as (l & R & M & Si & Z). exists ((Comment, []) :: l).
      split; [|split; [exact M|split; [apply last_cons; [left; reflexivity|exact Si]|discriminate]]].
      unfold EsSpec.es_read in *. cbn [length]. rewrite (read_step start_u part_u goal). unfold EsSpec.scan_at. cbn [EsSpec.scan].
      change (white 0x2F || line_end 0x2F) with false. change (0x2F =? 0x2F) with true. cbv iota. cbn [scan_slash]. change (0x2A =? 0x2F) with false. change (0x2A =? 0x2A) with true. cbv iota.
      rewrite T. change (next st (Comment, [])) with st.
      rewrite (read_more start_u part_u goal (length r) _ st r _ R); [reflexivity|lia].
Qed.

(** A slash is the only character whose reading depends on the goal. *)
Lemma scan_goal : forall re re' sub s, starts (N.eqb 0x2F) s = false -> EsSpec.scan start_u part_u re sub s = EsSpec.scan start_u part_u re' sub s.
Proof. intros re re' sub [|c s] H; [reflexivity|]. cbn [starts] in H. cbn [EsSpec.scan]. rewrite N.eqb_sym, H. reflexivity. Qed.

Lemma piece_goal : forall e past, plain_piece e = true ->
  (if kind_eqb (fst e) Regex then goal past else if sign ["/"; "/="]%string e then negb (goal past) else true) = true ->
  EsSpec.scan start_u part_u (goal past) false (snd e) = Some (e, []).
Proof.
  intros e past H G. pose proof (alone_scan _ _ e (piece_alone _ _ e H)) as S.
  destruct (starts (N.eqb 0x2F) (snd e)) eqn:T.
  2:{ rewrite <- S. apply scan_goal. exact T. }
  destruct (piece_shape _ _ e H) as (c & s & E & M). rewrite E in T. cbn [starts] in T. apply N.eqb_eq in T. subst c.
  assert (K : fst e = Regex \/ (fst e = Punct /\ sign ["/"; "/="]%string e = true)).
  { destruct (fst e) eqn:Q; try (left; reflexivity).
    all: try (exfalso; unfold JsPlainSpec.plain_piece in H; rewrite Q, andb_false_r in H; discriminate H).
    - exfalso. destruct M as (M & _). vm_compute in M. discriminate M.
    - exfalso. destruct M as (M & _). discriminate M.
    - right. split; [reflexivity|]. destruct M as (M & _). unfold sign. rewrite Q. cbn [kind_eqb andb]. unfold is_punct in M. apply existsb_exists in M. destruct M as (p & I & X). apply str_eqb_eq in X. subst p.
      assert (F : forallb (fun p => negb (starts (N.eqb 0x2F) p) || is_text ["/"; "/="]%string p) puncts = true) by (vm_compute; reflexivity).
      rewrite forallb_forall in F. specialize (F _ I). rewrite E in F at 1. cbn [starts] in F. change (0x2F =? 0x2F) with true in F. exact F.
    - exfalso. destruct M as [M|M]; discriminate M.
    - exfalso. destruct M as ([M|M] & _); discriminate M.
    - exfalso. destruct M as ([M|M] & _); discriminate M. }
  destruct K as [K|[K Z]]; rewrite K in *; cbn [kind_eqb] in *.
  - rewrite G. exact S.
  - rewrite Z in G. apply negb_true_iff in G. rewrite G. exact S.
Qed.

Lemma piece_matters : forall e, plain_piece e = true -> matters e = true.
Proof. intros e H. unfold JsPlainSpec.plain_piece in H. apply andb_true_iff in H. destruct H as [_ H]. unfold matters. destruct (fst e); (reflexivity || discriminate H). Qed.

Lemma piece_es : forall e past, plain_piece e = true ->
  (if kind_eqb (fst e) Regex then goal past else if sign ["/"; "/="]%string e then negb (goal past) else true) = true ->
  es_read (past, []) (snd e) = Some ([e], (next_past past e, [])).
Proof.
  intros e past H G. pose proof (piece_goal e past H G) as S. pose proof (piece_nonempty _ _ e H) as N. unfold EsSpec.es_read.
  destruct (snd e) as [|c s] eqn:E; [congruence|]. cbn [length]. rewrite (read_step start_u part_u goal). unfold EsSpec.scan_at. cbn [fst snd in_sub]. rewrite S.
  assert (NX : next (past, []) e = (next_past past e, [])).
  { unfold next. rewrite (piece_matters e H). cbn [fst snd]. f_equal. unfold next_subs. destruct (fst e) eqn:Q; try reflexivity.
    unfold JsPlainSpec.plain_piece in H. rewrite Q in H. apply andb_true_iff in H. destruct H as [_ H]. apply negb_true_iff in H. rewrite H. destruct (starts (N.eqb 0x7D) (snd e)); reflexivity. }
  rewrite NX, (read_nil start_u part_u goal). reflexivity.
Qed.

Lemma filter_silent : forall l, forallb (fun e => negb (matters e)) l = true -> filter matters l = [].
Proof. induction l as [|e l IH]; intro H; [reflexivity|]. cbn [forallb] in H. apply andb_true_iff in H. destruct H as [A B]. apply negb_true_iff in A. cbn [filter]. rewrite A. exact (IH B). Qed.

Lemma text_es : forall l prev direct past, plain prev direct l = true -> goal_ok past (pieces l) = true ->
  exists ls st, es_read (past, []) (text l) = Some (ls, st) /\ filter matters ls = pieces l.
Proof.
  induction l as [|[g|e] l IH]; intros prev direct past H G.
  - exists [], (past, []). split; reflexivity.
  - cbn [JsPlainSpec.plain] in H. apply andb_true_iff in H. destruct H as [H PL]. apply andb_true_iff in H. destruct H as [H _]. apply andb_true_iff in H. destruct H as [B _].
    destruct (gap_es (length g) g (past, []) (le_n _) B) as (l1 & R1 & M1 & S1 & _). destruct (IH prev false past PL G) as (l2 & st2 & R2 & M2).
    exists (l1 ++ l2), st2. split; [|rewrite filter_app, (filter_silent l1 M1); exact M2].
    exact (es_read_app start_u part_u goal _ _ _ _ _ _ _ R1 (silent_runs _ _ S1) R2).
  - pose proof H as H0. cbn [JsPlainSpec.plain] in H. apply andb_true_iff in H. destruct H as [H PL]. apply andb_true_iff in H. destruct H as [H _]. apply andb_true_iff in H. destruct H as [P _].
    change (pieces (Piece e :: l)) with (e :: pieces l) in G |- *. cbn [JsPlainSpec.goal_ok] in G. apply andb_true_iff in G. destruct G as [G1 G2].
    destruct (IH (Some e) true (next_past past e) PL G2) as (l2 & st2 & R2 & M2). exists ([e] ++ l2), st2. split.
    + apply (es_read_app start_u part_u goal _ (snd e) [e] _ (text l) l2 st2 (piece_es e past P G1)); [|exact R2].
      change (last_of [e]) with e. destruct (text l) as [|c s] eqn:T; [reflexivity|]. destruct (plain_next _ _ e l PL c s T) as (R & _). exact R.
    + cbn [app filter]. rewrite (piece_matters e P), M2. reflexivity.
Qed.

Lemma runs_on_blank : forall e s, plain_piece e = true -> runs_on e (0x20 :: s) = false.
Proof.
  intros e s H. pose proof (piece_matters e H) as M. unfold EsSpec.runs_on. unfold matters in M. destruct (fst e) eqn:Q; try discriminate M; try reflexivity.
  destruct (piece_shape _ _ e H) as (c & s' & E & X). rewrite Q in X. destruct X as (X & _). unfold is_punct in X. apply existsb_exists in X. destruct X as (p & I & Y). apply str_eqb_eq in Y. subst p.
  assert (F : forallb (fun p => negb (existsb (fun q => str_eqb (firstn (S (length p)) q) (p ++ [0x20])) puncts)) puncts = true) by (vm_compute; reflexivity).
  rewrite forallb_forall in F. specialize (F _ I). apply negb_true_iff in F. rewrite F. change (digit 0x20) with false. change (one_of (S_ "/*") 0x20) with false. rewrite !andb_false_r. reflexivity.
Qed.

Lemma compact_es : forall l past, forallb plain_piece l = true -> apart l = true -> goal_ok past l = true ->
  exists ls st, es_read (past, []) (compact l) = Some (ls, st) /\ filter matters ls = l.
Proof.
  induction l as [|e l IH]; intros past H A G; [exists [], (past, []); split; reflexivity|].
  cbn [forallb] in H. apply andb_true_iff in H. destruct H as [P PL]. cbn [JsPlainSpec.apart] in A. apply andb_true_iff in A. destruct A as [A1 A2].
  cbn [JsPlainSpec.goal_ok] in G. apply andb_true_iff in G. destruct G as [G1 G2]. destruct (IH (next_past past e) PL A2 G2) as (l2 & st2 & R2 & M2).
  pose proof (piece_es e past P G1) as R1. destruct l as [|e2 l].
  - exists [e], (next_past past e, []). cbn [compact]. rewrite app_nil_r. split; [exact R1|]. cbn [filter]. rewrite (piece_matters e P). reflexivity.
  - change (compact (e :: e2 :: l)) with (snd e ++ (if spaced e e2 then [0x20] else []) ++ compact (e2 :: l)). destruct (spaced e e2).
    + exists ([e] ++ [(Blank, [])] ++ l2), st2. split.
      * refine (es_read_app start_u part_u goal _ (snd e) [e] _ _ _ st2 R1 (runs_on_blank e _ P) _).
        refine (es_read_app start_u part_u goal _ [0x20] [(Blank, [])] _ _ l2 st2 (es_read_blank start_u part_u goal _) _ R2). apply silent_runs. reflexivity.
      * cbn [app filter]. rewrite (piece_matters e P). change (matters (Blank, [])) with false. cbv iota. rewrite M2. reflexivity.
    + cbn [orb] in A1. apply negb_true_iff in A1. exists ([e] ++ l2), st2. split.
      * refine (es_read_app start_u part_u goal _ (snd e) [e] _ _ l2 st2 R1 _ R2). change (last_of [e]) with e.
        pose proof (forallb_forall plain_piece (e2 :: l)) as [FF _]. pose proof (piece_nonempty _ _ e2 (FF PL e2 (or_introl eq_refl))) as N2.
        cbn [compact]. rewrite (runs_on_first start_u part_u e (snd e2) _ N2). exact A1.
      * cbn [app filter]. rewrite (piece_matters e P), M2. reflexivity.
Qed.

Lemma pieces_plain : forall l prev direct, plain prev direct l = true -> forallb plain_piece (pieces l) = true.
Proof.
  induction l as [|[g|e] l IH]; intros prev direct H; [reflexivity| |]; cbn [JsPlainSpec.plain] in H; apply andb_true_iff in H; destruct H as [H PL].
  - exact (IH _ _ PL).
  - apply andb_true_iff in H. destruct H as [H _]. apply andb_true_iff in H. destruct H as [P _]. change (pieces (Piece e :: l)) with (e :: pieces l). cbn [forallb]. rewrite P. exact (IH _ _ PL).
Qed.

Lemma skip_goal : forall l, goal_ok [] l = true -> goal_ok [] (skip_semicolons l) = true.
Proof.
  induction l as [|e l IH]; intro G; [reflexivity|]. cbn [skip_semicolons]. destruct (str_eqb (snd e) (S_ ";")) eqn:E; [|exact G].
  cbn [JsPlainSpec.goal_ok] in G. apply andb_true_iff in G. destruct G as [_ G]. cbn [next_past] in G. rewrite E in G. exact (IH G).
Qed.

Lemma skip_forallb : forall f l, forallb f l = true -> forallb f (skip_semicolons l) = true.
Proof.
  induction l as [|e l IH]; intro G; [reflexivity|]. cbn [skip_semicolons]. destruct (str_eqb (snd e) (S_ ";")) eqn:E; [|exact G].
  cbn [forallb] in G. apply andb_true_iff in G. exact (IH (proj2 G)).
Qed.

Lemma skip_apart : forall l, apart l = true -> apart (skip_semicolons l) = true.
Proof.
  induction l as [|e l IH]; intro G; [reflexivity|]. cbn [skip_semicolons]. destruct (str_eqb (snd e) (S_ ";")) eqn:E; [|exact G].
  cbn [JsPlainSpec.apart] in G. apply andb_true_iff in G. exact (IH (proj2 G)).
Qed.

Lemma skip_skip : forall l, skip_semicolons (skip_semicolons l) = skip_semicolons l.
Proof. induction l as [|e l IH]; [reflexivity|]. cbn [skip_semicolons]. destruct (str_eqb (snd e) (S_ ";")) eqn:E; [exact IH|]. cbn [skip_semicolons]. rewrite E. reflexivity. Qed.

Theorem plain_source : forall l, plain None false l = true -> goal_ok [] (pieces l) = true ->
  es_tokens (text l) = Some (skip_semicolons (pieces l)).
Proof. intros l H G. destruct (text_es l None false [] H G) as (ls & st & R & M). unfold EsSpec.es_tokens, start. rewrite R, M. reflexivity. Qed.

Theorem plain_output : forall l, plain None false l = true -> goal_ok [] (pieces l) = true -> apart (pieces l) = true ->
  es_tokens (compact (skip_semicolons (pieces l))) = Some (skip_semicolons (pieces l)).
Proof.
  intros l H G A. destruct (compact_es (skip_semicolons (pieces l)) []) as (ls & st & R & M).
  - apply skip_forallb, (pieces_plain l None false H).
  - apply skip_apart, A.
  - apply skip_goal, G.
  - unfold EsSpec.es_tokens, start. rewrite R, M, skip_skip. reflexivity.
Qed.

End P.
