(** Plain programs: the tokens and line ends that an engine reads, and their trees. *)
From Coq Require Import String List NArith ZArith Bool Lia ZifyBool ZifyN Arith.
From Verif Require Import Base JsModel EsSpec EsProofs1 EsProofs2 JsPlainSpec JsPlainProofs1 JsPlainProofs2
  JsTreeSpec JsTreeProofs1 JsTreeProofs4.
Import ListNotations.
Open Scope N_scope.

Section P.
Variables start_u part_u : N -> bool.
Notation plain_piece := (plain_piece start_u part_u).
Notation plain := (JsPlainSpec.plain start_u part_u).
Notation runs_on := (EsSpec.runs_on start_u part_u).
Notation apart := (JsPlainSpec.apart start_u part_u).

Section G.
Variable goal : list element -> bool.
Notation scan_at := (scan_at start_u part_u goal).
Notation read_lines := (read_lines start_u part_u goal).
Notation goal_ok := (goal_ok goal).

Lemma lines_nil : forall n st nl, read_lines n st nl [] = Some [].
Proof. intros [|n] st nl; reflexivity. Qed.

Lemma lines_skip : forall n st nl x e r, scan_at st (x ++ r) = Some (e, r) -> x <> [] -> matters e = false ->
  read_lines (S n) st nl (x ++ r) = read_lines n st (nl || has_line_end x) r.
Proof.
  intros n st nl x e r S N M. destruct x as [|c x]; [congruence|]. cbn [app] in *. cbn [JsTreeSpec.read_lines]. rewrite S, M. do 2 f_equal.
  change (c :: x ++ r) with ((c :: x) ++ r). rewrite app_length, Nat.add_sub, firstn_app, Nat.sub_diag, firstn_all, firstn_O, app_nil_r. reflexivity.
Qed.

Lemma lines_take : forall n st nl x e r, scan_at st (x ++ r) = Some (e, r) -> x <> [] -> matters e = true ->
  read_lines (S n) st nl (x ++ r) = match read_lines n (next st e) false r with Some l => Some ((nl, e) :: l) | None => None end.
Proof. intros n st nl x e r S N M. destruct x as [|c x]; [congruence|]. cbn [app] in *. cbn [JsTreeSpec.read_lines]. rewrite S, M. reflexivity. Qed.

Lemma lines_more : forall n m st nl s l, read_lines n st nl s = Some l -> (n <= m)%nat -> read_lines m st nl s = Some l.
Proof.
  induction n as [|n IH]; intros m st nl s l H L.
  - destruct s as [|c s]; [rewrite lines_nil in *; exact H|discriminate H].
  - destruct s as [|c s]; [rewrite lines_nil in *; exact H|]. destruct m as [|m]; [lia|]. cbn [JsTreeSpec.read_lines] in *.
    destruct (scan_at st (c :: s)) as [[e r]|]; [|discriminate H]. destruct (matters e).
    + destruct (read_lines n (next st e) false r) as [x|] eqn:E; [|discriminate H]. rewrite (IH m _ _ _ _ E) by lia. exact H.
    + apply (IH m _ _ _ _ H). lia.
Qed.

Lemma no_line_end : forall b, Forall (fun c => line_end c = false) b -> has_line_end b = false.
Proof. intros b F. unfold has_line_end. induction F as [|c b H F IH]; [reflexivity|]. cbn [existsb]. rewrite H. exact IH. Qed.

Lemma has_app : forall a b, has_line_end (a ++ b) = has_line_end a || has_line_end b.
Proof. intros. apply existsb_app. Qed.

Lemma scan_white : forall st c r, white c || line_end c = true -> scan_at st ([c] ++ r) = Some ((Blank, []), r).
Proof. intros st c r H. unfold EsSpec.scan_at. cbn [app EsSpec.scan]. rewrite H. reflexivity. Qed.

Lemma gap_lines : forall n g, (length g <= n)%nat -> between Idle g = true -> forall m st nl y l,
  read_lines m st (nl || has_line_end g) y = Some l -> read_lines (length g + m) st nl (g ++ y) = Some l.
Proof.
  induction n as [|n IH]; intros g L H m st nl y l R.
  - destruct g; [|cbn [length] in L; lia]. change (has_line_end []) with false in R. rewrite orb_false_r in R. exact R.
  - destruct (between_cases g H) as [->|[(c & r & -> & O & B)|[(b & e & r & -> & F & N & B)|(s & b & r & -> & (E & F & T & B) & X)]]].
    + change (has_line_end []) with false in R. rewrite orb_false_r in R. exact R.
    + change ((c :: r) ++ y) with ([c] ++ (r ++ y)). change (length (c :: r) + m)%nat with (S (length r + m)).
      rewrite (lines_skip _ _ _ [c] (Blank, []) (r ++ y)); [|apply scan_white; unfold one_of in O; cbn [existsb] in O; unfold white, line_end; lia|discriminate|reflexivity].
      apply IH; [cbn [length] in L; lia|exact B|]. rewrite <- orb_assoc, <- has_app. exact R.
    + cbn [length] in L. rewrite app_length in L. cbn [length] in L.
      replace ((0x2F :: 0x2F :: b ++ e :: r) ++ y) with ((0x2F :: 0x2F :: b) ++ ([e] ++ (r ++ y))) by (cbn [app]; rewrite <- app_assoc; reflexivity).
      apply (lines_more (S (S (length r + m)))); [|cbn [length]; rewrite app_length; cbn [length]; lia].
      rewrite (lines_skip _ _ _ _ (LineComment, []) ([e] ++ (r ++ y))); [| |discriminate|reflexivity].
      2:{ unfold EsSpec.scan_at. cbn [app EsSpec.scan]. change (white 0x2F || line_end 0x2F) with false. change (0x2F =? 0x2F) with true. cbv iota. cbn [scan_slash]. change (0x2F =? 0x2F) with true. cbv iota.
          rewrite (take_line start_u part_u b e (r ++ y) F N). reflexivity. }
      rewrite (lines_skip _ _ _ [e] (Blank, []) (r ++ y)); [|apply scan_white; unfold JsLexSpec.newline in N; unfold white, line_end; lia|discriminate|reflexivity].
      apply IH; [lia|exact B|]. rewrite <- R. f_equal. rewrite <- !orb_assoc. f_equal. rewrite <- !has_app. reflexivity.
    + assert (Ls : (length r + 2 <= length s)%nat) by (rewrite E, app_length; cbn [length]; lia).
      cbn [length] in L.
      replace ((0x2F :: 0x2A :: s) ++ y) with ((0x2F :: 0x2A :: b ++ [0x2A; 0x2F]) ++ (r ++ y)) by (rewrite E; cbn [app]; rewrite <- !app_assoc; reflexivity).
      apply (lines_more (S (length r + m))); [|cbn [length]; lia].
      rewrite (lines_skip _ _ _ _ (Comment, []) (r ++ y)); [| |discriminate|reflexivity].
      2:{ unfold EsSpec.scan_at. cbn [app EsSpec.scan]. change (white 0x2F || line_end 0x2F) with false. change (0x2F =? 0x2F) with true. cbv iota. cbn [scan_slash]. change (0x2A =? 0x2F) with false. change (0x2A =? 0x2A) with true. cbv iota.
          replace ((b ++ [0x2A; 0x2F]) ++ r ++ y) with (s ++ y) by (rewrite E, <- !app_assoc; reflexivity).
          rewrite (take_comment_app s r y T). reflexivity. }
      apply IH; [lia|exact B|]. rewrite <- R. f_equal. rewrite <- orb_assoc. f_equal. rewrite <- has_app, E. cbn [app]. rewrite <- app_assoc. reflexivity.
Qed.

Lemma piece_next : forall e past, plain_piece e = true -> next (past, []) e = (next_past past e, []).
Proof.
  intros e past H. unfold next. rewrite (piece_matters _ _ e H). cbn [fst snd]. f_equal. unfold next_subs. destruct (fst e) eqn:Q; try reflexivity.
  unfold JsPlainSpec.plain_piece in H. rewrite Q in H. apply andb_true_iff in H. destruct H as [_ H]. apply negb_true_iff in H. rewrite H. destruct (starts (N.eqb 0x7D) (snd e)); reflexivity.
Qed.

Lemma piece_lines : forall e past nl y l m, plain_piece e = true ->
  (if kind_eqb (fst e) Regex then goal past else if sign ["/"; "/="]%string e then negb (goal past) else true) = true ->
  runs_on e y = false -> read_lines m (next_past past e, []) false y = Some l ->
  read_lines (S m) (past, []) nl (snd e ++ y) = Some ((nl, e) :: l).
Proof.
  intros e past nl y l m H G R E. rewrite (lines_take _ _ _ _ e y).
  - rewrite (piece_next e past H), E. reflexivity.
  - unfold EsSpec.scan_at. cbn [fst snd in_sub]. apply (scan_app start_u part_u _ _ (snd e) e []); [exact (piece_goal _ _ goal e past H G)|intros _; exact R|intros _ Q; discriminate Q].
  - exact (piece_nonempty _ _ e H).
  - exact (piece_matters _ _ e H).
Qed.

Lemma text_lines : forall l prev direct past nl, plain prev direct l = true -> goal_ok past (pieces l) = true ->
  read_lines (length (text l)) (past, []) nl (text l) = Some (lines nl l).
Proof.
  induction l as [|[g|e] l IH]; intros prev direct past nl H G.
  - reflexivity.
  - cbn [JsPlainSpec.plain] in H. apply andb_true_iff in H. destruct H as [H PL]. apply andb_true_iff in H. destruct H as [H _]. apply andb_true_iff in H. destruct H as [B _].
    change (text (Between g :: l)) with (g ++ text l). rewrite app_length. cbn [lines]. apply (gap_lines (length g) g (le_n _) B). exact (IH prev false past _ PL G).
  - pose proof H as H0. cbn [JsPlainSpec.plain] in H. apply andb_true_iff in H. destruct H as [H PL]. apply andb_true_iff in H. destruct H as [H _]. apply andb_true_iff in H. destruct H as [P _].
    change (pieces (Piece e :: l)) with (e :: pieces l) in G. cbn [JsPlainSpec.goal_ok] in G. apply andb_true_iff in G. destruct G as [G1 G2].
    change (text (Piece e :: l)) with (snd e ++ text l). cbn [lines].
    apply (lines_more (S (length (text l)))); [|pose proof (piece_nonempty _ _ e P) as N; rewrite app_length; destruct (snd e); [congruence|cbn [length]; lia]].
    apply piece_lines; [exact P|exact G1| |exact (IH (Some e) true (next_past past e) false PL G2)].
    destruct (text l) as [|c s] eqn:T; [reflexivity|]. destruct (plain_next _ _ e l PL c s T) as (R & _). exact R.
Qed.

Lemma compact_lines : forall l past, forallb plain_piece l = true -> apart l = true -> goal_ok past l = true ->
  read_lines (length (compact l)) (past, []) false (compact l) = Some (map (pair false) l).
Proof.
  induction l as [|e l IH]; intros past H A G; [reflexivity|].
  cbn [forallb] in H. apply andb_true_iff in H. destruct H as [P PL]. cbn [JsPlainSpec.apart] in A. apply andb_true_iff in A. destruct A as [A1 A2].
  cbn [JsPlainSpec.goal_ok] in G. apply andb_true_iff in G. destruct G as [G1 G2]. specialize (IH (next_past past e) PL A2 G2).
  pose proof (piece_nonempty _ _ e P) as N. destruct l as [|e2 l].
  - cbn [compact map]. apply (lines_more 1); [|destruct (snd e); [congruence|cbn [app length]; lia]]. apply piece_lines; [exact P|exact G1|reflexivity|reflexivity].
  - change (compact (e :: e2 :: l)) with (snd e ++ (if spaced e e2 then [0x20] else []) ++ compact (e2 :: l)). cbn [map] in *. destruct (spaced e e2).
    + apply (lines_more (S (S (length (compact (e2 :: l)))))); [|rewrite app_length; destruct (snd e); [congruence|cbn [app length]; lia]].
      apply piece_lines; [exact P|exact G1|exact (runs_on_blank _ _ e _ P)|].
      rewrite (lines_skip _ _ _ [0x20] (Blank, []) (compact (e2 :: l))); [exact IH|apply scan_white; reflexivity|discriminate|reflexivity].
    + cbn [orb] in A1. apply negb_true_iff in A1.
      apply (lines_more (S (length (compact (e2 :: l))))); [|rewrite app_length; destruct (snd e); [congruence|cbn [app length]; lia]].
      apply piece_lines; [exact P|exact G1| |exact IH].
      pose proof (forallb_forall plain_piece (e2 :: l)) as [FF _]. pose proof (piece_nonempty _ _ e2 (FF PL e2 (or_introl eq_refl))) as N2.
      cbn [compact app]. rewrite (runs_on_first start_u part_u e (snd e2) _ N2). exact A1.
Qed.

End G.

(** ** The goal is right for plain programs *)

Definition agrees (prev : option element) (past : list element) : Prop :=
  match past with
  | e :: _ => prev = Some e
  | [] => prev = None \/ exists e, prev = Some e /\ e = P ";"
  end.

Lemma agrees_goal : forall prev past e, agrees prev past -> placed prev e = true ->
  (if kind_eqb (fst e) Regex then usual_goal past else if sign ["/"; "/="]%string e then negb (usual_goal past) else true) = true.
Proof.
  intros prev past e A H. unfold placed in H. destruct (sign ["/"; "/="]%string e) eqn:D.
  - assert (K : kind_eqb (fst e) Regex = false) by (unfold sign in D; destruct (fst e); (reflexivity || discriminate D)). rewrite K.
    destruct past as [|x past]; cbn [agrees usual_goal] in *.
    + destruct A as [->|(x & -> & ->)]; discriminate H.
    + subst prev. destruct x as [k s]. cbn [fst snd] in *. destruct k; try reflexivity. cbn [kind_eqb andb]. rewrite H. reflexivity.
  - destruct (kind_eqb (fst e) Regex); [|reflexivity]. destruct past as [|x past]; [reflexivity|]. cbn [agrees usual_goal] in *. subst prev.
    apply andb_true_iff in H. destruct H as [H1 H2]. rewrite H1. cbn [andb]. apply negb_true_iff in H2. apply negb_true_iff.
    unfold is_text in *. cbn [map existsb] in *. apply orb_false_elim in H2. destruct H2 as [B1 H2]. apply orb_false_elim in H2. destruct H2 as [B2 H2]. apply orb_false_elim in H2. destruct H2 as [B3 _].
    rewrite B1, B2, B3. reflexivity.
Qed.

Lemma semicolon_piece : forall e, plain_piece e = true -> str_eqb (snd e) (S_ ";") = true -> e = P ";".
Proof.
  intros [k s] H E. cbn [snd] in E. apply str_eqb_eq in E. subst s. destruct k; try discriminate H. reflexivity.
Qed.

Lemma usual_ok : forall l prev direct past, plain prev direct l = true -> agrees prev past -> goal_ok usual_goal past (pieces l) = true.
Proof.
  induction l as [|[g|e] l IH]; intros prev direct past H A; [reflexivity| |]; cbn [JsPlainSpec.plain] in H; apply andb_true_iff in H; destruct H as [H PL].
  - exact (IH _ _ _ PL A).
  - apply andb_true_iff in H. destruct H as [H _]. apply andb_true_iff in H. destruct H as [P Pl].
    change (pieces (Piece e :: l)) with (e :: pieces l). cbn [goal_ok]. rewrite (agrees_goal prev past e A Pl). cbn [andb]. apply (IH (Some e) true); [exact PL|].
    unfold next_past. destruct past as [|x past]; [|reflexivity]. destruct (str_eqb (snd e) (S_ ";")) eqn:E; [|reflexivity]. right. exists e. split; [reflexivity|exact (semicolon_piece e P E)].
Qed.

(** ** Trees *)

Lemma lines_flat : forall l nl, flat (lines nl l) = map (pair false) (pieces l).
Proof.
  induction l as [|[g|e] l IH]; intro nl; [reflexivity|exact (IH _)|]. cbn [lines]. change (pieces (Piece e :: l)) with (e :: pieces l). cbn [flat map snd]. f_equal. apply IH.
Qed.

Lemma skip_pieces : forall l, forallb plain_piece l = true -> skip (map (pair false) l) = map (pair false) (skip_semicolons l).
Proof.
  induction l as [|e l IH]; intro H; [reflexivity|]. cbn [forallb] in H. apply andb_true_iff in H. destruct H as [P H]. cbn [map skip snd skip_semicolons].
  destruct (str_eqb (snd e) (S_ ";")) eqn:E.
  - rewrite (semicolon_piece e P E), same_refl. exact (IH H).
  - assert (S : same e (JsTreeSpec.P ";") = false) by (unfold same; cbn [JsTreeSpec.P fst snd]; rewrite E, andb_false_r; reflexivity). rewrite S. reflexivity.
Qed.

Theorem tree_source : forall t l, plain None false l = true -> program t (lines false l) -> es_program start_u part_u (text l) = Some t.
Proof.
  intros t l H W. unfold es_program, es_lines, start. rewrite (text_lines usual_goal l None false [] false H (usual_ok l None false [] H (or_introl eq_refl))).
  exact (program_parse t _ W).
Qed.

Theorem tree_output : forall t l, plain None false l = true -> apart (pieces l) = true -> program t (lines false l) ->
  es_program start_u part_u (compact (skip_semicolons (pieces l))) = Some (drop_empty t).
Proof.
  intros t l H A W. unfold es_program, es_lines, start. rewrite compact_lines.
  - apply program_parse. rewrite <- (skip_pieces _ (pieces_plain _ _ l None false H)), <- (lines_flat l false). apply program_skip, program_flat, W.
  - apply skip_forallb, (pieces_plain _ _ l None false H).
  - apply skip_apart, A.
  - apply skip_goal, (usual_ok l None false [] H (or_introl eq_refl)).
Qed.

End P.
