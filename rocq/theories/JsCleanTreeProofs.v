(** The aggregation of plain programs after cleaning: the trees. *)
From Coq Require Import String List NArith ZArith Bool Lia ZifyBool ZifyN Arith Permutation.
From Verif Require Import Base JsModel JsUtilModel JsUtilSpec JsUtilProofs JsUtilProofs2 JsLexSpec
  JsLexProofs1 JsLexProofs2 JsLexProofs3 JsWords JsLexProofs4 JsLexProofs6 JsRoundSpec JsRoundProofs1 JsRoundProofs2 JsRoundProofs3
  JsLayoutSpec JsLayoutProofs JsAggModel JsAggSpec JsAggProofs3 JsArrSpec JsArrProofs3 JsArrProofs4 JsPipeSpec JsPipeProofs JsPipeProofs2
  EsSpec EsProofs1 EsProofs2 JsPlainSpec JsPlainProofs1 JsPlainProofs2 JsTreeSpec JsTreeProofs1 JsTreeProofs4 JsTreeProofs5
  JsAggTreeSpec JsAggTreeProofs1 JsAggTreeProofs2 JsArrTreeSpec JsArrTreeProofs.
Import ListNotations.
Open Scope N_scope.

Lemma pieces_only : forall ps, pieces (map Piece ps) = ps.
Proof. induction ps as [|e ps IH]; [reflexivity|]. cbn [map]. change (pieces (Piece e :: map Piece ps)) with (e :: pieces (map Piece ps)). now rewrite IH. Qed.

Lemma lines_only : forall ps, lines false (map Piece ps) = map (pair false) ps.
Proof. induction ps as [|e ps IH]; [reflexivity|]. cbn [map lines]. now rewrite IH. Qed.

Lemma skip_incl : forall l, incl (skip_semicolons l) l.
Proof. induction l as [|e l IH]; [apply incl_refl|]. cbn [skip_semicolons]. destruct (str_eqb (snd e) (S_ ";")); [|apply incl_refl]. intros y Y. right. now apply IH. Qed.

Lemma drop_incl : forall l, incl (drop_semicolons l) l.
Proof. induction l as [|t l IH]; [apply incl_refl|]. cbn [drop_semicolons]. destruct (eq_char SemiColon t); [|apply incl_refl]. intros y Y. right. now apply IH. Qed.

Lemma drop_trees : forall f t, forallb (ok_s f) t = true -> forallb (ok_s f) (drop_empty t) = true.
Proof.
  intros f. induction t as [|s t IH]; intro H; [reflexivity|]. destruct s; try exact H. cbn [drop_empty]. apply IH. cbn [forallb] in H. apply andb_true_iff in H. exact (proj2 H).
Qed.

Lemma drop_occurrences : forall l s, occurrences (drop_semicolons l) s = occurrences l s.
Proof.
  induction l as [|t l IH]; intro s; [reflexivity|]. cbn [drop_semicolons]. destruct (eq_char SemiColon t) eqn:E; [|reflexivity]. rewrite IH. destruct t; try discriminate E. reflexivity.
Qed.

Lemma drop_contents : forall l, contents (drop_semicolons l) = contents l.
Proof.
  induction l as [|t l IH]; [reflexivity|]. cbn [drop_semicolons]. destruct (eq_char SemiColon t) eqn:E; [|reflexivity]. rewrite IH. destruct t; try discriminate E. reflexivity.
Qed.

Lemma skip_beside : forall whole l, beside whole l = true -> beside whole (skip_semicolons l) = true.
Proof.
  intros whole. induction l as [|e l IH]; intro H; [reflexivity|]. cbn [skip_semicolons]. destruct (str_eqb (snd e) (S_ ";")); [|exact H]. apply IH.
  rewrite beside_cons in H. destruct l; [reflexivity|]. apply andb_true_iff in H. exact (proj2 H).
Qed.

Lemma skip_around : forall whole l, clear_around whole l = true -> clear_around whole (skip_semicolons l) = true.
Proof.
  intros whole. induction l as [|e l IH]; intro H; [reflexivity|]. cbn [skip_semicolons]. destruct (str_eqb (snd e) (S_ ";")); [|exact H]. apply IH.
  rewrite clear_around_cons in H. destruct l; [reflexivity|]. apply andb_true_iff in H. exact (proj2 H).
Qed.

Lemma useful_all : forall l, Forall (fun t => useless t = false) l -> filter (fun t => negb (useless t)) l = l.
Proof. intros l F. induction F as [|t l U F IH]; [reflexivity|]. cbn [filter]. rewrite U. cbn [negb]. now rewrite IH. Qed.

Section T.
Variables start_u part_u : N -> bool.
Notation plain_piece := (JsPlainSpec.plain_piece start_u part_u).
Notation splain := (JsPlainSpec.plain start_u part_u).
Notation sapart := (JsPlainSpec.apart start_u part_u).
Notation pairs := (Forall2 (fun e ts => plain_piece e = true /\ mins e ts)).

Section Order.
Variable order : forall A : Type, list A -> list A.
Hypothesis order_ok : forall A (l : list A), Permutation (order A l) l.

Theorem clean_first_tree : forall l t, splain None false l = true -> sapart (pieces l) = true -> program t (lines false l) ->
  r_free (pieces l) = true -> beside (pieces l) (pieces l) = true -> keys_once (pieces l) t = true ->
  exists d ds, clean_first order (text l) = Ok d /\ NoDup (map fst ds) /\ NoDup (map snd ds)
    /\ (forall x s, In (x, s) ds -> new_name x /\ exists e, In e (pieces l) /\ snd e = s /\ repeated (pieces l) e = true)
    /\ es_program start_u part_u d = Some (match ds with [] => drop_empty t | _ => declaring ds :: swapped_tree ds (drop_empty t) end).
Proof.
  intros l t H A W Rf B Ko. destruct (run _ _ l None false [] [] H) as (v & w & tss0 & Rd & F0 & Kp); [split; [left; reflexivity|reflexivity]|].
  cbn [flush rev app] in Kp. change (kept []) with (@nil token) in Kp. cbn [app] in Kp.
  set (ts0 := rev (flush w v)) in *. assert (L : lexes (text l) ts0) by (exists v, w; auto). pose proof (lexes_tokenize _ _ L) as T. destruct (lexes_known _ _ L) as [R0 _].
  assert (Fk : filter (fun t => negb (useless t)) ts0 = concat tss0) by exact Kp.
  destruct (dropped _ _ _ _ F0) as (tss & F & Dk). set (u := concat tss) in *. set (ps := skip_semicolons (pieces l)) in *.
  assert (In0 : incl u (filter (fun t => negb (useless t)) ts0)) by (rewrite Fk, <- Dk; apply drop_incl).
  assert (R : Forall readable u) by (apply Forall_forall; intros x I; apply In0, filter_In in I; rewrite Forall_forall in R0; now apply R0).
  assert (Us : Forall (fun t => useless t = false) u) by (apply Forall_forall; intros x I; apply In0, filter_In in I; now apply negb_true_iff).
  pose proof (useful_all u Us) as Fu0.
  assert (N : no_r_names u).
  { intros y I. apply (no_r_tokens _ _ _ _ F0 Rf y). rewrite <- Fk. now apply In0. }
  destruct (aggregate_spec order order_ok u None) as (vars & ds & ts' & E & G). cbn [app] in E.
  destruct (aggregation_swapped u vars ds ts' G N R (known_plain u R)) as [Gd Fw].
  pose proof (aggregation_created u vars ds ts' G N) as Cr.
  assert (Occ : forall s, occurrences u s = times (pieces l) s) by (intro s; rewrite <- Dk, drop_occurrences; exact (times_occ _ _ _ _ s F0)).
  assert (PP : forallb plain_piece (pieces l) = true) by exact (pieces_plain _ _ l None false H).
  assert (Dr : forall x s, In (x, s) ds -> exists e, In e (pieces l) /\ plain_piece e = true /\ quoted e = true /\ snd e = s /\ repeated (pieces l) e = true).
  { intros x s I. destruct (an_pays _ _ _ _ G x s I) as (_ & O & _). rewrite Occ in O. assert (O' := O). unfold times in O.
    destruct (filter (fun x => quoted x && str_eqb (snd x) s) (pieces l)) as [|e q] eqn:Q; [cbn in O; lia|].
    assert (J : In e (e :: q)) by now left. rewrite <- Q in J. apply filter_In in J. destruct J as [J M]. apply andb_true_iff in M. destruct M as [M1 M2]. apply str_eqb_eq in M2.
    exists e. split; [exact J|]. split; [rewrite forallb_forall in PP; exact (PP e J)|]. split; [exact M1|]. split; [exact M2|]. unfold repeated. rewrite M1, M2. apply Nat.leb_le. exact O'. }
  unfold clean_first, aggregate_strings. rewrite T. cbn [obind]. rewrite clean_tokens_eq. cbn [obind]. rewrite Fk, Dk. fold u. rewrite E. cbn [obind].
  eexists. exists ds. split; [reflexivity|]. split; [exact (proj1 Gd)|]. split; [exact (an_literals _ _ _ _ G)|].
  split; [intros x s I; split; [exact (proj1 (proj2 Gd x s I))|]; destruct (Dr x s I) as (e & J & _ & _ & S & Rp); eauto|].
  destruct ds as [|d0 r] eqn:Ed.
  - assert (Z : ts' = u) by (rewrite Cr; rewrite <- (map_id u) at 2; apply map_ext; intros []; reflexivity). rewrite Z. cbn [declarations app].
    rewrite tokens_show_joined. unfold u. rewrite (printed _ _ _ _ F). exact (tree_output _ _ t l H A W).
  - rewrite <- Ed in *. assert (Ne : ds <> []) by (rewrite Ed; discriminate).
    assert (Cl : clear_of_words u u = true).
    { rewrite (clear_ext u (concat tss0)); [exact (clear_beside _ _ _ _ F0 _ _ F (skip_beside _ _ B))|]. intros []; try reflexivity. cbn [twice]. rewrite Occ, <- (times_occ _ _ _ _ _ F0). reflexivity. }
    pose proof (joined_body u ds _ _ Fw R Cl) as Jb. rewrite tokens_show_joined. rewrite Cr in Jb, Fw |- *.
    rewrite (joined_declared ds _ (map JsPipeProofs.plain (map (created ds) u)) Ne Jb); [| |exact (swapped_head u ds _ _ Fw)].
    2:{ destruct u; exact I. }
    assert (Nm : forall x s, In (x, s) ds -> new_name x) by (intros x s I; exact (proj1 (proj2 Gd x s I))).
    assert (Dw : forall x s, In (x, s) ds -> exists e, plain_piece e = true /\ quoted e = true /\ snd e = s /\ repeated (pieces l) e = true) by (intros x s I; destruct (Dr x s I) as (e & _ & X); eauto).
    destruct (declared_pairs _ _ ds (pieces l) Nm Dw Ne) as (tsd & Fd & Cd). rewrite <- Cd, map_map.
    change (fun x => JsPipeProofs.plain (created ds x)) with (renamed_token ds). unfold u. rewrite concat_map, <- concat_app.
    rewrite (printed start_u part_u (declaring_pieces ds ++ map (swap_piece ds) ps)); [|apply Forall2_app; [exact Fd|exact (R_pairs _ _ ds Nm _ _ F)]].
    assert (PS : forallb plain_piece ps = true) by (apply skip_forallb, PP).
    assert (Wd : program (drop_empty t) (lines false (map Piece ps))).
    { rewrite lines_only. unfold ps. rewrite <- (skip_pieces start_u part_u _ PP), <- (lines_flat l false). apply program_skip, program_flat, W. }
    unfold es_program, es_lines, start. rewrite compact_lines.
    + apply program_parse. pose proof (whole_tree start_u part_u ds (pieces l) Nm Dw (drop_empty t) (map Piece ps) Ne Wd (drop_trees _ _ Ko)) as Wt. rewrite pieces_only in Wt.
      replace (match ds with [] => drop_empty t | _ :: _ => declaring ds :: swapped_tree ds (drop_empty t) end) with (declaring ds :: swapped_tree ds (drop_empty t)) by (rewrite Ed; reflexivity).
      exact Wt.
    + rewrite forallb_app. apply andb_true_iff. split; [exact (pairs_plain _ _ _ _ Fd)|]. exact (pairs_plain _ _ _ _ (R_pairs _ _ ds Nm _ _ F)).
    + apply (declaring_apart start_u part_u ds (pieces l) Nm Dw); [exact Ne|]. exact (R_apart _ _ ds (pieces l) Nm Dw _ PS (skip_apart _ _ _ A) (skip_beside _ _ B)).
    + apply (declaring_goal start_u part_u ds Nm); [exact Ne|exact PS|apply skip_goal; exact (usual_ok _ _ l None false [] H (or_introl eq_refl))].
Qed.

Theorem clean_first_array_tree : forall name l t, splain None false l = true -> sapart (pieces l) = true -> program t (lines false l) ->
  array_name name -> binding name = true -> unused name (pieces l) = true -> requotes start_u part_u (pieces l) = true ->
  clear_around (pieces l) (pieces l) = true -> keys_alone (pieces l) t = true -> N.of_nat (length (pieces l)) <= 2 ^ 64 ->
  exists d elems, clean_first_array order name (text l) = Ok d /\ NoDup elems
    /\ (forall s, In s elems -> exists e, In e (pieces l) /\ inner (snd e) = s /\ alike (pieces l) e = true)
    /\ es_program start_u part_u d = Some (match elems with [] => drop_empty t | _ => declaring_array name elems :: looked_tree name elems (drop_empty t) end).
Proof.
  intros name l t H A W Nm Bn Un Rq B Ko Sz. destruct (run _ _ l None false [] [] H) as (v & w & tss0 & Rd & F0 & Kp); [split; [left; reflexivity|reflexivity]|].
  cbn [flush rev app] in Kp. change (kept []) with (@nil token) in Kp. cbn [app] in Kp.
  set (ts0 := rev (flush w v)) in *. assert (L : lexes (text l) ts0) by (exists v, w; auto). pose proof (lexes_tokenize _ _ L) as T. destruct (lexes_known _ _ L) as [R0 _].
  assert (Fk : filter (fun t => negb (useless t)) ts0 = concat tss0) by exact Kp.
  destruct (dropped _ _ _ _ F0) as (tss & F & Dk). set (u := concat tss) in *. set (ps := skip_semicolons (pieces l)) in *.
  assert (In0 : incl u (filter (fun t => negb (useless t)) ts0)) by (rewrite Fk, <- Dk; apply drop_incl).
  assert (R : Forall readable u) by (apply Forall_forall; intros x I; apply In0, filter_In in I; rewrite Forall_forall in R0; now apply R0).
  assert (Us : Forall (fun t => useless t = false) u) by (apply Forall_forall; intros x I; apply In0, filter_In in I; now apply negb_true_iff).
  assert (Ct : contents u = contents (concat tss0)) by (rewrite <- Dk; apply drop_contents).
  assert (N0 : ~ In (TOther name) u).
  { intro I. apply (unused_tokens _ _ name _ _ F0 Un). rewrite <- Fk. now apply In0. }
  assert (Q0 : requotable u).
  { intros x I Hs. apply (requotable_tokens _ _ _ _ F0 Rq x); [rewrite <- Fk; now apply In0|]. rewrite <- (shared_ext u _ _ Ct). exact Hs. }
  assert (Qt : Forall quoted_token u).
  { pose proof (lexes_quoted _ ts0 L) as Qt. apply Forall_forall. intros x I. apply In0, filter_In in I. rewrite Forall_forall in Qt. now apply Qt. }
  destruct (array_new order order_ok u name None (fun _ _ => true) Qt (no_head name u N0)) as (news & ts' & E & G).
  destruct (array_vias name u news ts' G (known_plain u R) Q0) as (_ & O & Bd & Ln).
  pose proof (array_via_tokens name u news ts' G (known_plain u R) O) as V.
  assert (PP : forallb plain_piece (pieces l) = true) by exact (pieces_plain _ _ l None false H).
  assert (Sh : forall s, In s news -> (2 <= sharing (pieces l) s)%nat) by (intros s I; rewrite <- (sharing_contents _ _ _ _ s F0), <- Ct; exact (O s I)).
  assert (Dr : forall s, In s news -> exists e, In e (pieces l) /\ inner (snd e) = s /\ alike (pieces l) e = true).
  { intros s I. pose proof (Sh s I) as S2. assert (S2' := S2). unfold sharing in S2. destruct (filter (fun x => quoted x && str_eqb s (inner (snd x))) (pieces l)) as [|e q] eqn:Q; [cbn in S2; lia|].
    assert (J : In e (e :: q)) by now left. rewrite <- Q in J. apply filter_In in J. destruct J as [J M]. apply andb_true_iff in M. destruct M as [M1 M2]. apply str_eqb_eq in M2.
    exists e. split; [exact J|]. split; [now symmetry|]. unfold alike. rewrite M1, <- M2. apply Nat.leb_le. exact S2'. }
  assert (Pl : forall s, In s news -> plain_piece (Text, requoted s) = true).
  { intros s I. destruct (Dr s I) as (e & J & <- & Al). exact (proj2 (requoted_piece _ _ _ e Rq J Al)). }
  assert (Sm : N.of_nat (length news) <= 2 ^ 64).
  { pose proof (contents_bound _ _ _ _ F0). rewrite Ct in Ln. lia. }
  unfold clean_first_array, aggregate_strings_into_array. rewrite T. cbn [obind]. rewrite clean_tokens_eq. cbn [obind]. rewrite Fk, Dk. fold u. rewrite E. cbn [obind].
  destruct news as [|n0 nr].
  - cbn [app]. eexists. exists []. split; [reflexivity|]. split; [constructor|]. split; [exact Dr|].
    rewrite tokens_show_joined. unfold u. rewrite (printed _ _ _ _ F). exact (tree_output _ _ t l H A W).
  - remember (n0 :: nr) as news eqn:En. assert (Ne : news <> []) by (rewrite En; discriminate). cbn [app].
    eexists. exists news. split; [reflexivity|]. split; [exact (aa_news _ _ _ _ _ _ _ G)|]. split; [exact Dr|].
    assert (Cl : clear_for_array u u = true) by (rewrite (clear_array_ext u _ _ Ct); exact (clear_tokens _ _ _ _ F0 _ _ F (skip_around _ _ B))).
    assert (Jb : joined ts' = joined (flat_map (via_tokens name news) u)) by (eapply vias_joined; eassumption).
    rewrite tokens_show_joined, (joined_array name news _ _ Jb); [| |exact Ne].
    2:{ destruct V as [|u1 u' f us body flat V1 V2]; [exact I|]. destruct V1; exact I. }
    destruct (array_pairs _ _ name Nm Bn news (pieces l) Sm Sh Pl Ne) as (tsd & Fd & Cd). destruct (looks_pairs _ _ name Nm Bn news (pieces l) Sm Sh Pl _ _ F) as (tsl & Fl & Cl'). unfold u. rewrite <- Cd, <- Cl', <- concat_app.
    assert (Fa : pairs (array_pieces name news ++ flat_map (look name news) ps) (tsd ++ tsl)) by (apply Forall2_app; assumption).
    rewrite (printed start_u part_u _ _ Fa).
    assert (PS : forallb plain_piece ps = true) by (apply skip_forallb, PP).
    assert (Wd : program (drop_empty t) (lines false (map Piece ps))).
    { rewrite lines_only. unfold ps. rewrite <- (skip_pieces start_u part_u _ PP), <- (lines_flat l false). apply program_skip, program_flat, W. }
    unfold es_program, es_lines, start. rewrite compact_lines.
    + apply program_parse. pose proof (array_tree start_u part_u name Bn news (pieces l) Sm Sh Pl (drop_empty t) (map Piece ps) Wd (drop_trees _ _ Ko)) as Wt. rewrite pieces_only in Wt.
      replace (match news with [] => drop_empty t | _ :: _ => declaring_array name news :: looked_tree name news (drop_empty t) end) with (declaring_array name news :: looked_tree name news (drop_empty t)) by (rewrite En; reflexivity).
      exact Wt.
    + exact (pairs_plain _ _ _ _ Fa).
    + apply (array_apart start_u part_u name news (pieces l) Sm Sh Pl). exact (looks_apart _ _ name Nm Bn news (pieces l) Sm Sh Pl _ PS (skip_apart _ _ _ A) (skip_around _ _ B)).
    + apply (array_goal start_u part_u name Bn news (pieces l) Sm Sh Pl); [exact PS|apply skip_goal; exact (usual_ok _ _ l None false [] H (or_introl eq_refl))].
Qed.
End Order.
End T.
