(** Missing directories, and sequences of inputs. *)
From Coq Require Import String List NArith Bool Arith Lia ZifyBool ZifyN.
From Verif Require Import Base Utf8 CliModel CliSpec CliProofs1 CliProofs2 CliProofs3.
Import ListNotations.
Open Scope N_scope.
Open Scope list_scope.

Section Tool.
Variable minify_as : ftype -> str -> outcome str.
Variable cwd : loc.
Variable can_read can_write can_make : loc -> bool.
Variable device : loc -> writer.

Notation write_out := (write_out_file minify_as cwd can_read can_write can_make device).
Notation run := (cli_run minify_as cwd can_read can_write can_make device).

(** ** Creating directories *)

Definition plain (s : str) : Prop := ~ stays s /\ s <> [dot; dot].

Lemma walk_dirs : forall fs (cs : list str) (start : loc), Forall plain cs ->
  (forall k, fs (start ++ firstn k cs) = Some Dir) -> walk fs start cs = At (start ++ cs).
Proof.
  intros fs cs; induction cs as [|s cs IH]; intros start Hp H; cbn [walk].
  - rewrite app_nil_r. reflexivity.
  - pose proof (H O) as H0. cbn [firstn] in H0. rewrite app_nil_r in H0. rewrite H0.
    inversion Hp as [|? ? [P1 P2] Hp']; subst. rewrite enter_name by assumption.
    rewrite IH; [rewrite <- app_assoc; reflexivity|exact Hp'|].
    intro k. specialize (H (S k)). cbn [firstn] in H. rewrite <- app_assoc. exact H.
Qed.

Lemma walk_missing : forall fs (cs : list str) (s : str) (start : loc), Forall plain cs ->
  (forall k, fs (start ++ firstn k cs) = Some Dir \/ fs (start ++ firstn k cs) = None) ->
  fs (start ++ cs) = None -> walk fs start (cs ++ [s]) = NotFound.
Proof.
  intros fs cs; induction cs as [|c cs IH]; intros s start Hp H Hn; cbn [app walk].
  - rewrite app_nil_r in Hn. rewrite Hn. reflexivity.
  - pose proof (H O) as H0. cbn [firstn] in H0. rewrite app_nil_r in H0.
    destruct H0 as [-> | ->]; [|reflexivity].
    inversion Hp as [|? ? [P1 P2] Hp']; subst. rewrite enter_name by assumption.
    apply IH; [exact Hp'| |rewrite <- app_assoc; exact Hn].
    intro k. specialize (H (S k)). cbn [firstn] in H. rewrite <- app_assoc. exact H.
Qed.

(** In a tree the ancestors of a directory are directories. *)
Lemma tree_prefix : forall fs (cs : list str) (start : loc), tree fs -> fs (start ++ cs) = Some Dir ->
  forall k, fs (start ++ firstn k cs) = Some Dir.
Proof.
  intros fs cs; induction cs as [|s cs IH] using rev_ind; intros start T H k.
  - rewrite firstn_nil. exact H.
  - destruct (Nat.le_gt_cases (length (cs ++ [s])) k) as [L|L].
    + rewrite firstn_all2 by exact L. exact H.
    + rewrite app_length in L. cbn [length] in L. rewrite firstn_app.
      replace (k - length cs)%nat with O by lia. rewrite firstn_O, app_nil_r.
      apply IH; [exact T|]. rewrite app_assoc in H. destruct T as [_ T]. apply (T _ s). congruence.
Qed.

Lemma grown_prefix : forall fs fs' (cs : list str) (start : loc), grown fs fs' ->
  (forall k, fs (start ++ firstn k cs) = Some Dir \/ fs (start ++ firstn k cs) = None) ->
  (forall k, fs' (start ++ firstn k cs) = Some Dir \/ fs' (start ++ firstn k cs) = None).
Proof.
  intros fs fs' cs start G H k. destruct (G (start ++ firstn k cs)) as [E|[_ E]]; rewrite E; auto.
Qed.

Lemma create_dirs : forall (abs : bool) (rc : list str) fs, let start := if abs then [] else cwd in
  tree fs -> fs start = Some Dir -> Forall plain (rev rc) -> (forall l, can_make l = true) ->
  (forall k, fs (start ++ firstn k (rev rc)) = Some Dir \/ fs (start ++ firstn k (rev rc)) = None) ->
  exists fs', create_dir_all cwd can_make fs abs rc = (fs', true) /\ grown fs fs' /\
    (forall k, fs' (start ++ firstn k (rev rc)) = Some Dir) /\
    (forall l, fs' l = fs l \/ exists k, l = start ++ firstn k (rev rc)).
Proof.
  intros abs rc; induction rc as [|s rc IH]; intros fs start T Hs Hp Hm H.
  - cbn [create_dir_all rev] in *. exists fs.
    assert (E : forall k, fs (start ++ firstn k []) = Some Dir).
    { intro k. rewrite firstn_nil, app_nil_r. exact Hs. }
    split; [|split; [apply grown_refl|split; [exact E|auto]]].
    destruct abs; [|reflexivity]. unfold mkdir, cis_dir, cresolve. cbn [walk]. subst start.
    rewrite Hs. cbn [dir_at]. rewrite Hs. reflexivity.
  - cbn [rev] in Hp, H |- *. apply Forall_app in Hp. destruct Hp as [Hp Hp1].
    inversion Hp1 as [|? ? [P1 P2] _]; subst.
    assert (CR : forall g, cresolve cwd g (abs, rev (s :: rc)) = walk g start (rev rc ++ [s])).
    { intro g. unfold cresolve. cbn [rev]. subst start.
      destruct abs; [reflexivity|]. destruct (rev rc); reflexivity. }
    assert (Hpre : forall k, fs (start ++ firstn k (rev rc)) = Some Dir \/ fs (start ++ firstn k (rev rc)) = None).
    { intro k. destruct (Nat.le_gt_cases (length (rev rc)) k) as [L|L].
      - specialize (H (length (rev rc))). rewrite firstn_app, Nat.sub_diag, firstn_O, app_nil_r in H.
        rewrite firstn_all2 by exact L. rewrite firstn_all2 in H by apply le_n. exact H.
      - specialize (H k). rewrite firstn_app in H. replace (k - length (rev rc))%nat with O in H by lia.
        rewrite firstn_O, app_nil_r in H. exact H. }
    (* the last step, once the parent is a directory *)
    assert (Last : forall g, grown fs g -> (forall k, g (start ++ firstn k (rev rc)) = Some Dir) ->
       (exists g', mkdir cwd can_make g (abs, rev (s :: rc)) = Made g' /\ grown fs g' /\
          (forall k, g' (start ++ firstn k (rev rc ++ [s])) = Some Dir) /\
          forall l, g' l = g l \/ l = start ++ rev rc ++ [s]) \/
       (mkdir cwd can_make g (abs, rev (s :: rc)) = Refused /\
          cis_dir cwd g (abs, rev (s :: rc)) = true /\
          forall k, g (start ++ firstn k (rev rc ++ [s])) = Some Dir)).
    { intros g G Hg. assert (W : walk g start (rev rc ++ [s]) = At ((start ++ rev rc) ++ [s])).
      { rewrite walk_app, (walk_dirs g (rev rc) start Hp Hg). cbn [walk].
        pose proof (Hg (length (rev rc))) as E. rewrite firstn_all in E.
        replace (g (start ++ rev rc)) with (Some Dir) by (symmetry; exact E).
        rewrite enter_name by assumption. reflexivity. }
      assert (Ext : forall h, keeps_dirs g h -> h ((start ++ rev rc) ++ [s]) = Some Dir ->
                forall k, h (start ++ firstn k (rev rc ++ [s])) = Some Dir).
      { intros h Kh Eh k. destruct (Nat.le_gt_cases (length (rev rc ++ [s])) k) as [L|L].
        - rewrite firstn_all2 by exact L. rewrite app_assoc. exact Eh.
        - rewrite app_length in L. cbn [length] in L. rewrite firstn_app.
          replace (k - length (rev rc))%nat with O by lia. rewrite firstn_O, app_nil_r.
          apply Kh. apply Hg. }
      unfold mkdir, cis_dir. rewrite CR, W. cbn [dir_at].
      destruct (g ((start ++ rev rc) ++ [s])) as [n|] eqn:E.
      - right. assert (n = Dir).
        { pose proof (grown_prefix fs g (rev rc ++ [s]) start G H (length (rev rc ++ [s]))) as K.
          rewrite firstn_all in K. rewrite app_assoc in K.
          destruct K as [K|K]; unfold str in *; congruence. }
        subst n. split; [reflexivity|]. split; [reflexivity|].
        apply Ext; [intros l K; exact K|exact E].
      - left. rewrite Hm. eexists. split; [reflexivity|]. split.
        + eapply grown_trans; [exact G|]. apply grown_put. exact E.
        + split; [apply Ext; [apply grown_keeps; apply grown_put; exact E|apply put_same]|].
          intro l. destruct (loc_dec l ((start ++ rev rc) ++ [s])) as [-> |Hne].
          * right. rewrite app_assoc. reflexivity.
          * left. apply put_other. exact Hne. }
    assert (Whole : forall l, l = start ++ rev rc ++ [s] -> exists k, l = start ++ firstn k (rev rc ++ [s])).
    { intros l ->. exists (length (rev rc ++ [s])). rewrite firstn_all. reflexivity. }
    assert (Part : forall l k, l = start ++ firstn k (rev rc) -> exists k, l = start ++ firstn k (rev rc ++ [s])).
    { intros l k ->. exists (Nat.min k (length (rev rc))). rewrite firstn_app.
      replace (Nat.min k (length (rev rc)) - length (rev rc))%nat with O by lia.
      rewrite firstn_O, app_nil_r. f_equal.
      destruct (Nat.le_gt_cases (length (rev rc)) k) as [L|L].
      - rewrite Nat.min_r by exact L. rewrite firstn_all. apply firstn_all2. exact L.
      - rewrite Nat.min_l by lia. reflexivity. }
    cbn [create_dir_all].
    destruct (fs (start ++ rev rc)) as [n|] eqn:En.
    + assert (n = Dir).
      { specialize (Hpre (length (rev rc))). rewrite firstn_all in Hpre.
        destruct Hpre as [K|K]; unfold str in *; congruence. }
      subst n. destruct (Last fs (grown_refl fs) (tree_prefix _ _ _ T En)) as
        [(g' & -> & G & Hg & Hc)|(-> & -> & Hg)].
      * exists g'. split; [reflexivity|]. split; [exact G|]. split; [exact Hg|].
        intro l. destruct (Hc l); auto.
      * exists fs. auto using grown_refl.
    + assert (M : mkdir cwd can_make fs (abs, rev (s :: rc)) = Missing).
      { unfold mkdir. rewrite CR, (walk_missing fs (rev rc) s start Hp Hpre En). reflexivity. }
      rewrite M. destruct (IH fs T Hs Hp Hm Hpre) as (fs1 & -> & G & Hg & Hc).
      destruct (Last fs1 G Hg) as [(g' & -> & G' & Hg' & Hc')|(-> & -> & Hg')].
      * exists g'. split; [reflexivity|]. split; [exact G'|]. split; [exact Hg'|].
        intro l. destruct (Hc' l) as [-> | E]; [|auto]. destruct (Hc l) as [E|(k & E)]; eauto.
      * exists fs1. split; [reflexivity|]. split; [exact G|]. split; [exact Hg'|].
        intro l. destruct (Hc l) as [E|(k & E)]; eauto.
Qed.

(** ** Trees stay trees *)

Lemma walk_tree : forall fs segs cur l, tree fs -> segs <> [] -> walk fs cur segs = At l ->
  fs l = Some Dir \/ exists d n, l = d ++ [n] /\ fs d = Some Dir.
Proof.
  intros fs segs cur l [T1 T2] Hne W.
  destruct (exists_last Hne) as (A & s & ->).
  destruct (walk_snoc _ _ _ _ _ W) as (d & _ & D & ->).
  destruct (stays_dec s) as [Hs|Hs].
  - left. rewrite enter_stays by exact Hs. exact D.
  - destruct (str_eq_dec s [dot; dot]) as [->|Hu].
    + left. rewrite enter_up. destruct d as [|x d] using rev_ind; [exact T1|].
      rewrite removelast_last. apply (T2 d x). congruence.
    + right. rewrite enter_name by assumption. eauto.
Qed.

Lemma put_tree : forall fs d n x, tree fs -> fs d = Some Dir -> fs (d ++ [n]) <> Some Dir ->
  tree (put fs (d ++ [n]) x).
Proof.
  intros fs d n x [T1 T2] Hd Hl. split.
  - rewrite put_other; [exact T1|]. intro K. destruct d; discriminate K.
  - intros d' n' E. assert (Hd' : fs d' = Some Dir).
    { destruct (loc_dec (d' ++ [n']) (d ++ [n])) as [K|K].
      - apply app_inj_tail in K. destruct K as [-> _]. exact Hd.
      - rewrite put_other in E by exact K. apply (T2 _ _ E). }
    rewrite put_other; [exact Hd'|]. intros ->. contradiction.
Qed.

Lemma mkdir_tree : forall fs p fs', tree fs -> mkdir cwd can_make fs p = Made fs' -> tree fs'.
Proof.
  intros fs [abs cs] fs' T H. unfold mkdir in H.
  destruct (cresolve cwd fs (abs, cs)) as [l| |] eqn:R; try discriminate.
  destruct (fs l) eqn:E; [discriminate|]. destruct (can_make l); [|discriminate].
  injection H as <-.
  assert (W : cs <> [] /\ walk fs (if abs then [] else cwd) cs = At l).
  { unfold cresolve in R. destruct abs, cs as [|c cs]; try discriminate R.
    - cbn in R. injection R as <-. destruct T as [T _]. congruence.
    - split; [discriminate|exact R].
    - split; [discriminate|exact R]. }
  destruct W as [Hne W]. destruct (walk_tree _ _ _ _ T Hne W) as [K|(d & n & -> & D)]; [congruence|].
  apply put_tree; [exact T|exact D|congruence].
Qed.

Lemma create_dir_all_tree : forall abs rc fs fs' ok, tree fs ->
  create_dir_all cwd can_make fs abs rc = (fs', ok) -> tree fs'.
Proof.
  intros abs rc; induction rc as [|s rc IH]; intros fs fs' ok T H; cbn [create_dir_all] in H.
  - destruct abs; [|injection H as <- _; exact T].
    destruct (mkdir cwd can_make fs (true, [])) eqn:M; injection H as <- _; try exact T.
    eapply mkdir_tree; [exact T|exact M].
  - destruct (mkdir cwd can_make fs (abs, rev (s :: rc))) as [g| |] eqn:M.
    + injection H as <- _. eapply mkdir_tree; [exact T|exact M].
    + destruct (create_dir_all cwd can_make fs abs rc) as [fs1 ok1] eqn:C.
      specialize (IH _ _ _ T C). destruct ok1; [|injection H as <- _; exact IH].
      destruct (mkdir cwd can_make fs1 (abs, rev (s :: rc))) as [g| |] eqn:M2;
        injection H as <- _; try exact IH.
      eapply mkdir_tree; [exact IH|exact M2].
    + injection H as <- _. exact T.
Qed.

Lemma out_path_tree : forall fs p out t fs' o, tree fs ->
  out_path cwd can_make fs p out t = (fs', o) -> tree fs'.
Proof.
  intros fs p out t fs' o T H. unfold out_path in H. destruct out as [op|].
  - cbv zeta in H.
    match type of H with context [cparent ?c] => destruct (cparent c) as [d|] end.
    + destruct (cis_dir cwd fs d); [injection H as <- _; exact T|].
      destruct (create_dir_all cwd can_make fs (fst d) (rev (snd d))) as [g ok] eqn:C.
      injection H as <- _. eapply create_dir_all_tree; [exact T|exact C].
    + injection H as <- _. exact T.
  - injection H as <- _. exact T.
Qed.

Lemma resolve_tree : forall fs p l, tree fs -> resolve cwd fs p = At l ->
  fs l = Some Dir \/ exists d n, l = d ++ [n] /\ fs d = Some Dir.
Proof.
  intros fs p l T R. unfold resolve in R. destruct p as [|c p]; [discriminate|].
  eapply walk_tree; [exact T|apply split_slash_ne|exact R].
Qed.

Theorem write_out_tree : forall fs p out ext fs' r, tree fs ->
  write_out fs p out ext = (fs', r) -> tree fs'.
Proof.
  intros fs p out ext fs' r T H. unfold write_out_file in H.
  assert (G : forall t, match get_all_data cwd can_read fs p with
      | Failed => (fs, Reported)
      | Crash => (fs, Panicked)
      | Text content =>
          match out_path cwd can_make fs p out t with
          | (fs1, None) => (fs1, Panicked)
          | (fs1, Some o) =>
              match open_truncate cwd can_write fs1 o with
              | None => (fs1, Reported)
              | Some (fs2, l) =>
                  match func minify_as t content with
                  | None => (fs2, Panicked)
                  | Some m =>
                      let (held, ok) := write_chunks [encode m] (device l) in
                      (put fs2 l (File held), if ok then Done else Reported)
                  end
              end
          end
      end = (fs', r) -> tree fs').
  { clear H. intros t H. destruct (get_all_data cwd can_read fs p) as [s| |]; [|injection H as <- _; exact T..].
    destruct (out_path cwd can_make fs p out t) as [fs1 o] eqn:O.
    pose proof (out_path_tree _ _ _ _ _ _ T O) as T1.
    destruct o as [o|]; [|injection H as <- _; exact T1].
    destruct (open_truncate cwd can_write fs1 o) as [[fs2 lo]|] eqn:P; [|injection H as <- _; exact T1].
    destruct (open_spec _ _ _ _ _ _ P) as (R & D & _ & ->).
    destruct (resolve_tree _ _ _ T1 R) as [K|(d & n & -> & Hd)]; [contradiction|].
    assert (T2 : forall b, tree (put fs1 (d ++ [n]) (File b))) by (intro b; apply put_tree; assumption).
    destruct (func minify_as t s) as [m|]; [|injection H as <- _; apply T2].
    destruct (write_chunks [encode m] (device (d ++ [n]))) as [held ok]. injection H as <- _.
    apply put_tree; [apply T2| |rewrite put_same; discriminate].
    rewrite put_other; [exact Hd|]. intro K. apply (f_equal (@length _)) in K.
    rewrite app_length in K. cbn in K. lia. }
  destruct (match ext with Some t => Some t | None => type_of_path p end) as [t|];
    [|injection H as <- _; exact T].
  destruct t; [exact (G _ H)..|injection H as <- _; exact T].
Qed.

Theorem run_tree : forall files fs out ext fs' ok, tree fs ->
  run fs files out ext = (fs', ok) -> tree fs'.
Proof.
  induction files as [|p files IH]; intros fs out ext fs' ok T H; cbn [cli_run] in H.
  - injection H as <- _. exact T.
  - destruct (write_out fs p out ext) as [fs1 r] eqn:W.
    pose proof (write_out_tree _ _ _ _ _ _ T W) as T1.
    destruct r; [eapply IH; [exact T1|exact H]..|injection H as <- _; exact T1].
Qed.

(** ** An output with missing directories before it *)

(** The path [a/b/n] or [/a/b/n]. *)
Definition spelled (abs : bool) (cs : list str) (n : str) : str :=
  (if abs then [slash] else []) ++ concat (map (fun s => s ++ [slash]) cs) ++ n.

Lemma split_spelled : forall abs (cs : list str) (n : str), Forall (fun s => ~ In slash s) (cs ++ [n]) ->
  split_slash (spelled abs cs n) = (if abs then [[]] else []) ++ cs ++ [n].
Proof.
  intros abs cs n H.
  assert (E : split_slash (concat (map (fun s => s ++ [slash]) cs) ++ n) = cs ++ [n]).
  { induction cs as [|c cs IH]; cbn [map concat app].
    - apply split_slash_name. inversion H; assumption.
    - inversion H as [|? ? Hc Hr]; subst. rewrite <- !app_assoc. cbn [app].
      rewrite split_slash_app, (split_slash_name c Hc), IH by exact Hr. reflexivity. }
  unfold spelled. destruct abs; cbn [app]; [|exact E].
  rewrite <- E. reflexivity.
Qed.

Lemma spelled_absolute : forall abs (cs : list str) (n : str), Forall (fun s => ~ In slash s) (cs ++ [n]) ->
  Forall plain (cs ++ [n]) -> is_absolute (spelled abs cs n) = abs.
Proof.
  intros abs cs n H Hp. unfold spelled. destruct abs; cbn [app is_absolute]; [reflexivity|].
  assert (K : forall s r, ~ In slash s -> plain s -> is_absolute (s ++ r) = false).
  { intros [|c s] r Hs [P _]; [exfalso; apply P; left; reflexivity|].
    cbn [app is_absolute]. apply N.eqb_neq. cbn in Hs. intuition. }
  destruct cs as [|c cs]; cbn [map concat app] in *.
  - rewrite <- (app_nil_r n). inversion H; inversion Hp; subst. apply K; assumption.
  - inversion H; inversion Hp; subst. rewrite <- !app_assoc. apply K; assumption.
Qed.

Lemma plain_filter : forall cs : list str, Forall plain cs ->
  filter (fun s => negb (str_eqb s []) && negb (str_eqb s [dot])) cs = cs.
Proof.
  induction 1 as [|s cs [P _] _ IH]; [reflexivity|]. cbn [filter].
  destruct (str_eqb s []) eqn:E1; [apply str_eqb_eq in E1; exfalso; apply P; left; exact E1|].
  destruct (str_eqb s [dot]) eqn:E2; [apply str_eqb_eq in E2; exfalso; apply P; right; exact E2|].
  cbn [negb andb]. rewrite IH. reflexivity.
Qed.

Lemma resolve_spelled : forall fs (abs : bool) (cs : list str) (n : str), let start := if abs then [] else cwd in
  Forall (fun s => ~ In slash s) (cs ++ [n]) -> Forall plain (cs ++ [n]) ->
  fs start = Some Dir ->
  resolve cwd fs (spelled abs cs n) = walk fs start (cs ++ [n]).
Proof.
  intros fs abs cs n start H Hp Hs. unfold resolve.
  rewrite (spelled_absolute abs cs n H Hp). fold start. rewrite (split_spelled abs cs n H).
  destruct (spelled abs cs n) eqn:E.
  - exfalso. unfold spelled in E. apply app_eq_nil in E. destruct E as [_ E].
    apply app_eq_nil in E. destruct E as [_ ->]. apply Forall_app in Hp. destruct Hp as [_ Hp].
    inversion Hp as [|? ? [P _] _]. apply P. left. reflexivity.
  - subst start. destruct abs; cbn [app]; [|reflexivity]. cbn [walk]. cbv iota in Hs. rewrite Hs. reflexivity.
Qed.

Theorem proceeds_new_dirs : forall fs p ext t s l (abs : bool) (cs : list str) (n : str),
  let start := if abs then [] else cwd in
  tree fs -> fs start = Some Dir ->
  chosen ext p t -> holds_text cwd fs p l s -> can_read l = true ->
  Forall (fun s => ~ In slash s) (cs ++ [n]) -> Forall plain (cs ++ [n]) ->
  (forall k, fs (start ++ firstn k cs) = Some Dir \/ fs (start ++ firstn k cs) = None) ->
  fs (start ++ cs) = None ->
  (forall l, can_make l = true) -> can_write (start ++ cs ++ [n]) = true ->
  device (start ++ cs ++ [n]) = [] ->
  exists fs' r, write_out fs p (Some (spelled abs cs n)) ext = (fs', r) /\
    (forall k, fs' (start ++ firstn k cs) = Some Dir) /\
    only_at fs fs' (start ++ cs ++ [n]) /\
    match minify_as t s with
    | Ok m => r = Done /\ fs' (start ++ cs ++ [n]) = Some (File (encode m))
    | _ => r = Panicked /\ fs' (start ++ cs ++ [n]) = Some (File [])
    end.
Proof.
  intros fs p ext t s l abs cs n start T Hs Hc Hl Hr Hsl Hp Hpre Hno Hm Hw Hdev.
  assert (exists w, word t = Some w) as (w & Hword).
  { destruct Hc as [Hc _]. destruct (word t); [eauto|congruence]. }
  assert (Hpc : Forall plain cs) by (apply Forall_app in Hp; apply Hp).
  assert (Hpn : plain n) by (apply Forall_app in Hp; destruct Hp as [_ Hp]; inversion Hp; assumption).
  assert (R : resolve cwd fs (spelled abs cs n) = NotFound).
  { rewrite (resolve_spelled fs abs cs n Hsl Hp Hs). apply walk_missing; assumption. }
  assert (Nd : is_dir cwd fs (spelled abs cs n) = false) by (unfold is_dir; rewrite R; reflexivity).
  destruct cs as [|c cs0] eqn:Ecs; [rewrite app_nil_r in Hno; congruence|]. rewrite <- Ecs in *.
  destruct (create_dirs abs (rev cs) fs T) as (fs1 & C & G & Hd & Hch).
  { exact Hs. } { rewrite rev_involutive. exact Hpc. } { exact Hm. }
  { rewrite rev_involutive. exact Hpre. }
  rewrite rev_involutive in Hd, Hch. fold start in Hd, Hch.
  assert (O : out_path cwd can_make fs p (Some (spelled abs cs n)) t = (fs1, Some (spelled abs cs n))).
  { unfold out_path. cbv zeta. rewrite Nd. unfold components.
    rewrite (spelled_absolute abs cs n Hsl Hp), (split_spelled abs cs n Hsl).
    assert (F : filter (fun s => negb (str_eqb s []) && negb (str_eqb s [dot]))
                  ((if abs then [[]] else []) ++ cs ++ [n]) = cs ++ [n]).
    { pose proof (plain_filter (cs ++ [n]) Hp) as PF. rewrite filter_app.
      etransitivity; [|exact PF]. destruct abs; reflexivity. }
    rewrite F. unfold cparent. cbn [snd fst]. destruct (cs ++ [n]) as [|x y] eqn:E; [destruct cs; discriminate E|].
    rewrite <- E. rewrite removelast_last. cbn [snd fst].
    assert (Cn : cis_dir cwd fs (abs, cs) = false).
    { unfold cis_dir, cresolve. assert (W : dir_at fs (walk fs start cs) = false).
      { destruct (@exists_last _ cs) as (A & z & EA); [rewrite Ecs; discriminate|].
        destruct (walk fs start cs) as [m| |] eqn:W; [|reflexivity..].
        assert (Wm : walk fs start (cs ++ [n]) = NotFound) by (apply walk_missing; assumption).
        rewrite walk_app, W in Wm. cbn [walk] in Wm. cbn [dir_at].
        destruct (fs m) as [[|]|]; congruence. }
      rewrite Ecs in W |- *. destruct abs; exact W. }
    rewrite Cn, C. reflexivity. }
  assert (R1 : resolve cwd fs1 (spelled abs cs n) = At (start ++ cs ++ [n])).
  { rewrite (resolve_spelled fs1 abs cs n Hsl Hp).
    2: { pose proof (Hd 0%nat) as E. cbn [firstn] in E. rewrite app_nil_r in E. exact E. }
    fold start. rewrite walk_app, (walk_dirs fs1 cs start Hpc Hd). cbn [walk].
    pose proof (Hd (length cs)) as E. rewrite firstn_all in E.
    replace (fs1 (start ++ cs)) with (Some Dir) by (symmetry; exact E).
    destruct Hpn as [P1 P2]. rewrite enter_name by assumption. rewrite app_assoc. reflexivity. }
  assert (N1 : fs1 (start ++ cs ++ [n]) = None).
  { destruct (Hch (start ++ cs ++ [n])) as [E|(k & E)].
    - rewrite E. destruct (fs (start ++ cs ++ [n])) as [x|] eqn:F; [|reflexivity].
      exfalso. destruct T as [_ T]. rewrite app_assoc in F. pose proof (T (start ++ cs) n) as K.
      unfold str in *. rewrite F in K. specialize (K ltac:(discriminate)). congruence.
    - exfalso. apply app_inv_head in E. apply (f_equal (@length _)) in E.
      rewrite app_length, firstn_length in E. cbn in E. lia. }
  set (lo := start ++ cs ++ [n]) in *.
  assert (P : open_truncate cwd can_write fs1 (spelled abs cs n) = Some (put fs1 lo (File []), lo)).
  { unfold open_truncate. rewrite R1, N1, Hw. reflexivity. }
  assert (Fk : forall x k, put (put fs1 lo (File [])) lo x (start ++ firstn k cs) = Some Dir).
  { intros x k. assert (Hne : start ++ firstn k cs <> lo).
    { intro E. pose proof (Hd k) as K. rewrite E in K. congruence. }
    rewrite !put_other by exact Hne. apply Hd. }
  assert (Fo : forall x, only_at fs (put (put fs1 lo (File [])) lo x) lo).
  { intros x l' Hne. rewrite !put_other by exact Hne. apply G. }
  unfold write_out_file.
  replace (match ext with Some t => Some t | None => type_of_path p end) with (Some t)
    by (symmetry; apply chosen_type; [congruence|exact Hc]).
  rewrite (text_get _ _ _ _ _ _ Hl Hr), O, P.
  assert (Fu : func minify_as t s = match minify_as t s with Ok m => Some m | _ => None end)
    by (destruct t; [reflexivity..|discriminate Hword]).
  rewrite Fu, Hdev. cbn [write_chunks].
  destruct (minify_as t s) as [m| | |].
  - exists (put (put fs1 lo (File [])) lo (File (encode m ++ []))), Done.
    split; [destruct t; [reflexivity..|discriminate Hword]|]. split; [apply Fk|]. split; [apply Fo|].
    split; [reflexivity|]. rewrite put_same, app_nil_r. reflexivity.
  - exists (put fs1 lo (File [])), Panicked.
    split; [destruct t; [reflexivity..|discriminate Hword]|].
    split; [intro k; rewrite <- (Fk (File []) k); unfold put; destruct (loc_eqb _ _); reflexivity|].
    split; [intros l' Hne; rewrite put_other by exact Hne; apply G|].
    split; [reflexivity|apply put_same].
  - exists (put fs1 lo (File [])), Panicked.
    split; [destruct t; [reflexivity..|discriminate Hword]|].
    split; [intro k; rewrite <- (Fk (File []) k); unfold put; destruct (loc_eqb _ _); reflexivity|].
    split; [intros l' Hne; rewrite put_other by exact Hne; apply G|].
    split; [reflexivity|apply put_same].
  - exists (put fs1 lo (File [])), Panicked.
    split; [destruct t; [reflexivity..|discriminate Hword]|].
    split; [intro k; rewrite <- (Fk (File []) k); unfold put; destruct (loc_eqb _ _); reflexivity|].
    split; [intros l' Hne; rewrite put_other by exact Hne; apply G|].
    split; [reflexivity|apply put_same].
Qed.

(** ** An output whose directories cannot be made *)
Lemma create_sound : forall (abs : bool) (rc : list str) fs fs', abs = true \/ rc <> [] ->
  create_dir_all cwd can_make fs abs rc = (fs', true) -> cis_dir cwd fs' (abs, rev rc) = true.
Proof.
  intros abs rc fs fs' Ne H.
  assert (Mk : forall g p g', mkdir cwd can_make g p = Made g' -> cis_dir cwd g' p = true).
  { intros g [a cs] g' M. unfold mkdir in M. unfold cis_dir. destruct (cresolve cwd g (a, cs)) as [l| |] eqn:R; try discriminate M.
    destruct (g l) eqn:E; [discriminate M|]. destruct (can_make l); [|discriminate M]. injection M as <-.
    assert (R' : cresolve cwd (put g l Dir) (a, cs) = At l).
    { unfold cresolve in *. destruct a, cs; try discriminate R; (eapply walk_keeps; [|exact R]); apply put_keeps; congruence. }
    rewrite R'. cbn [dir_at]. rewrite put_same. reflexivity. }
  destruct rc as [|s rc]; cbn [create_dir_all] in H.
  - destruct Ne as [-> |Ne]; [|congruence]. destruct (mkdir cwd can_make fs (true, [])) as [g| |] eqn:M; [injection H as <-; exact (Mk _ _ _ M)|discriminate H|].
    injection H as <- H. exact H.
  - destruct (mkdir cwd can_make fs (abs, rev (s :: rc))) as [g| |] eqn:M.
    + injection H as <-. exact (Mk _ _ _ M).
    + destruct (create_dir_all cwd can_make fs abs rc) as [fs1 ok1]. destruct ok1; [|discriminate H].
      destruct (mkdir cwd can_make fs1 (abs, rev (s :: rc))) as [g| |] eqn:M2; [injection H as <-; exact (Mk _ _ _ M2)|injection H as <- H; exact H..].
    + injection H as <- H. exact H.
Qed.

Lemma walk_plain : forall fs (cs : list str) (start : loc) l, Forall plain cs -> walk fs start cs = At l -> l = start ++ cs.
Proof.
  intros fs cs; induction cs as [|s cs IH]; intros start l Hp W; cbn [walk] in W.
  - injection W as <-. rewrite app_nil_r. reflexivity.
  - inversion Hp as [|? ? [P1 P2] Hp']; subst. destruct (fs start) as [[|]|]; try discriminate W.
    rewrite enter_name in W by assumption. apply IH in W; [|exact Hp']. rewrite <- app_assoc in W. exact W.
Qed.

Theorem no_directories : forall fs p ext t s l (abs : bool) (cs : list str) (n : str) fs' r,
  let start := if abs then [] else cwd in
  fs start = Some Dir -> chosen ext p t -> holds_text cwd fs p l s -> can_read l = true ->
  Forall (fun s => ~ In slash s) (cs ++ [n]) -> Forall plain (cs ++ [n]) -> cs <> [] ->
  fs (start ++ cs ++ [n]) <> Some Dir ->
  write_out fs p (Some (spelled abs cs n)) ext = (fs', r) -> fs' (start ++ cs) <> Some Dir ->
  r = Panicked /\ grown fs fs'.
Proof.
  intros fs p ext t s l abs cs n fs' r start Hs Hc Hl Hr Hsl Hp Ne Hd W Hno.
  assert (exists w, word t = Some w) as (w & Hword).
  { destruct Hc as [Hc _]. destruct (word t); [eauto|congruence]. }
  assert (Hpc : Forall plain cs) by (apply Forall_app in Hp; apply Hp).
  assert (Nd : is_dir cwd fs (spelled abs cs n) = false).
  { unfold is_dir. rewrite (resolve_spelled fs abs cs n Hsl Hp Hs). fold start. destruct (walk fs start (cs ++ [n])) as [m| |] eqn:E; [|reflexivity..].
    apply walk_plain in E; [|exact Hp]. subst m. cbn [dir_at]. destruct (fs (start ++ cs ++ [n])) as [[|]|]; [reflexivity|congruence|reflexivity]. }
  assert (Dr : forall g, cis_dir cwd g (abs, cs) = true -> g (start ++ cs) = Some Dir).
  { intros g H. unfold cis_dir in H. destruct (cresolve cwd g (abs, cs)) as [m| |] eqn:E; try discriminate H.
    assert (Wk : walk g start cs = At m) by (unfold cresolve in E; subst start; destruct abs, cs; try congruence; exact E).
    apply walk_plain in Wk; [|exact Hpc]. subst m. cbn [dir_at] in H. destruct (g (start ++ cs)) as [[|]|]; congruence. }
  unfold write_out_file in W.
  replace (match ext with Some t => Some t | None => type_of_path p end) with (Some t) in W
    by (symmetry; apply chosen_type; [congruence|exact Hc]).
  rewrite (text_get _ _ _ _ _ _ Hl Hr) in W.
  assert (Go : forall g, g (start ++ cs) = Some Dir -> forall x, match open_truncate cwd can_write g (spelled abs cs n) with
      | None => (g, Reported)
      | Some (fs2, l) =>
          match func minify_as t s with
          | None => (fs2, Panicked)
          | Some m => let (held, ok) := write_chunks [encode m] (device l) in (put fs2 l (File held), if ok then Done else Reported)
          end
      end = x -> fst x (start ++ cs) = Some Dir).
  { intros g E x <-. destruct (open_truncate cwd can_write g (spelled abs cs n)) as [[fs2 lo]|] eqn:P; [|exact E].
    destruct (open_spec _ _ _ _ _ _ P) as (_ & D & _ & ->). assert (Hne : start ++ cs <> lo) by (intros <-; contradiction).
    destruct (func minify_as t s) as [m|]; [destruct (write_chunks [encode m] (device lo)) as [held ok]|]; cbn [fst]; rewrite !put_other by exact Hne; exact E. }
  assert (O : out_path cwd can_make fs p (Some (spelled abs cs n)) t
    = if cis_dir cwd fs (abs, cs) then (fs, Some (spelled abs cs n))
      else let (g, ok) := create_dir_all cwd can_make fs abs (rev cs) in (g, if ok then Some (spelled abs cs n) else None)).
  { unfold out_path. cbv zeta. rewrite Nd. unfold components.
    rewrite (spelled_absolute abs cs n Hsl Hp), (split_spelled abs cs n Hsl).
    assert (F : filter (fun s => negb (str_eqb s []) && negb (str_eqb s [dot]))
                  ((if abs then [[]] else []) ++ cs ++ [n]) = cs ++ [n]).
    { pose proof (plain_filter (cs ++ [n]) Hp) as PF. rewrite filter_app.
      etransitivity; [|exact PF]. destruct abs; reflexivity. }
    rewrite F. unfold cparent. cbn [snd fst]. destruct (cs ++ [n]) as [|x y] eqn:E; [destruct cs; discriminate E|].
    rewrite <- E. rewrite removelast_last. reflexivity. }
  assert (K : match out_path cwd can_make fs p (Some (spelled abs cs n)) t with
      | (fs1, None) => (fs1, Panicked)
      | (fs1, Some o) =>
          match open_truncate cwd can_write fs1 o with
          | None => (fs1, Reported)
          | Some (fs2, l) =>
              match func minify_as t s with
              | None => (fs2, Panicked)
              | Some m => let (held, ok) := write_chunks [encode m] (device l) in (put fs2 l (File held), if ok then Done else Reported)
              end
          end
      end = (fs', r)) by (destruct t; [exact W..|discriminate Hword]).
  clear W. rewrite O in K. destruct (cis_dir cwd fs (abs, cs)) eqn:C.
  - exfalso. apply Hno. exact (Go fs (Dr fs C) _ K).
  - destruct (create_dir_all cwd can_make fs abs (rev cs)) as [g ok] eqn:D. destruct ok.
    + exfalso. apply Hno. apply create_sound in D; [|right; intro E; apply Ne; rewrite <- (rev_involutive cs), E; reflexivity].
      rewrite rev_involutive in D. exact (Go g (Dr g D) _ K).
    + injection K as <- <-. split; [reflexivity|]. eapply create_dir_all_grown. exact D.
Qed.

(** ** One output for all *)

Lemma write_out_single : forall fs p o lo ext fs' r,
  resolve cwd fs o = At lo -> fs lo <> Some Dir ->
  write_out fs p (Some o) ext = (fs', r) ->
  (forall l, l <> lo -> fs' l = fs l) /\ (fs' lo = fs lo \/ exists b, fs' lo = Some (File b)).
Proof.
  intros fs p o lo ext fs' r R D H. unfold write_out_file in H.
  assert (Nd : ~ directory cwd fs o) by (intros (l & E & K); congruence).
  assert (G : forall t w, word t = Some w -> match get_all_data cwd can_read fs p with
      | Failed => (fs, Reported)
      | Crash => (fs, Panicked)
      | Text content =>
          match out_path cwd can_make fs p (Some o) t with
          | (fs1, None) => (fs1, Panicked)
          | (fs1, Some o) =>
              match open_truncate cwd can_write fs1 o with
              | None => (fs1, Reported)
              | Some (fs2, l) =>
                  match func minify_as t content with
                  | None => (fs2, Panicked)
                  | Some m =>
                      let (held, ok) := write_chunks [encode m] (device l) in
                      (put fs2 l (File held), if ok then Done else Reported)
                  end
              end
          end
      end = (fs', r) -> (forall l, l <> lo -> fs' l = fs l) /\ (fs' lo = fs lo \/ exists b, fs' lo = Some (File b))).
  { clear H. intros t w Hw H. destruct (get_all_data cwd can_read fs p) as [s| |]; [|injection H as <- _; auto..].
    rewrite (out_path_exists cwd can_make fs p (Some o) t w o lo Hw (target_file _ _ _ _ _ Nd) R) in H.
    destruct (open_truncate cwd can_write fs o) as [[fs2 lo']|] eqn:P; [|injection H as <- _; auto].
    destruct (open_spec _ _ _ _ _ _ P) as (R' & _ & _ & ->).
    assert (lo' = lo) by congruence. subst lo'.
    destruct (func minify_as t s) as [m|].
    - destruct (write_chunks [encode m] (device lo)) as [held ok]. injection H as <- _. split.
      + intros l Hl. rewrite !put_other by exact Hl. reflexivity.
      + right. rewrite put_same. eauto.
    - injection H as <- _. split; [intros l Hl; apply put_other; exact Hl|right; rewrite put_same; eauto]. }
  destruct (match ext with Some t => Some t | None => type_of_path p end) as [t|];
    [|injection H as <- _; auto].
  destruct t; [exact (G Css _ eq_refl H)|exact (G Js _ eq_refl H)|exact (G Json _ eq_refl H)|injection H as <- _; auto].
Qed.

Lemma single_keeps : forall fs fs' lo,
  fs lo <> Some Dir -> (forall l, l <> lo -> fs' l = fs l) -> keeps_dirs fs fs'.
Proof. intros fs fs' lo D F l E. rewrite F; [exact E|]. intros ->. contradiction. Qed.

Theorem run_single : forall files fs o lo ext fs' ok,
  resolve cwd fs o = At lo -> fs lo <> Some Dir ->
  run fs files (Some o) ext = (fs', ok) ->
  (forall l, l <> lo -> fs' l = fs l) /\ fs' lo <> Some Dir.
Proof.
  induction files as [|p files IH]; intros fs o lo ext fs' ok R D H; cbn [cli_run] in H.
  - injection H as <- _. auto.
  - destruct (write_out fs p (Some o) ext) as [fs1 r] eqn:W.
    destruct (write_out_single _ _ _ _ _ _ _ R D W) as [F K].
    assert (D1 : fs1 lo <> Some Dir) by (destruct K as [K|(b & K)]; rewrite K; [exact D|discriminate]).
    assert (R1 : resolve cwd fs1 o = At lo).
    { eapply resolve_keeps; [|exact R]. eapply single_keeps; eauto. }
    assert (H' : (fs1, ok) = (fs', ok) \/ run fs1 files (Some o) ext = (fs', ok)).
    { destruct r; [right; exact H..|left; congruence]. }
    destruct H' as [H'|H'].
    + injection H' as <-. auto.
    + destruct (IH _ _ _ _ _ _ R1 D1 H') as [F' D']. split; [|exact D'].
      intros l Hl. rewrite F' by exact Hl. apply F. exact Hl.
Qed.

(** The last input decides, with the text it has when its turn comes; that is the text it had
    at the start unless it is the output itself. *)
Theorem run_last : forall files p fs o lo ext fs1 t s l,
  resolve cwd fs o = At lo -> fs lo <> Some Dir -> can_write lo = true -> device lo = [] ->
  run fs files (Some o) ext = (fs1, true) ->
  chosen ext p t -> holds_text cwd fs p l s -> l <> lo -> can_read l = true ->
  exists fs' ok, run fs (files ++ [p]) (Some o) ext = (fs', ok) /\
    (forall l, l <> lo -> fs' l = fs l) /\
    match minify_as t s with
    | Ok m => ok = true /\ fs' lo = Some (File (encode m))
    | _ => ok = false /\ fs' lo = Some (File [])
    end.
Proof.
  intros files p fs o lo ext fs1 t s l R D Hw Hdev H Hc (H1 & H2 & H3) Hne Hr.
  destruct (run_single _ _ _ _ _ _ _ R D H) as [F D1].
  assert (K : keeps_dirs fs fs1) by (eapply single_keeps; eauto).
  assert (Hl : holds_text cwd fs1 p l s).
  { split; [eapply resolve_keeps; eauto|]. split; [rewrite F by exact Hne; exact H2|exact H3]. }
  assert (R1 : resolve cwd fs1 o = At lo) by (eapply resolve_keeps; eauto).
  assert (T : target cwd fs1 p t (Some o) o).
  { apply target_file. intros (m & E & E2). congruence. }
  destruct (proceeds minify_as cwd can_read can_write can_make device fs1 p (Some o) ext t s l o lo
              Hc Hl Hr T R1 D1 Hw) as (fs' & r & W & F' & M).
  exists fs', (match r with Panicked => false | _ => true end).
  split; [|split].
  - rewrite (run_app _ _ _ _ _ _ _ _ _ _ _ _ H). cbn [cli_run]. rewrite W. destruct r; reflexivity.
  - intros l' Hl'. rewrite F' by exact Hl'. apply F. exact Hl'.
  - rewrite Hdev in M. destruct (minify_as t s); destruct M as [-> M]; auto.
Qed.

(** ** Without -o, what is not an output is unchanged *)

Theorem run_default_frame : forall files fs ext fs' ok, tree fs ->
  run fs files None ext = (fs', ok) ->
  forall l, (forall p t o, In p files -> chosen ext p t -> renamed p t o -> resolve cwd fs o <> At l) ->
  fs' l = fs l.
Proof.
  induction files as [|p files IH]; intros fs ext fs' ok T H l Hl; cbn [cli_run] in H.
  - injection H as <- _. reflexivity.
  - destruct (write_out fs p None ext) as [fs1 r] eqn:W.
    assert (E : fs1 l = fs l /\ forall q m, resolve cwd fs1 q = At m -> resolve cwd fs q = At m).
    { destruct (effect _ _ _ _ _ _ _ _ _ _ _ _ T W) as [(_ & _ & E)|
        (t & s & li & o & lo & b & E1 & E2 & E3 & E4 & _ & E5 & E6 & _)].
      - rewrite (E eq_refl). auto.
      - inversion E3 as [o' Ho| |]; subst o'.
        specialize (E5 eq_refl). destruct E2 as (E21 & E22 & _).
        destruct (default_beside cwd fs p t o li _ Ho E21 E22) as (d & n & n' & -> & Hn & Hd & Ro).
        assert (Back : keeps_dirs fs1 fs).
        { intros x Ex. rewrite <- E5; [exact Ex|]. intros ->. congruence. }
        assert (lo = d ++ [n']).
        { pose proof (resolve_keeps cwd _ _ Back _ _ E4) as K. congruence. }
        subst lo. split.
        + apply E5. intros ->. apply (Hl p t o); [left; reflexivity|assumption..].
        + intros q m K. eapply resolve_keeps; [exact Back|exact K]. }
    destruct E as [E Back].
    assert (T1 : tree fs1) by (eapply write_out_tree; [exact T|exact W]).
    assert (H' : (fs1, ok) = (fs', ok) \/ run fs1 files None ext = (fs', ok)).
    { destruct r; [right; exact H..|left; congruence]. }
    destruct H' as [H'|H']; [injection H' as <-; exact E|].
    rewrite <- E. eapply IH; [exact T1|exact H'|].
    intros p' t o Hin Hc Ho K. apply (Hl p' t o); [right; exact Hin|assumption..|].
    apply Back. exact K.
Qed.

End Tool.
