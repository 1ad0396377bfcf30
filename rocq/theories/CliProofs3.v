(** The effect of the tool on the file system. *)
From Coq Require Import String List NArith Bool Arith Lia ZifyBool ZifyN.
From Verif Require Import Base Utf8 CliModel CliSpec CliProofs1 CliProofs2.
Import ListNotations.
Open Scope N_scope.
Open Scope list_scope.

(** [fs'] is [fs] with new directories. *)
Definition grown (fs fs' : fsys) : Prop :=
  forall l, fs' l = fs l \/ fs l = None /\ fs' l = Some Dir.

Lemma grown_refl : forall fs, grown fs fs.
Proof. intros fs l. auto. Qed.

Lemma grown_trans : forall a b c, grown a b -> grown b c -> grown a c.
Proof.
  intros a b c H K l. destruct (H l) as [E|[E1 E2]], (K l) as [F|[F1 F2]]; rewrite ?F, ?E; auto.
  right. split; congruence.
Qed.

Lemma grown_put : forall fs l, fs l = None -> grown fs (put fs l Dir).
Proof.
  intros fs l H l'. destruct (loc_dec l' l) as [->|Hne].
  - right. rewrite put_same. auto.
  - left. apply put_other. exact Hne.
Qed.

(** [fs'] has at least the directories of [fs]. *)
Definition keeps_dirs (fs fs' : fsys) : Prop := forall l, fs l = Some Dir -> fs' l = Some Dir.

Lemma grown_keeps : forall fs fs', grown fs fs' -> keeps_dirs fs fs'.
Proof. intros fs fs' H l E. destruct (H l) as [K|[K _]]; congruence. Qed.

Lemma put_keeps : forall fs l n, fs l <> Some Dir -> keeps_dirs fs (put fs l n).
Proof. intros fs l n H l' E. rewrite put_other; [exact E|]. intros ->. contradiction. Qed.

Lemma walk_keeps : forall fs fs', keeps_dirs fs fs' -> forall segs cur l,
  walk fs cur segs = At l -> walk fs' cur segs = At l.
Proof.
  intros fs fs' K segs; induction segs as [|s segs IH]; intros cur l W; cbn [walk] in *; [exact W|].
  destruct (fs cur) as [[|]|] eqn:E; try discriminate W. rewrite (K _ E). apply IH. exact W.
Qed.

Lemma resolve_keeps : forall cwd fs fs', keeps_dirs fs fs' -> forall p l,
  resolve cwd fs p = At l -> resolve cwd fs' p = At l.
Proof.
  intros cwd fs fs' K p l H. unfold resolve in *. destruct p; [discriminate|].
  eapply walk_keeps; eauto.
Qed.

Lemma is_dir_spec : forall cwd fs p, is_dir cwd fs p = true <-> directory cwd fs p.
Proof.
  intros cwd fs p. unfold is_dir, directory, dir_at. split.
  - destruct (resolve cwd fs p) as [l| |]; try discriminate.
    destruct (fs l) as [[|]|] eqn:E; try discriminate. eauto.
  - intros (l & -> & ->). reflexivity.
Qed.

Lemma is_dir_ne : forall cwd fs p, is_dir cwd fs p = true -> p <> [].
Proof. intros cwd fs p H ->. discriminate H. Qed.

Section Tool.
Variable minify_as : ftype -> str -> outcome str.
Variable cwd : loc.
Variable can_read can_write can_make : loc -> bool.
Variable device : loc -> writer.

Notation write_out := (write_out_file minify_as cwd can_read can_write can_make device).
Notation run := (cli_run minify_as cwd can_read can_write can_make device).

(** ** Directories *)

Lemma mkdir_grown : forall fs p fs', mkdir cwd can_make fs p = Made fs' -> grown fs fs'.
Proof.
  intros fs p fs' H. unfold mkdir in H. destruct (cresolve cwd fs p) as [l| |]; try discriminate.
  destruct (fs l) eqn:E; [discriminate|]. destruct (can_make l); [|discriminate].
  injection H as <-. apply grown_put. exact E.
Qed.

Lemma create_dir_all_grown : forall abs rc fs fs' ok,
  create_dir_all cwd can_make fs abs rc = (fs', ok) -> grown fs fs'.
Proof.
  intros abs rc; induction rc as [|s rc IH]; intros fs fs' ok H; cbn [create_dir_all] in H.
  - destruct abs; [|injection H as <- _; apply grown_refl].
    destruct (mkdir cwd can_make fs (true, [])) eqn:M; injection H as <- _; try apply grown_refl.
    eapply mkdir_grown. exact M.
  - destruct (mkdir cwd can_make fs (abs, rev (s :: rc))) as [g| |] eqn:M.
    + injection H as <- _. eapply mkdir_grown. exact M.
    + destruct (create_dir_all cwd can_make fs abs rc) as [fs1 ok1] eqn:C.
      specialize (IH _ _ _ C). destruct ok1; [|injection H as <- _; exact IH].
      destruct (mkdir cwd can_make fs1 (abs, rev (s :: rc))) as [g| |] eqn:M2;
        injection H as <- _; try exact IH.
      eapply grown_trans; [exact IH|]. eapply mkdir_grown. exact M2.
    + injection H as <- _. apply grown_refl.
Qed.

Lemma out_path_grown : forall fs p out t fs' o,
  out_path cwd can_make fs p out t = (fs', o) ->
  grown fs fs' /\ (out = None -> fs' = fs).
Proof.
  intros fs p out t fs' o H. unfold out_path in H. destruct out as [op|].
  - cbv zeta in H. split; [|discriminate].
    match type of H with context [cparent ?c] => destruct (cparent c) as [d|] end.
    + destruct (cis_dir cwd fs d); [injection H as <- _; apply grown_refl|].
      destruct (create_dir_all cwd can_make fs (fst d) (rev (snd d))) as [g ok] eqn:C.
      injection H as <- _. eapply create_dir_all_grown. exact C.
    + injection H as <- _. apply grown_refl.
  - injection H as <- _. split; [apply grown_refl|reflexivity].
Qed.

(** ** The output path *)

Lemma out_path_target : forall fs p out t w pre name trail fs' o, word t = Some w ->
  names p pre name trail ->
  out_path cwd can_make fs p out t = (fs', Some o) -> target cwd fs p t out o.
Proof.
  intros fs p out t w pre name trail fs' o Hw Hn H. unfold out_path in H. destruct out as [op|].
  - cbv zeta in H.
    assert (E : o = if is_dir cwd fs op then set_extension (push op p) (S_ "min." ++ as_str t) else op).
    { match type of H with context [cparent ?c] => destruct (cparent c) as [d|] end.
      - destruct (cis_dir cwd fs d); [injection H as _ H; symmetry; exact H|].
        destruct (create_dir_all cwd can_make fs (fst d) (rev (snd d))) as [g ok].
        destruct ok; injection H; intros; congruence.
      - injection H as _ H. symmetry. exact H. }
    clear H. subst o. destruct (is_dir cwd fs op) eqn:D.
    + pose proof (joined_push op p (is_dir_ne _ _ _ D)) as J.
      destruct (joined_names _ _ _ _ _ _ J Hn) as (pre' & Hn').
      destruct (names_renamed _ t w _ _ _ Hw Hn') as (o & Ho).
      rewrite (set_extension_renamed _ _ _ _ Hw Ho).
      apply target_dir with (q := push op p); [apply is_dir_spec; exact D|exact J|exact Ho].
    + apply target_file. intro K. apply is_dir_spec in K. congruence.
  - assert (E : o = set_extension p (S_ "min." ++ as_str t)) by congruence. subst o. clear H.
    destruct (names_renamed _ t w _ _ _ Hw Hn) as (o & Ho).
    rewrite (set_extension_renamed _ _ _ _ Hw Ho). apply target_default. exact Ho.
Qed.

Lemma walk_filter : forall fs segs cur l, walk fs cur segs = At l ->
  walk fs cur (filter (fun s => negb (str_eqb s []) && negb (str_eqb s [dot])) segs) = At l.
Proof.
  intros fs segs; induction segs as [|s segs IH]; intros cur l W; cbn [walk filter] in *; [exact W|].
  destruct (fs cur) as [[|]|] eqn:E; try discriminate W. apply IH in W. clear IH.
  destruct (str_eqb s []) eqn:E1.
  - apply str_eqb_eq in E1. subst s. exact W.
  - destruct (str_eqb s [dot]) eqn:E2.
    + apply str_eqb_eq in E2. subst s. exact W.
    + cbn [negb andb walk]. rewrite E. exact W.
Qed.

(** When the output path already leads somewhere, no directory is created. *)
Lemma out_path_exists : forall fs p out t w o l, word t = Some w ->
  target cwd fs p t out o -> resolve cwd fs o = At l ->
  out_path cwd can_make fs p out t = (fs, Some o).
Proof.
  intros fs p out t w o l Hw T R.
  assert (P : forall op, resolve cwd fs op = At l ->
    match cparent (components op) with
    | Some d => if cis_dir cwd fs d then (fs, Some op)
                else let (fs', ok) := create_dir_all cwd can_make fs (fst d) (rev (snd d)) in
                     (fs', if ok then Some op else None)
    | None => (fs, Some op) end = (fs, Some op)).
  { clear. intros op R. unfold cparent, components. cbn [fst snd].
    unfold resolve in R. destruct op as [|c op]; [discriminate|].
    apply walk_filter in R. destruct (filter _ (split_slash (c :: op))) as [|x cs] eqn:F; [reflexivity|].
    destruct (@exists_last _ (x :: cs) ltac:(discriminate)) as (ds & y & E). rewrite E in *.
    rewrite removelast_last. destruct (walk_snoc _ _ _ _ _ R) as (d & W & D & _).
    unfold cis_dir, cresolve. destruct ds as [|z ds].
    - destruct (is_absolute (c :: op)); [|reflexivity].
      cbn [walk] in W |- *. injection W as <-. cbn [dir_at]. rewrite D. reflexivity.
    - destruct (is_absolute (c :: op)); rewrite W; cbn [dir_at]; rewrite D; reflexivity. }
  unfold out_path. destruct T as [o H|o H|d q o H1 H2 H3].
  - rewrite (set_extension_renamed _ _ _ _ Hw H). reflexivity.
  - cbv zeta. destruct (is_dir cwd fs o) eqn:D; [apply is_dir_spec in D; contradiction|].
    apply P. exact R.
  - cbv zeta. apply is_dir_spec in H1. rewrite H1. rewrite (push_joined _ _ _ H2).
    rewrite (set_extension_renamed _ _ _ _ Hw H3). apply P. exact R.
Qed.

(** ** The type and the text *)

Lemma chosen_type : forall ext p t, word t <> None ->
  (match ext with Some t => Some t | None => type_of_path p end = Some t <-> chosen ext p t).
Proof.
  intros ext p t Ht. unfold chosen. split.
  - intro H. split; [exact Ht|]. destruct ext as [t'|]; [left; congruence|right].
    split; [reflexivity|]. apply type_of_path_spec; assumption.
  - intros [_ [->|[-> H]]]; [reflexivity|]. apply type_of_path_spec; assumption.
Qed.

Lemma get_text : forall fs p s, get_all_data cwd can_read fs p = Text s ->
  exists l, holds_text cwd fs p l s /\ can_read l = true.
Proof.
  intros fs p s H. unfold get_all_data in H. destruct (resolve cwd fs p) as [l| |] eqn:R; try discriminate.
  destruct (fs l) as [n|] eqn:E; [|discriminate]. destruct (can_read l) eqn:C; [|discriminate].
  destruct n as [b|]; [|discriminate]. destruct (decode b) as [u|] eqn:D; [|discriminate].
  injection H as ->. apply decode_spec in D. destruct D as [<- D].
  exists l. split; [split; [exact R|split; assumption]|exact C].
Qed.

Lemma text_get : forall fs p l s, holds_text cwd fs p l s -> can_read l = true ->
  get_all_data cwd can_read fs p = Text s.
Proof.
  intros fs p l s (R & E & D) C. unfold get_all_data. rewrite R, E, C.
  replace (decode (encode s)) with (Some s) by (symmetry; apply decode_spec; auto). reflexivity.
Qed.

(** ** One file *)

Lemma open_spec : forall fs o fs2 l, open_truncate cwd can_write fs o = Some (fs2, l) ->
  resolve cwd fs o = At l /\ fs l <> Some Dir /\ can_write l = true /\ fs2 = put fs l (File []).
Proof.
  intros fs o fs2 l H. unfold open_truncate in H.
  destruct (resolve cwd fs o) as [m| |]; try discriminate.
  destruct (fs m) as [[|]|] eqn:E; try discriminate; destruct (can_write m) eqn:C; try discriminate;
    injection H as <- <-; repeat split; congruence.
Qed.

(** What can be said of any run on one file. *)
Theorem effect : forall fs p out ext fs' r, tree fs ->
  write_out fs p out ext = (fs', r) ->
  (r <> Done /\ grown fs fs' /\ (out = None -> fs' = fs)) \/
  exists t s l o lo b,
    chosen ext p t /\ holds_text cwd fs p l s /\ target cwd fs p t out o /\
    resolve cwd fs' o = At lo /\ only_at fs fs' lo /\
    (out = None -> forall l', l' <> lo -> fs' l' = fs l') /\
    fs' lo = Some (File b) /\
    ((r = Panicked /\ b = [] /\ forall m, minify_as t s <> Ok m) \/
     exists m, minify_as t s = Ok m /\
       (r = Done /\ b = encode m \/ r = Reported /\ exists k, b = firstn k (encode m))).
Proof.
  intros fs p out ext fs' r T H. unfold write_out_file in H.
  destruct (match ext with Some t => Some t | None => type_of_path p end) as [t|] eqn:Ht.
  2: { injection H as <- <-. left. repeat split; auto using grown_refl; discriminate. }
  assert (Hw : (t = Unknown /\ (fs, Reported) = (fs', r)) \/ exists w, word t = Some w).
  { destruct t; cbn [word]; eauto. }
  destruct Hw as [[-> Hw]|(w & Hw)].
  { injection Hw as <- <-. left. repeat split; auto using grown_refl; discriminate. }
  assert (Hc : chosen ext p t) by (apply chosen_type; [congruence|exact Ht]).
  assert (H' : match get_all_data cwd can_read fs p with
      | Failed => (fs, Reported)
      | Crash => (fs, Panicked)
      | Text content =>
          match out_path cwd can_make fs p out t with
          | (fs1, None) => (fs1, Panicked)
          | (fs1, Some o) =>
              match open_truncate cwd can_write fs1 o with
              | None => (fs1, Reported)
              | Some (fs2, l) =>
                  match func minify_as t content with
                  | None => (fs2, Panicked)
                  | Some m =>
                      let (held, ok) := write_chunks [encode m] (device l) in
                      (put fs2 l (File held), if ok then Done else Reported)
                  end
              end
          end
      end = (fs', r)) by (destruct t; [exact H..|discriminate Hw]).
  clear H. rename H' into H.
  destruct (get_all_data cwd can_read fs p) as [s| |] eqn:G.
  2,3: injection H as <- <-; left; repeat split; auto using grown_refl; discriminate.
  destruct (get_text _ _ _ G) as (l & Hl & _).
  destruct (file_names cwd fs p l _ T (proj1 Hl) (proj1 (proj2 Hl))) as (pre & name & trail & Hn).
  destruct (out_path cwd can_make fs p out t) as [fs1 [o|]] eqn:O.
  2: { injection H as <- <-. destruct (out_path_grown _ _ _ _ _ _ O) as [G1 G2].
       left. repeat split; auto; discriminate. }
  destruct (out_path_grown _ _ _ _ _ _ O) as [G1 G2].
  destruct (open_truncate cwd can_write fs1 o) as [[fs2 lo]|] eqn:P.
  2: { injection H as <- <-. left. repeat split; auto; discriminate. }
  destruct (open_spec _ _ _ _ P) as (R & D & _ & ->).
  pose proof (out_path_target _ _ _ _ _ _ _ _ _ _ Hw Hn O) as Ht'.
  right.
  assert (F : forall b, only_at fs (put fs1 lo (File b)) lo).
  { intros b l' Hne. rewrite put_other by exact Hne. apply G1. }
  assert (F2 : forall b, out = None -> forall l', l' <> lo -> put fs1 lo (File b) l' = fs l').
  { intros b E l' Hne. rewrite put_other by exact Hne. rewrite (G2 E). reflexivity. }
  assert (F3 : forall b, resolve cwd (put fs1 lo (File b)) o = At lo).
  { intro b. eapply resolve_keeps; [apply put_keeps; exact D|exact R]. }
  destruct (func minify_as t s) as [m|] eqn:Fu.
  - assert (Hm : minify_as t s = Ok m).
    { unfold func in Fu. destruct t; destruct (minify_as _ s); congruence. }
    assert (W : exists b, fs' lo = Some (File b) /\ (forall l', l' <> lo -> fs' l' = fs1 l') /\
       (r = Done /\ b = encode m \/ r = Reported /\ exists k, b = firstn k (encode m))).
    { destruct (write_chunks [encode m] (device lo)) as [held ok] eqn:Wr. injection H as <- <-.
      exists held. split; [apply put_same|]. split.
      { intros l' Hne. rewrite !put_other by exact Hne. reflexivity. }
      destruct ok.
      - left. split; [reflexivity|]. rewrite (write_chunks_ok _ _ _ _ Wr). cbn. apply app_nil_r.
      - right. split; [reflexivity|]. cbn in Wr. destruct (device lo) as [|[k|] dv].
        + discriminate Wr.
        + injection Wr as <-. eauto.
        + discriminate Wr. }
    destruct W as (b & W1 & W2 & W3).
    exists t, s, l, o, lo, b. split; [exact Hc|]. split; [exact Hl|]. split; [exact Ht'|].
    split; [|split; [|split; [|split; [exact W1|]]]].
    + assert (K : keeps_dirs fs1 fs').
      { intros l' E. rewrite W2; [exact E|]. intros ->. contradiction. }
      eapply resolve_keeps; [exact K|exact R].
    + intros l' Hne. rewrite W2 by exact Hne. apply G1.
    + intros E l' Hne. rewrite W2 by exact Hne. rewrite (G2 E). reflexivity.
    + right. eauto.
  - injection H as <- <-. exists t, s, l, o, lo, [].
    split; [exact Hc|]. split; [exact Hl|]. split; [exact Ht'|].
    split; [apply F3|]. split; [apply F|]. split; [apply F2|]. split; [apply put_same|].
    left. split; [reflexivity|]. split; [reflexivity|]. intros m K. unfold func in Fu. rewrite K in Fu.
    destruct t; try discriminate Fu. discriminate Hw.
Qed.

(** When the output path leads somewhere and nothing is refused. *)
Theorem proceeds : forall fs p out ext t s l o lo,
  chosen ext p t -> holds_text cwd fs p l s -> can_read l = true ->
  target cwd fs p t out o -> resolve cwd fs o = At lo -> fs lo <> Some Dir ->
  can_write lo = true ->
  exists fs' r, write_out fs p out ext = (fs', r) /\
    (forall l', l' <> lo -> fs' l' = fs l') /\
    match minify_as t s with
    | Ok m => match device lo with
              | Some k :: _ => r = Reported /\ fs' lo = Some (File (firstn k (encode m)))
              | _ => r = Done /\ fs' lo = Some (File (encode m))
              end
    | _ => r = Panicked /\ fs' lo = Some (File [])
    end.
Proof.
  intros fs p out ext t s l o lo Hc Hl Hr Ht R D Hwr.
  assert (exists w, word t = Some w) as (w & Hw).
  { destruct Hc as [Hc _]. destruct (word t); [eauto|congruence]. }
  unfold write_out_file.
  replace (match ext with Some t => Some t | None => type_of_path p end) with (Some t)
    by (symmetry; apply chosen_type; [congruence|exact Hc]).
  rewrite (text_get _ _ _ _ Hl Hr). rewrite (out_path_exists _ _ _ _ _ _ _ Hw Ht R).
  assert (P : open_truncate cwd can_write fs o = Some (put fs lo (File []), lo)).
  { unfold open_truncate. rewrite R, Hwr. destruct (fs lo) as [[|]|]; congruence. }
  rewrite P.
  assert (Fu : func minify_as t s = match minify_as t s with Ok m => Some m | _ => None end)
    by (destruct t; [reflexivity..|discriminate Hw]).
  rewrite Fu. clear Fu.
  assert (Sel : forall X (a b : X), match t with Unknown => b | _ => a end = a)
    by (intros; destruct t; [reflexivity..|discriminate Hw]).
  destruct (minify_as t s) as [m| | |].
  2-4: eexists _, _; split; [destruct t; [reflexivity..|discriminate Hw]|];
       split; [intros l' Hne; apply put_other; exact Hne|split; [reflexivity|apply put_same]].
  cbn [write_chunks]. destruct (device lo) as [|[k|] dv].
  - eexists _, _. split; [destruct t; [reflexivity..|discriminate Hw]|].
    split; [intros l' Hne; rewrite !put_other by exact Hne; reflexivity|].
    split; [reflexivity|]. rewrite put_same, app_nil_r. reflexivity.
  - eexists _, _. split; [destruct t; [reflexivity..|discriminate Hw]|].
    split; [intros l' Hne; rewrite !put_other by exact Hne; reflexivity|].
    split; [reflexivity|apply put_same].
  - eexists _, _. split; [destruct t; [reflexivity..|discriminate Hw]|].
    split; [intros l' Hne; rewrite !put_other by exact Hne; reflexivity|].
    split; [reflexivity|]. rewrite put_same, app_nil_r. reflexivity.
Qed.

(** Without -o the output always leads somewhere, beside the input. *)
Theorem default_beside : forall fs p t o l b,
  renamed p t o -> resolve cwd fs p = At l -> fs l = Some (File b) ->
  exists d name name', l = d ++ [name] /\ name <> name' /\ fs d = Some Dir /\
    resolve cwd fs o = At (d ++ [name']).
Proof.
  clear minify_as can_read can_write can_make device.
  intros fs p t o l b (w & pre & name & trail & stem & Hw & Hn & Hs & ->) R F.
  destruct (file_last cwd fs p pre name trail l b Hn R F) as (_ & d & El & Hd & K).
  exists d, name, (stem ++ S_ ".min." ++ w). split; [exact El|]. split; [|split; [exact Hd|]].
  - intro E. destruct Hs as [(e & E1 & E2 & E3)|[U ->]].
    + rewrite E in E1. apply app_inv_head in E1.
      change (S_ ".min." ++ w) with (dot :: S_ "min." ++ w) in E1. injection E1 as E1.
      apply E3. rewrite <- E1. cbn. auto.
    + apply (f_equal (@length _)) in E. rewrite app_length in E. cbn in E. lia.
  - assert (Sl : ~ In slash (stem ++ S_ ".min." ++ w)).
    { assert (Sn : ~ In slash name) by apply Hn.
      assert (Ss : ~ In slash stem).
      { destruct Hs as [(e & E1 & _)|[_ ->]]; [|exact Sn]. intro K'. apply Sn. rewrite E1.
        apply in_or_app. auto. }
      intro K'. apply in_app_or in K'. destruct K' as [K'|K']; [contradiction|].
      destruct t; cbn [word] in Hw; try discriminate Hw; injection Hw as <-;
        cbn in K'; unfold slash in K'; intuition discriminate. }
    assert (Len : (3 <= length (stem ++ S_ ".min." ++ w))%nat).
    { rewrite app_length. cbn. lia. }
    apply K.
    + intro E. rewrite E in Len. cbn in Len. lia.
    + exact Sl.
    + intros [E|E]; rewrite E in Len; cbn in Len; lia.
    + intro E. rewrite E in Len. cbn in Len. lia.
Qed.

(** ** Trees stay trees *)

Lemma put_tree_file : forall fs l b d n, tree fs -> l = d ++ [n] -> fs d = Some Dir ->
  fs l <> Some Dir -> tree (put fs l (File b)).
Proof.
  intros fs l b d n [T1 T2] -> Hd Hl. split.
  - rewrite put_other; [exact T1|]. intro K. destruct d; discriminate K.
  - intros d' n' E. assert (Hd' : fs d' = Some Dir).
    { destruct (loc_dec (d' ++ [n']) (d ++ [n])) as [K|K].
      - apply app_inj_tail in K. destruct K as [-> _]. exact Hd.
      - rewrite put_other in E by exact K. apply (T2 _ _ E). }
    rewrite put_other; [exact Hd'|]. intros ->. contradiction.
Qed.

(** ** Sequences *)

Lemma run_panic : forall fs p r out ext fs',
  write_out fs p out ext = (fs', Panicked) -> run fs (p :: r) out ext = (fs', false).
Proof. intros fs p r out ext fs' H. cbn [cli_run]. rewrite H. reflexivity. Qed.

Lemma run_step : forall fs p r out ext fs' res,
  write_out fs p out ext = (fs', res) -> res <> Panicked ->
  run fs (p :: r) out ext = run fs' r out ext.
Proof. intros fs p r out ext fs' res H Hr. cbn [cli_run]. rewrite H. destruct res; congruence. Qed.

Lemma run_app : forall a b fs out ext fs', run fs a out ext = (fs', true) ->
  run fs (a ++ b) out ext = run fs' b out ext.
Proof.
  induction a as [|p a IH]; intros b fs out ext fs' H; cbn [cli_run app] in *.
  - injection H as <-. reflexivity.
  - destruct (write_out fs p out ext) as [fs1 r]. destruct r; [| |discriminate H]; apply IH; exact H.
Qed.

Lemma run_app_panic : forall a b fs out ext fs', run fs a out ext = (fs', false) ->
  run fs (a ++ b) out ext = (fs', false).
Proof.
  induction a as [|p a IH]; intros b fs out ext fs' H; cbn [cli_run app] in *; [discriminate|].
  destruct (write_out fs p out ext) as [fs1 r]. destruct r; [apply IH; exact H..|exact H].
Qed.

(** A batch without -o: the outputs hold the minified texts when none of them is an input or
    another output. *)
Record job := Job { j_path : str; j_type : ftype; j_text : str; j_min : str;
                    j_in : loc; j_out : loc }.

Definition ready (fs : fsys) (ext : option ftype) (j : job) : Prop :=
  chosen ext (j_path j) (j_type j) /\ holds_text cwd fs (j_path j) (j_in j) (j_text j) /\
  can_read (j_in j) = true /\ minify_as (j_type j) (j_text j) = Ok (j_min j) /\
  (exists o, renamed (j_path j) (j_type j) o /\ resolve cwd fs o = At (j_out j)) /\
  fs (j_out j) <> Some Dir /\ can_write (j_out j) = true /\ device (j_out j) = [].

Theorem batch : forall ext jobs fs,
  Forall (ready fs ext) jobs ->
  NoDup (map j_out jobs) ->
  (forall j j', In j jobs -> In j' jobs -> j_out j <> j_in j') ->
  exists fs', run fs (map j_path jobs) None ext = (fs', true) /\
    (forall j, In j jobs -> fs' (j_out j) = Some (File (encode (j_min j)))) /\
    (forall l, ~ In l (map j_out jobs) -> fs' l = fs l).
Proof.
  intros ext jobs; induction jobs as [|j jobs IH]; intros fs Hr Hd Hx.
  - exists fs. cbn. split; [reflexivity|]. split; [intros j []|auto].
  - inversion Hr as [|? ? Hj Hr']; subst. inversion Hd as [|? ? Hn Hd']; subst.
    destruct Hj as (J1 & J2 & J3 & J4 & (o & J5 & J6) & J7 & J8 & J9).
    destruct (proceeds fs (j_path j) None ext _ _ _ o (j_out j) J1 J2 J3 (target_default _ _ _ _ _ J5) J6 J7 J8)
      as (fs1 & r & W & Hf & Hm).
    rewrite J4, J9 in Hm. destruct Hm as [-> Hm].
    assert (Kd : keeps_dirs fs fs1).
    { intros l E. destruct (loc_dec l (j_out j)) as [->|Hne]; [contradiction|].
      rewrite Hf by exact Hne. exact E. }
    destruct (IH fs1) as (fs' & R & Ho & Hu).
    { rewrite Forall_forall in Hr' |- *. intros k Hk. destruct (Hr' k Hk) as
        (K1 & (K2 & K3 & K4) & K5 & K6 & (ok & K7 & K8) & K9 & K10 & K11).
      split; [exact K1|]. split; [split; [|split]|split; [exact K5|split; [exact K6|split]]].
      - eapply resolve_keeps; eauto.
      - rewrite Hf; [exact K3|]. intro E. apply (Hx j k); [left; reflexivity|right; exact Hk|congruence].
      - exact K4.
      - exists ok. split; [exact K7|]. eapply resolve_keeps; eauto.
      - split; [|auto]. rewrite Hf; [exact K9|]. intro E. apply Hn. rewrite <- E. apply in_map. exact Hk. }
    { exact Hd'. }
    { intros a b Ha Hb. apply Hx; right; assumption. }
    exists fs'. cbn [map]. rewrite (run_step _ _ _ _ _ _ _ W) by discriminate. split; [exact R|]. split.
    + intros k [<-|Hk]; [|apply Ho; exact Hk]. rewrite Hu by exact Hn. exact Hm.
    + intros l Hl. cbn [map In] in Hl. rewrite Hu by tauto. apply Hf. intros ->. tauto.
Qed.

End Tool.
