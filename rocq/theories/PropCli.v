(** The theorems about the command line tool (src/cli.rs).  [minify_as] is any minifier, and
    what the system permits ([can_read], [can_write], [can_make]) and accepts ([device]) is
    arbitrary; the last part puts in the modelled minifiers. *)
From Coq Require Import String List NArith Bool Arith Lia.
From Verif Require Import Base JsonModel JsonProofs CliModel CliSpec CliProofs1 CliProofs2 CliProofs3 CliProofs4.
From Verif Require CssModel CssSpec PropCss JsUtilModel.
Import ListNotations.
Open Scope N_scope.
Open Scope list_scope.

(** ** C46: the type and the output path *)

(** The type found for a path is the one its extension spells. *)
Theorem C46_type : forall p t, word t <> None -> (type_of_path p = Some t <-> typed p t).
Proof. exact type_of_path_spec. Qed.

(** -t accepts exactly the three words. *)
Theorem C46_option : forall s t, parse_type s = Some t <-> word t = Some s.
Proof.
  intros s t. unfold parse_type. split.
  - destruct (str_eqb s (S_ "css")) eqn:E1; [intro H; injection H as <-; apply str_eqb_eq in E1; rewrite E1; reflexivity|].
    destruct (str_eqb s (S_ "js")) eqn:E2; [intro H; injection H as <-; apply str_eqb_eq in E2; rewrite E2; reflexivity|].
    destruct (str_eqb s (S_ "json")) eqn:E3; [intro H; injection H as <-; apply str_eqb_eq in E3; rewrite E3; reflexivity|].
    discriminate.
  - intro H. destruct t; cbn [word] in H; try discriminate H; injection H as <-; reflexivity.
Qed.

(** When neither -t nor the extension gives a type, nothing is read or written. *)
Theorem C46_no_type : forall minify_as cwd cr cw cm dev fs p out ext fs' r,
  (forall t, ~ chosen ext p t) ->
  write_out_file minify_as cwd cr cw cm dev fs p out ext = (fs', r) -> fs' = fs /\ r <> Done.
Proof.
  intros minify_as cwd cr cw cm dev fs p out ext fs' r H W. unfold write_out_file in W.
  destruct (match ext with Some t => Some t | None => type_of_path p end) as [t|] eqn:E.
  - destruct (word t) as [w|] eqn:Hw.
    + exfalso. apply (H t). apply chosen_type; [congruence|exact E].
    + destruct t; cbn [word] in Hw; try discriminate Hw. injection W as <- <-. split; [reflexivity|discriminate].
  - injection W as <- <-. split; [reflexivity|discriminate].
Qed.

(** Every path that names something has exactly one output path. *)
Theorem C46_renamed : forall p t, word t <> None -> (exists pre name trail, names p pre name trail) ->
  exists o, renamed p t o /\ forall o', renamed p t o' -> o' = o.
Proof.
  intros p t Ht (pre & name & trail & H). destruct (word t) as [w|] eqn:Hw; [|congruence].
  destruct (names_renamed p t w pre name trail Hw H) as (o & Ho). exists o. split; [exact Ho|].
  intros o' Ho'. eapply renamed_unique; eassumption.
Qed.

(** Without -o the output is in the directory of the input, under another name. *)
Theorem C46_never_input : forall cwd fs p t o l b,
  renamed p t o -> resolve cwd fs p = At l -> fs l = Some (File b) ->
  exists d name name', l = d ++ [name] /\ name <> name' /\ fs d = Some Dir /\
    resolve cwd fs o = At (d ++ [name']).
Proof. exact default_beside. Qed.

(** ** C47: the effect on the file system *)

(** Whatever happens, the only file written is the output; it holds the minified text, or, when
    the tool does not say so, the part of it that could be written, or nothing after a failure
    of the minifier; when no file is written only directories can be new, and only with -o. *)
Theorem C47_effect : forall minify_as cwd cr cw cm dev fs p out ext fs' r, tree fs ->
  write_out_file minify_as cwd cr cw cm dev fs p out ext = (fs', r) ->
  (r <> Done /\ (forall l, fs' l = fs l \/ fs l = None /\ fs' l = Some Dir) /\ (out = None -> fs' = fs)) \/
  exists t s l o lo b,
    chosen ext p t /\ holds_text cwd fs p l s /\ target cwd fs p t out o /\
    resolve cwd fs' o = At lo /\ only_at fs fs' lo /\
    (out = None -> forall l', l' <> lo -> fs' l' = fs l') /\
    fs' lo = Some (File b) /\
    ((r = Panicked /\ b = [] /\ forall m, minify_as t s <> Ok m) \/
     exists m, minify_as t s = Ok m /\
       (r = Done /\ b = encode m \/ r = Reported /\ exists k, b = firstn k (encode m))).
Proof. exact effect. Qed.

(** When the output path leads somewhere and the system refuses nothing, the output holds the
    minified text and nothing else changes.  The input may be the output: its text is read
    before. *)
Theorem C47_writes : forall minify_as cwd cr cw cm dev fs p out ext t s l o lo m,
  chosen ext p t -> holds_text cwd fs p l s -> cr l = true ->
  target cwd fs p t out o -> resolve cwd fs o = At lo -> fs lo <> Some Dir -> cw lo = true -> dev lo = [] ->
  minify_as t s = Ok m ->
  exists fs', write_out_file minify_as cwd cr cw cm dev fs p out ext = (fs', Done) /\
    fs' lo = Some (File (encode m)) /\ forall l', l' <> lo -> fs' l' = fs l'.
Proof.
  intros minify_as cwd cr cw cm dev fs p out ext t s l o lo m H1 H2 H3 H4 H5 H6 H7 H8 H9.
  destruct (proceeds minify_as cwd cr cw cm dev fs p out ext t s l o lo H1 H2 H3 H4 H5 H6 H7)
    as (fs' & r & W & F & M).
  rewrite H9, H8 in M. destruct M as [-> M]. eauto.
Qed.

(** Missing directories before an output named with -o are created. *)
Theorem C47_new_directories : forall minify_as cwd cr cw cm dev fs p ext t s l (abs : bool) (cs : list str) (n : str) m,
  let start := if abs then [] else cwd in
  tree fs -> fs start = Some Dir ->
  chosen ext p t -> holds_text cwd fs p l s -> cr l = true ->
  Forall (fun s => ~ In slash s) (cs ++ [n]) -> Forall plain (cs ++ [n]) ->
  (forall k, fs (start ++ firstn k cs) = Some Dir \/ fs (start ++ firstn k cs) = None) ->
  fs (start ++ cs) = None ->
  (forall l, cm l = true) -> cw (start ++ cs ++ [n]) = true -> dev (start ++ cs ++ [n]) = [] ->
  minify_as t s = Ok m ->
  exists fs', write_out_file minify_as cwd cr cw cm dev fs p (Some (spelled abs cs n)) ext = (fs', Done) /\
    (forall k, fs' (start ++ firstn k cs) = Some Dir) /\
    fs' (start ++ cs ++ [n]) = Some (File (encode m)) /\ only_at fs fs' (start ++ cs ++ [n]).
Proof.
  intros minify_as cwd cr cw cm dev fs p ext t s l abs cs n m start H1 H2 H3 H4 H5 H6 H7 H8 H9 H10 H11 H12 H13.
  destruct (proceeds_new_dirs minify_as cwd cr cw cm dev fs p ext t s l abs cs n H1 H2 H3 H4 H5 H6 H7 H8 H9 H10 H11 H12)
    as (fs' & r & W & D & F & M).
  rewrite H13 in M. destruct M as [-> M]. eauto 6.
Qed.

(** A missing or unreadable input changes nothing, and does not stop the batch. *)
Theorem C47_missing : forall minify_as cwd cr cw cm dev fs p out ext rest,
  (forall l, resolve cwd fs p = At l -> fs l = None \/ cr l = false) ->
  (ext = None -> type_of_path p <> None) ->
  write_out_file minify_as cwd cr cw cm dev fs p out ext = (fs, Reported) /\
  cli_run minify_as cwd cr cw cm dev fs (p :: rest) out ext = cli_run minify_as cwd cr cw cm dev fs rest out ext.
Proof.
  intros minify_as cwd cr cw cm dev fs p out ext rest H Ht.
  assert (G : get_all_data cwd cr fs p = Failed).
  { unfold get_all_data. destruct (resolve cwd fs p) as [l| |]; [|reflexivity..].
    destruct (H l eq_refl) as [-> | E]; [reflexivity|]. destruct (fs l); [|reflexivity]. rewrite E. reflexivity. }
  assert (W : write_out_file minify_as cwd cr cw cm dev fs p out ext = (fs, Reported)).
  { unfold write_out_file. rewrite G.
    destruct ext as [t|]; [destruct t; reflexivity|].
    destruct (type_of_path p) as [t|]; [destruct t; reflexivity|]. destruct (Ht eq_refl eq_refl). }
  split; [exact W|]. eapply run_step; [exact W|discriminate].
Qed.

(** Without -o, what is not the output of one of the inputs is unchanged. *)
Theorem C47_others : forall minify_as cwd cr cw cm dev files fs ext fs' ok, tree fs ->
  cli_run minify_as cwd cr cw cm dev fs files None ext = (fs', ok) ->
  forall l, (forall p t o, In p files -> chosen ext p t -> renamed p t o -> resolve cwd fs o <> At l) ->
  fs' l = fs l.
Proof. exact run_default_frame. Qed.

(** Without -o, outputs that are neither inputs nor shared all hold the minified texts. *)
Theorem C47_batch : forall minify_as cwd cr cw cm dev ext jobs fs,
  Forall (ready minify_as cwd cr cw dev fs ext) jobs ->
  NoDup (map j_out jobs) ->
  (forall j j', In j jobs -> In j' jobs -> j_out j <> j_in j') ->
  exists fs', cli_run minify_as cwd cr cw cm dev fs (map j_path jobs) None ext = (fs', true) /\
    (forall j, In j jobs -> fs' (j_out j) = Some (File (encode (j_min j)))) /\
    (forall l, ~ In l (map j_out jobs) -> fs' l = fs l).
Proof. intros minify_as cwd cr cw cm dev. exact (batch minify_as cwd cr cw cm dev). Qed.

(** With one output file for several inputs, the last input decides. *)
Theorem C47_last : forall minify_as cwd cr cw cm dev files p fs o lo ext fs1 t s l m,
  resolve cwd fs o = At lo -> fs lo <> Some Dir -> cw lo = true -> dev lo = [] ->
  cli_run minify_as cwd cr cw cm dev fs files (Some o) ext = (fs1, true) ->
  chosen ext p t -> holds_text cwd fs p l s -> l <> lo -> cr l = true ->
  minify_as t s = Ok m ->
  exists fs', cli_run minify_as cwd cr cw cm dev fs (files ++ [p]) (Some o) ext = (fs', true) /\
    fs' lo = Some (File (encode m)) /\ forall l, l <> lo -> fs' l = fs l.
Proof.
  intros minify_as cwd cr cw cm dev files p fs o lo ext fs1 t s l m H1 H2 H3 H4 H5 H6 H7 H8 H9 H10.
  destruct (run_last minify_as cwd cr cw cm dev files p fs o lo ext fs1 t s l H1 H2 H3 H4 H5 H6 H7 H8 H9)
    as (fs' & ok & R & F & M).
  rewrite H10 in M. destruct M as [-> M]. eauto.
Qed.

(** ** C48: failures *)

(** When the minifier fails, the output has been emptied; nothing else changes. *)
Theorem C48_truncated : forall minify_as cwd cr cw cm dev fs p out ext t s l o lo,
  chosen ext p t -> holds_text cwd fs p l s -> cr l = true ->
  target cwd fs p t out o -> resolve cwd fs o = At lo -> fs lo <> Some Dir -> cw lo = true ->
  (forall m, minify_as t s <> Ok m) ->
  exists fs', write_out_file minify_as cwd cr cw cm dev fs p out ext = (fs', Panicked) /\
    fs' lo = Some (File []) /\ forall l', l' <> lo -> fs' l' = fs l'.
Proof.
  intros minify_as cwd cr cw cm dev fs p out ext t s l o lo H1 H2 H3 H4 H5 H6 H7 H8.
  destruct (proceeds minify_as cwd cr cw cm dev fs p out ext t s l o lo H1 H2 H3 H4 H5 H6 H7)
    as (fs' & r & W & F & M).
  destruct (minify_as t s) as [m| | |]; [destruct (H8 m eq_refl)|..]; destruct M as [-> M]; eauto.
Qed.

(** With -o naming the input itself, the source is lost. *)
Theorem C48_source_lost : forall minify_as cwd cr cw cm dev fs p ext t s l,
  chosen ext p t -> holds_text cwd fs p l s -> cr l = true -> cw l = true ->
  (forall m, minify_as t s <> Ok m) ->
  exists fs', write_out_file minify_as cwd cr cw cm dev fs p (Some p) ext = (fs', Panicked) /\
    fs' l = Some (File []) /\ forall l', l' <> l -> fs' l' = fs l'.
Proof.
  intros minify_as cwd cr cw cm dev fs p ext t s l H1 H2 H3 H4 H5.
  destruct H2 as (R & E & S_).
  apply C48_truncated with (t := t) (s := s) (l := l) (o := p); try assumption.
  - split; [exact R|split; assumption].
  - apply target_file. intros (l' & R' & E'). congruence.
  - congruence.
Qed.

(** A panic ends the run: the inputs that follow are not looked at. *)
Theorem C48_stops : forall minify_as cwd cr cw cm dev fs files p rest out ext fs1 fs2,
  cli_run minify_as cwd cr cw cm dev fs files out ext = (fs1, true) ->
  write_out_file minify_as cwd cr cw cm dev fs1 p out ext = (fs2, Panicked) ->
  cli_run minify_as cwd cr cw cm dev fs (files ++ p :: rest) out ext = (fs2, false).
Proof.
  intros minify_as cwd cr cw cm dev fs files p rest out ext fs1 fs2 H W.
  rewrite (run_app _ _ _ _ _ _ _ _ _ _ _ _ H). apply run_panic. exact W.
Qed.

(** Input that is not UTF-8, or a directory, is a panic too, but before anything is written. *)
Theorem C48_unreadable_content : forall minify_as cwd cr cw cm dev fs p out ext t l n,
  chosen ext p t -> resolve cwd fs p = At l -> fs l = Some n -> cr l = true ->
  (forall s, n = File (encode s) -> ~ Forall (fun c => is_scalar c = true) s) ->
  write_out_file minify_as cwd cr cw cm dev fs p out ext = (fs, Panicked).
Proof.
  intros minify_as cwd cr cw cm dev fs p out ext t l n Hc R E C H.
  assert (Hw : word t <> None) by apply Hc.
  assert (G : get_all_data cwd cr fs p = Crash).
  { unfold get_all_data. rewrite R, E, C. destruct n as [b|]; [|reflexivity].
    destruct (decode b) as [s|] eqn:D; [|reflexivity]. apply decode_spec in D. destruct D as [<- D].
    destruct (H s eq_refl D). }
  unfold write_out_file. apply chosen_type in Hc; [|exact Hw]. rewrite Hc, G.
  destruct t; [reflexivity..|]. cbn in Hw. congruence.
Qed.

(** When the directories of an output named with -o cannot be made, that is a panic, and no
    file is written. *)
Theorem C48_no_directories : forall minify_as cwd cr cw cm dev fs p ext t s l (abs : bool) (cs : list str) (n : str) fs' r,
  let start := if abs then [] else cwd in
  fs start = Some Dir -> chosen ext p t -> holds_text cwd fs p l s -> cr l = true ->
  Forall (fun s => ~ In slash s) (cs ++ [n]) -> Forall plain (cs ++ [n]) -> cs <> [] ->
  fs (start ++ cs ++ [n]) <> Some Dir ->
  write_out_file minify_as cwd cr cw cm dev fs p (Some (spelled abs cs n)) ext = (fs', r) ->
  fs' (start ++ cs) <> Some Dir ->
  r = Panicked /\ forall l, fs' l = fs l \/ fs l = None /\ fs' l = Some Dir.
Proof. intros minify_as cwd cr cw cm dev. exact (no_directories minify_as cwd cr cw cm dev). Qed.

(** The modelled minifiers: JSON never fails; CSS fails exactly on the texts it reports. *)
Theorem C48_json : forall alpha s, exists m, real_minify alpha Json s = Ok m.
Proof. intros alpha s. eexists. cbn [real_minify]. apply json_minify_run. Qed.

Theorem C48_css : forall alpha s,
  (forall m, real_minify alpha Css s <> Ok m) <-> CssSpec.css_problem s <> None.
Proof.
  intros alpha s. cbn [real_minify]. split.
  - intros H E. destruct (PropCss.C13_css_total alpha s) as [(o & K)|(m & K)]; [exact (H _ K)|].
    apply PropCss.C14_css_errors in K. congruence.
  - intros H m E. destruct (CssSpec.css_problem s) as [e|] eqn:P; [|congruence].
    apply (PropCss.C14_css_errors alpha) in P. congruence.
Qed.

(** ** Cases *)

Definition ex_files : list (loc * node) :=
  [([], Dir); ([S_ "w"], Dir); ([S_ "w"; S_ "sub"], Dir);
   ([S_ "w"; S_ "a.css"], File (S_ "a { b : c }"));
   ([S_ "w"; S_ "b.JS"], File (S_ "var x = 1;"));
   ([S_ "w"; S_ "bad.css"], File (S_ "a}{"));
   ([S_ "w"; S_ "bad.min.css"], File (S_ "old"));
   ([S_ "w"; S_ "sub"; S_ "d.json"], File (S_ "[ 1 ]"))].

Definition ex_fs : fsys := fun l =>
  match find (fun x => loc_eqb (fst x) l) ex_files with Some (_, n) => Some n | None => None end.

Definition ex_alpha (c : N) : bool := false.
Definition ex_yes (l : loc) : bool := true.
Definition ex_dev (l : loc) : writer := [].
Definition ex_write := write_out_file (real_minify ex_alpha) [S_ "w"] ex_yes ex_yes ex_yes ex_dev.
Definition ex_run := cli_run (real_minify ex_alpha) [S_ "w"] ex_yes ex_yes ex_yes ex_dev.

Example ex_tree : tree ex_fs.
Proof.
  split; [reflexivity|]. intros d n H. unfold ex_fs in H.
  destruct (find (fun x => loc_eqb (fst x) (d ++ [n])) ex_files) as [[l x]|] eqn:E; [|congruence].
  destruct (find_some _ _ E) as [I K]. cbn [fst] in K. apply loc_eqb_eq in K.
  assert (A : Forall (fun e => fst e <> [] -> ex_fs (removelast (fst e)) = Some Dir) ex_files)
    by (repeat constructor; cbn [fst]; intro; try reflexivity; congruence).
  rewrite Forall_forall in A. specialize (A _ I). cbn [fst] in A. rewrite K in A.
  rewrite removelast_last in A. apply A. destruct d; discriminate.
Qed.

Example C46_case_css : typed (S_ "x/a.min.CsS/.") Css /\ renamed (S_ "x/a.min.CsS/.") Css (S_ "x/a.min.min.css").
Proof.
  split.
  - apply type_of_path_spec; [discriminate|reflexivity].
  - exists (S_ "css"), (S_ "x/"), (S_ "a.min.CsS"), (S_ "/."), (S_ "a.min").
    split; [reflexivity|]. split.
    + split; [reflexivity|]. split; [right; exists (S_ "x"); reflexivity|].
      repeat split; try discriminate; [cbn; unfold slash; intuition discriminate|].
      apply ignored_dot; [constructor|auto].
    + split; [|reflexivity]. left. exists (S_ "CsS").
      split; [reflexivity|]. split; [discriminate|]. cbn; unfold dot; intuition discriminate.
Qed.

Example C46_case_none : forall t, ~ typed (S_ ".css") t /\ ~ typed (S_ "a.css.") t /\ ~ typed (S_ "a.html") t.
Proof.
  intro t. assert (K : forall p, type_of_path p = Some Unknown -> ~ typed p t).
  { intros p H T. assert (word t <> None) by (destruct T as (w & ? & ? & ? & ? & ? & E & _); congruence).
    apply type_of_path_spec in T; [|assumption]. rewrite T in H. injection H as ->. cbn in *. congruence. }
  repeat split; apply K; reflexivity.
Qed.

Example C47_case_write :
  let (fs', r) := ex_write ex_fs (S_ "a.css") None None in
  r = Done /\ fs' [S_ "w"; S_ "a.min.css"] = Some (File (S_ "a{b:c}")) /\
  fs' [S_ "w"; S_ "a.css"] = Some (File (S_ "a { b : c }")).
Proof. vm_compute. auto. Qed.

(** An absolute input ignores the -o directory. *)
Example C47_case_absolute :
  let (fs', r) := ex_write ex_fs (S_ "/w/a.css") (Some (S_ "sub")) None in
  r = Done /\ fs' [S_ "w"; S_ "a.min.css"] = Some (File (S_ "a{b:c}")) /\
  fs' [S_ "w"; S_ "sub"; S_ "a.min.css"] = None.
Proof. vm_compute. auto. Qed.

Example C47_case_dirs :
  let (fs', r) := ex_write ex_fs (S_ "a.css") (Some (S_ "p/q/o.css")) None in
  r = Done /\ fs' [S_ "w"; S_ "p"; S_ "q"; S_ "o.css"] = Some (File (S_ "a{b:c}")) /\
  fs' [S_ "w"; S_ "p"; S_ "q"] = Some Dir.
Proof. vm_compute. auto. Qed.

Example C47_case_last :
  let (fs', ok) := ex_run ex_fs [S_ "a.css"; S_ "none.css"; S_ "x.html"; S_ "b.JS"] (Some (S_ "out")) None in
  ok = true /\ fs' [S_ "w"; S_ "out"] = Some (File (S_ "var x=1;")).
Proof. vm_compute. auto. Qed.

(** The hypotheses of [C47_batch] are met by two inputs of different types. *)
Example C47_case_batch : let jobs :=
    [Job (S_ "a.css") Css (S_ "a { b : c }") (S_ "a{b:c}") [S_ "w"; S_ "a.css"] [S_ "w"; S_ "a.min.css"];
     Job (S_ "sub/d.json") Json (S_ "[ 1 ]") (S_ "[1]") [S_ "w"; S_ "sub"; S_ "d.json"]
       [S_ "w"; S_ "sub"; S_ "d.min.json"]] in
  Forall (ready (real_minify ex_alpha) [S_ "w"] ex_yes ex_yes ex_dev ex_fs None) jobs /\
  NoDup (map j_out jobs) /\ (forall j j', In j jobs -> In j' jobs -> j_out j <> j_in j').
Proof.
  cbv zeta. assert (Q : forall p t, word t <> None -> type_of_path p = Some t -> chosen None p t).
  { intros p t Hw H. split; [exact Hw|right; split; [reflexivity|apply type_of_path_spec; assumption]]. }
  assert (M : forall p t w o pre name, word t = Some w -> split_path p = Some (pre, name) ->
     set_extension p (S_ "min." ++ as_str t) = o -> renamed p t o).
  { intros p t w o pre name Hw Hp E. apply split_path_some in Hp. destruct Hp as (trail & Hp).
    destruct (names_renamed _ t w _ _ _ Hw Hp) as (o' & Ho).
    rewrite (set_extension_renamed _ _ _ _ Hw Ho) in E. subst o. exact Ho. }
  split; [|split].
  - constructor; [|constructor; [|constructor]]; unfold ready; cbn [j_path j_type j_text j_min j_in j_out].
    + split; [apply Q; [discriminate|reflexivity]|]. split; [|split; [reflexivity|split; [reflexivity|split]]].
      * split; [reflexivity|]. split; [reflexivity|]. repeat constructor.
      * exists (S_ "a.min.css"). split; [|reflexivity]. eapply M; reflexivity.
      * repeat split; discriminate.
    + split; [apply Q; [discriminate|reflexivity]|]. split; [|split; [reflexivity|split; [reflexivity|split]]].
      * split; [reflexivity|]. split; [reflexivity|]. repeat constructor.
      * exists (S_ "sub/d.min.json"). split; [|reflexivity]. eapply M; reflexivity.
      * repeat split; discriminate.
  - cbn [map j_out]. constructor; [cbn; intuition discriminate|]. constructor; [intros []|constructor].
  - intros j j' [<-|[<-|[]]] [<-|[<-|[]]]; discriminate.
Qed.

(** A CSS error empties the earlier output, and the file after it in the list is not done. *)
Example C48_case_truncated :
  let (fs', ok) := ex_run ex_fs [S_ "bad.css"; S_ "a.css"] None None in
  ok = false /\ fs' [S_ "w"; S_ "bad.min.css"] = Some (File []) /\ fs' [S_ "w"; S_ "a.min.css"] = None.
Proof. vm_compute. auto. Qed.

Example C48_case_source_lost :
  let (fs', r) := ex_write ex_fs (S_ "bad.css") (Some (S_ "bad.css")) None in
  r = Panicked /\ fs' [S_ "w"; S_ "bad.css"] = Some (File []).
Proof. vm_compute. auto. Qed.

Example C48_case_directory :
  snd (ex_write ex_fs (S_ "sub") None (Some Css)) = Panicked.
Proof. reflexivity. Qed.

(** A directory that may not be created, below one that is. *)
Definition ex_not_q (l : loc) : bool := negb (loc_eqb l [S_ "w"; S_ "p"; S_ "q"]).

Example C48_case_no_directories :
  let (fs', r) := write_out_file (real_minify ex_alpha) [S_ "w"] ex_yes ex_yes ex_not_q ex_dev ex_fs (S_ "a.css")
    (Some (spelled false [S_ "p"; S_ "q"; S_ "r"] (S_ "o.css"))) None in
  r = Panicked /\ fs' [S_ "w"; S_ "p"] = Some Dir /\ fs' [S_ "w"; S_ "p"; S_ "q"; S_ "r"] = None
  /\ fs' [S_ "w"; S_ "p"; S_ "q"; S_ "r"; S_ "o.css"] = None.
Proof. vm_compute. auto. Qed.

Print Assumptions C46_type.
Print Assumptions C46_option.
Print Assumptions C46_no_type.
Print Assumptions C46_renamed.
Print Assumptions C46_never_input.
Print Assumptions C47_effect.
Print Assumptions C47_writes.
Print Assumptions C47_new_directories.
Print Assumptions C47_missing.
Print Assumptions C47_others.
Print Assumptions C47_batch.
Print Assumptions C47_last.
Print Assumptions C48_truncated.
Print Assumptions C48_source_lost.
Print Assumptions C48_stops.
Print Assumptions C48_unreadable_content.
Print Assumptions C48_no_directories.
Print Assumptions C48_json.
Print Assumptions C48_css.
