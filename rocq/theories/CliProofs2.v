(** File types, text files and path resolution. *)
From Coq Require Import String List NArith Bool Arith Lia ZifyBool ZifyN.
From Verif Require Import Base Utf8 CliModel CliSpec CliProofs1.
Import ListNotations.
Open Scope N_scope.
Open Scope list_scope.

(** ** UTF-8 *)

Lemma decode_loop_sound : forall n b s, decode_loop n b = Some s ->
  encode s = b /\ Forall (fun c => is_scalar c = true) s.
Proof.
  induction n as [|n IH]; intros b s H; destruct b as [|a r]; cbn [decode_loop] in H;
    try discriminate; try (injection H as <-; split; [reflexivity|constructor]).
  destruct (utf8_char_width a) as [|[|w]] eqn:W; [discriminate| |].
  - destruct (decode_loop n r) as [u|] eqn:E; [|discriminate]. injection H as <-.
    destruct (IH _ _ E) as [E1 E2]. destruct (width1_encode a W) as [Ha Ea].
    cbn [encode]. rewrite Ea, E1. split; [reflexivity|]. constructor; assumption.
  - destruct (from_utf8_first (firstn (S (S w)) (a :: r))) as [c|] eqn:F; [|discriminate].
    destruct (decode_loop n (skipn (S (S w)) (a :: r))) as [u|] eqn:E; [|discriminate].
    injection H as <-. destruct (IH _ _ E) as [E1 E2].
    destruct (from_utf8_first_encode _ _ F) as [Hc Ec].
    cbn [encode]. rewrite Ec, E1. split; [apply firstn_skipn|]. constructor; assumption.
Qed.

Lemma decode_loop_complete : forall s n, Forall (fun c => is_scalar c = true) s ->
  (length (encode s) <= n)%nat -> decode_loop n (encode s) = Some s.
Proof.
  induction s as [|c s IH]; intros n Hs Hn; cbn [encode] in *.
  - destruct n; reflexivity.
  - inversion Hs as [|? ? Hc Hs']; subst. 
    destruct (encode_char_accepted c Hc) as (a & r & E & W & H1 & H2). rewrite E in *.
    rewrite app_length in Hn. cbn [length app] in Hn |- *.
    destruct n as [|n]; [lia|]. cbn [decode_loop]. rewrite W.
    destruct r as [|b r].
    + cbn [length app]. rewrite (H1 eq_refl). rewrite IH; [reflexivity|assumption|cbn in Hn; lia].
    + cbn [length]. specialize (H2 ltac:(discriminate)).
      replace (firstn (S (S (length r))) (a :: (b :: r) ++ encode s)) with (a :: b :: r).
      2: { cbn [firstn app]. f_equal. f_equal. rewrite firstn_app, Nat.sub_diag, firstn_all. cbn. rewrite app_nil_r. reflexivity. }
      rewrite H2.
      replace (skipn (S (S (length r))) (a :: (b :: r) ++ encode s)) with (encode s).
      2: { cbn [skipn app]. rewrite skipn_app, Nat.sub_diag, skipn_all. reflexivity. }
      rewrite IH; [reflexivity|assumption|cbn in Hn; lia].
Qed.

Theorem decode_spec : forall b s,
  decode b = Some s <-> encode s = b /\ Forall (fun c => is_scalar c = true) s.
Proof.
  intros b s. split; [apply decode_loop_sound|].
  intros [<- H]. apply decode_loop_complete; [exact H|apply le_n].
Qed.

(** ** The type *)

Lemma lowercase_spells : forall e w,
  Forall (fun c => ~ (65 <= c <= 90)) w ->
  (to_ascii_lowercase e = w <-> spells e w).
Proof.
  induction e as [|c e IH]; intros w Hw; cbn [to_ascii_lowercase map].
  - split; [intros <-; constructor|]. intro H. inversion H. reflexivity.
  - split.
    + intros <-. inversion Hw as [|? ? Hc Hw']; subst. constructor.
      * destruct ((65 <=? c) && (c <=? 90)) eqn:E; [right|left]; lia.
      * apply (IH (map _ e)); [exact Hw'|reflexivity].
    + intro H. inversion H as [|? y ? w' Hxy Hr]; subst. inversion Hw; subst.
      f_equal; [|apply IH; assumption].
      destruct ((65 <=? c) && (c <=? 90)) eqn:E; lia.
Qed.

Lemma word_lower : forall t w, word t = Some w ->
  Forall (fun c => ~ (65 <= c <= 90)) w /\ w = as_str t.
Proof.
  intros t w H. destruct t; cbn [word] in H; try discriminate H; injection H as <-;
    (split; [|reflexivity]); repeat constructor; cbn; lia.
Qed.

Lemma word_decodes : forall t w, word t = Some w -> exists s, decode w = Some s.
Proof. intros t w H. destruct t; cbn [word] in H; try discriminate H; injection H as <-; eexists; reflexivity. Qed.

Theorem type_of_path_spec : forall p t, word t <> None ->
  (type_of_path p = Some t <-> typed p t).
Proof.
  intros p t Ht. destruct (word t) as [w|] eqn:Hw; [|congruence]. clear Ht.
  destruct (word_lower t w Hw) as [Hl Ha]. unfold type_of_path. split.
  - intro H. destruct (extension p) as [e|] eqn:E; [|injection H as <-; discriminate Hw].
    apply extension_spec in E. destruct E as (pre & name & trail & stem & Hn & D).
    destruct (decode (to_ascii_lowercase e)); [|discriminate H].
    exists w, pre, name, trail, stem, e. split; [exact Hw|]. split; [exact Hn|]. split; [exact D|].
    apply lowercase_spells; [exact Hl|].
    destruct (str_eqb (to_ascii_lowercase e) (S_ "css")) eqn:E1.
    { injection H as <-. rewrite Ha. apply str_eqb_eq. exact E1. }
    destruct (str_eqb (to_ascii_lowercase e) (S_ "js")) eqn:E2.
    { injection H as <-. rewrite Ha. apply str_eqb_eq. exact E2. }
    destruct (str_eqb (to_ascii_lowercase e) (S_ "json")) eqn:E3.
    { injection H as <-. rewrite Ha. apply str_eqb_eq. exact E3. }
    injection H as <-. discriminate Hw.
  - intros (w' & pre & name & trail & stem & e & Hw' & Hn & D & Hs).
    assert (w' = w) by congruence. subst w'.
    replace (extension p) with (Some e) by (symmetry; apply extension_spec; eauto 6).
    apply lowercase_spells in Hs; [|exact Hl]. rewrite Hs.
    destruct (word_decodes t w Hw) as (u & ->).
    destruct t; cbn [word] in Hw; try discriminate Hw; injection Hw as <-; reflexivity.
Qed.

(** The types of a path exclude one another. *)
Lemma typed_unique : forall p t t', typed p t -> typed p t' -> t = t'.
Proof.
  intros p t t' H H'.
  assert (word t <> None) by (destruct H as (w & ? & ? & ? & ? & ? & E & _); congruence).
  assert (word t' <> None) by (destruct H' as (w & ? & ? & ? & ? & ? & E & _); congruence).
  apply type_of_path_spec in H; [|assumption]. apply type_of_path_spec in H'; [|assumption]. congruence.
Qed.

(** ** Locations *)

Lemma loc_eqb_eq : forall a b, loc_eqb a b = true <-> a = b.
Proof.
  induction a as [|x a IH]; intros [|y b]; cbn [loc_eqb]; try (split; [discriminate|congruence]).
  - split; auto.
  - rewrite andb_true_iff, str_eqb_eq, IH. split; [intros [-> ->]; reflexivity|]. intro H. injection H. auto.
Qed.

Lemma loc_eqb_refl : forall a, loc_eqb a a = true.
Proof. intro a. apply loc_eqb_eq. reflexivity. Qed.

Lemma put_same : forall fs l n, put fs l n l = Some n.
Proof. intros. unfold put. rewrite loc_eqb_refl. reflexivity. Qed.

Lemma put_other : forall fs l n l', l' <> l -> put fs l n l' = fs l'.
Proof.
  intros. unfold put. destruct (loc_eqb l' l) eqn:E; [|reflexivity].
  apply loc_eqb_eq in E. contradiction.
Qed.

Lemma loc_dec : forall a b : loc, a = b \/ a <> b.
Proof.
  intros a b. destruct (loc_eqb a b) eqn:E.
  - left. apply loc_eqb_eq. exact E.
  - right. intro K. apply loc_eqb_eq in K. congruence.
Qed.

(** ** Segments *)

Lemma split_slash_ne : forall p, split_slash p <> [].
Proof.
  induction p as [|c p IH]; cbn [split_slash]; [discriminate|].
  destruct (c =? slash); [discriminate|]. destruct (split_slash p); discriminate.
Qed.

Lemma split_slash_app : forall a b, split_slash (a ++ slash :: b) = split_slash a ++ split_slash b.
Proof.
  induction a as [|c a IH]; intro b; cbn [app split_slash].
  - rewrite N.eqb_refl. reflexivity.
  - rewrite IH. destruct (c =? slash); [reflexivity|].
    pose proof (split_slash_ne a). destruct (split_slash a); [contradiction|]. reflexivity.
Qed.

Lemma split_slash_name : forall n, ~ In slash n -> split_slash n = [n].
Proof.
  induction n as [|c n IH]; intro H; cbn [split_slash]; [reflexivity|].
  cbn in H. rewrite IH by intuition.
  replace (c =? slash) with false by (symmetry; apply N.eqb_neq; intuition). reflexivity.
Qed.

(** Segments that stay in place. *)
Definition stays (s : str) : Prop := s = [] \/ s = [dot].

Lemma stays_dec : forall s, stays s \/ ~ stays s.
Proof.
  intro s. unfold stays. destruct (str_eq_dec s []); [auto|]. destruct (str_eq_dec s [dot]); [auto|].
  right. tauto.
Qed.

Lemma ignored_segs : forall t, ignored t -> t = [] \/
  exists u, t = slash :: u /\ Forall stays (split_slash u).
Proof.
  induction 1 as [|t Ht IH|t Ht IH Hc]; [auto| |]; right.
  - exists t. split; [reflexivity|]. destruct IH as [-> | (u & -> & Hu)].
    + repeat constructor.
    + change (slash :: u) with ([] ++ slash :: u). rewrite split_slash_app.
      constructor; [left; reflexivity|exact Hu].
  - exists (dot :: t). split; [reflexivity|]. destruct IH as [-> | (u & -> & Hu)].
    + constructor; [right; reflexivity|constructor].
    + change (dot :: slash :: u) with ([dot] ++ slash :: u). rewrite split_slash_app.
      constructor; [right; reflexivity|exact Hu].
Qed.

(** A segment, what precedes and what follows. *)
Lemma segment_text : forall p A s B, split_slash p = A ++ s :: B ->
  exists pre trail, p = pre ++ s ++ trail /\ ~ In slash s /\
    (A = [] /\ pre = [] \/ exists d, pre = d ++ [slash]) /\
    trail = concat (map (cons slash) B).
Proof.
  induction p as [|c p IH]; intros A s B H; cbn [split_slash] in H.
  - destruct A as [|x A]; cbn in H; injection H as <- H; [|destruct A; discriminate H].
    subst B. exists [], []. cbn. intuition.
  - destruct (c =? slash) eqn:E.
    + apply N.eqb_eq in E. subst c. destruct A as [|x A]; cbn [app] in H; injection H as <- H.
      * exists [], (slash :: p). split; [reflexivity|]. split; [intros []|]. split; [auto|].
        subst B. clear IH. 
        assert (K : forall q, slash :: q = concat (map (cons slash) (split_slash q))).
        { induction q as [|c q IH]; [reflexivity|]. cbn [split_slash].
          destruct (c =? slash) eqn:E.
          - apply N.eqb_eq in E. subst c. cbn [map concat app]. rewrite <- IH. reflexivity.
          - destruct (split_slash q) as [|s l]; [discriminate IH|].
            cbn [map concat app] in *. injection IH as IH. rewrite <- IH. reflexivity. }
        apply K.
      * destruct (IH _ _ _ H) as (pre & trail & -> & Hs & Hp & Ht).
        exists (slash :: pre), trail. split; [reflexivity|]. split; [exact Hs|]. split; [|exact Ht].
        right. destruct Hp as [[_ ->]|(d & ->)]; [exists []; reflexivity|exists (slash :: d); reflexivity].
    + destruct (split_slash p) as [|x l] eqn:Sp; [destruct (split_slash_ne p Sp)|].
      destruct A as [|y A]; cbn [app] in H; injection H as <- H.
      * destruct (IH [] x l eq_refl) as (pre & trail & Ep & Hs & Hp & Ht).
        exists [], trail.
        assert (pre = []).
        { destruct Hp as [[_ Hp]|(d & ->)]; [exact Hp|]. exfalso.
          assert (Sl : split_slash (d ++ slash :: (x ++ trail)) = x :: l).
          { rewrite <- Sp, Ep, <- !app_assoc. reflexivity. }
          rewrite split_slash_app in Sl.
          apply (f_equal (fun z => concat (map (cons slash) z))) in Sl.
          rewrite map_app, concat_app in Sl.
          assert (K : forall q, concat (map (cons slash) (split_slash q)) = slash :: q).
          { clear. induction q as [|c q IH]; [reflexivity|]. cbn [split_slash].
            destruct (c =? slash) eqn:E.
            - apply N.eqb_eq in E. subst c. cbn [map concat app]. rewrite IH. reflexivity.
            - destruct (split_slash q) as [|s l]; [discriminate IH|].
              cbn [map concat app] in *. injection IH as IH. rewrite IH. reflexivity. }
          rewrite !K in Sl. cbn [map concat app] in Sl. rewrite <- Ht in Sl.
          apply (f_equal (@length _)) in Sl. cbn [app length] in Sl.
          rewrite !app_length in Sl. cbn [length] in Sl. rewrite app_length in Sl. lia. }
        subst pre. cbn [app] in Ep. subst p. split; [reflexivity|].
        split; [|split; [auto|subst B; exact Ht]].
        cbn. intros [->|K]; [rewrite N.eqb_refl in E; discriminate|tauto].
      * destruct (IH (x :: A) s B) as (pre & trail & Ep & Hs & Hp & Ht); [cbn; congruence|].
        exists (c :: pre), trail. split; [cbn; congruence|]. split; [exact Hs|]. split; [|exact Ht].
        right. destruct Hp as [[K _]|(d & ->)]; [discriminate K|]. exists (c :: d). reflexivity.
Qed.

Lemma stays_ignored : forall B, Forall stays B -> ignored (concat (map (cons slash) B)).
Proof.
  induction 1 as [|s B Hs HB IH]; [constructor|]. cbn [map concat app].
  destruct Hs as [-> | ->]; cbn [app]; [constructor; exact IH|].
  apply ignored_dot; [exact IH|]. destruct B as [|x B]; [left; reflexivity|right]. cbn. eauto.
Qed.

Lemma last_real : forall segs, Forall stays segs \/
  exists A s B, segs = A ++ s :: B /\ ~ stays s /\ Forall stays B.
Proof.
  induction segs as [|x l IH]; [left; constructor|].
  destruct IH as [IH|(A & s & B & -> & Hs & HB)].
  - destruct (stays_dec x) as [H|H]; [left; constructor; assumption|].
    right. exists [], x, l. auto.
  - right. exists (x :: A), s, B. auto.
Qed.

(** ** Walking *)

Lemma enter_stays : forall cur s, stays s -> enter cur s = cur.
Proof. intros cur s [-> | ->]; reflexivity. Qed.

Lemma enter_up : forall cur, enter cur [dot; dot] = removelast cur.
Proof. reflexivity. Qed.

Lemma enter_name : forall cur s, ~ stays s -> s <> [dot; dot] -> enter cur s = cur ++ [s].
Proof.
  intros cur s H1 H2. unfold enter, stays in *.
  destruct (str_eqb s []) eqn:E1; [apply str_eqb_eq in E1; tauto|].
  destruct (str_eqb s [dot]) eqn:E2; [apply str_eqb_eq in E2; tauto|].
  destruct (str_eqb s [dot; dot]) eqn:E3; [apply str_eqb_eq in E3; tauto|]. reflexivity.
Qed.

Lemma walk_app : forall fs a b cur,
  walk fs cur (a ++ b) = match walk fs cur a with At l => walk fs l b | x => x end.
Proof.
  intros fs a; induction a as [|s a IH]; intros b cur; cbn [app walk]; [reflexivity|].
  destruct (fs cur) as [[|]|]; [reflexivity|apply IH|reflexivity].
Qed.

Lemma walk_stays : forall fs segs cur l, Forall stays segs -> segs <> [] ->
  walk fs cur segs = At l -> l = cur /\ fs l = Some Dir.
Proof.
  intros fs segs; induction segs as [|s segs IH]; intros cur l H Hne W; [contradiction|].
  inversion H as [|? ? Hs Hr]; subst. cbn [walk] in W.
  destruct (fs cur) as [[|]|] eqn:E; try discriminate W. rewrite (enter_stays _ _ Hs) in W.
  destruct segs as [|x segs].
  - cbn in W. injection W as <-. auto.
  - apply IH; [assumption|discriminate|assumption].
Qed.

Lemma walk_snoc : forall fs segs s cur l, walk fs cur (segs ++ [s]) = At l ->
  exists d, walk fs cur segs = At d /\ fs d = Some Dir /\ l = enter d s.
Proof.
  intros fs segs s cur l H. rewrite walk_app in H. destruct (walk fs cur segs) as [d| |]; try discriminate H.
  cbn [walk] in H. destruct (fs d) as [[|]|] eqn:E; try discriminate H. injection H as <-. eauto.
Qed.

(** The segments before the last name. *)
Lemma resolve_last : forall cwd pre, (pre = [] \/ exists d, pre = d ++ [slash]) ->
  exists start segs, forall fs name, name <> [] -> ~ In slash name ->
    resolve cwd fs (pre ++ name) = walk fs start (segs ++ [name]) /\
    forall u, resolve cwd fs (pre ++ name ++ slash :: u) = walk fs start (segs ++ [name] ++ split_slash u).
Proof.
  intros cwd pre [-> | (d & ->)].
  - exists cwd, []. intros fs name Hne Hs. cbn [app]. split.
    + unfold resolve. destruct name as [|c n]; [contradiction|].
      replace (is_absolute (c :: n)) with false
        by (cbn [is_absolute]; symmetry; apply N.eqb_neq; cbn in Hs; intuition).
      rewrite split_slash_name by exact Hs. reflexivity.
    + intro u. unfold resolve. destruct name as [|c n]; [contradiction|]. cbn [app].
      replace (is_absolute (c :: n ++ slash :: u)) with false
        by (cbn [is_absolute]; symmetry; apply N.eqb_neq; cbn in Hs; intuition).
      change (c :: n ++ slash :: u) with ((c :: n) ++ slash :: u).
      rewrite split_slash_app, split_slash_name by exact Hs. reflexivity.
  - exists (if is_absolute (d ++ [slash]) then [] else cwd), (split_slash d).
    assert (R : forall fs x, resolve cwd fs ((d ++ [slash]) ++ x) =
      walk fs (if is_absolute (d ++ [slash]) then [] else cwd) (split_slash d ++ split_slash x)).
    { intros fs x. unfold resolve. rewrite <- app_assoc. cbn [app].
      rewrite split_slash_app.
      replace (is_absolute (d ++ slash :: x)) with (is_absolute (d ++ [slash])) by (destruct d; reflexivity).
      destruct d; reflexivity. }
    intros fs name Hne Hs. split.
    + rewrite R, (split_slash_name name Hs). reflexivity.
    + intro u. rewrite R. rewrite split_slash_app, (split_slash_name name Hs). reflexivity.
Qed.

Lemma names_not_stays : forall p pre name trail, names p pre name trail -> ~ stays name.
Proof. intros p pre name trail (_ & _ & H1 & H2 & _) [H|H]; contradiction. Qed.

(** A path that leads to a file ends with its name, and so does the location. *)
Lemma file_last : forall cwd fs p pre name trail l b, names p pre name trail ->
  resolve cwd fs p = At l -> fs l = Some (File b) ->
  trail = [] /\ exists d, l = d ++ [name] /\ fs d = Some Dir /\
    forall name', name' <> [] -> ~ In slash name' -> ~ stays name' -> name' <> [dot; dot] ->
      resolve cwd fs (pre ++ name') = At (d ++ [name']).
Proof.
  intros cwd fs p pre name trail l b Hn R F.
  pose proof (names_not_stays _ _ _ _ Hn) as Hst.
  destruct Hn as (-> & Hpre & N1 & N2 & N3 & Hs & Hi).
  destruct (resolve_last cwd pre Hpre) as (start & segs & L).
  destruct (L fs name N1 Hs) as [L1 L2].
  assert (Ht : trail = []).
  { destruct (ignored_segs trail Hi) as [H|(u & -> & Hu)]; [exact H|exfalso].
    rewrite L2, app_assoc, walk_app in R.
    match type of R with match ?w with _ => _ end = _ => destruct w as [m| |]; try discriminate R end.
    destruct (walk_stays fs _ _ _ Hu (split_slash_ne u) R) as [_ K]. congruence. }
  subst trail. split; [reflexivity|]. rewrite app_nil_r, L1 in R.
  destruct (walk_snoc _ _ _ _ _ R) as (d & W & D & ->).
  exists d. split; [apply enter_name; assumption|]. split; [exact D|].
  intros name' M1 M2 M3 M4. destruct (L fs name' M1 M2) as [-> _].
  rewrite walk_app, W. cbn [walk]. rewrite D. rewrite enter_name by assumption. reflexivity.
Qed.

(** ** Well-formed trees: what exists is in a directory. *)
Definition tree (fs : fsys) : Prop :=
  fs [] = Some Dir /\ forall d n, fs (d ++ [n]) <> None -> fs d = Some Dir.

Lemma file_names : forall cwd fs p l b, tree fs ->
  resolve cwd fs p = At l -> fs l = Some (File b) -> exists pre name trail, names p pre name trail.
Proof.
  intros cwd fs p l b [T1 T2] R F.
  destruct (last_real (split_slash p)) as [H|(A & s & B & E & Hs & HB)].
  - exfalso. unfold resolve in R. destruct p as [|c p]; [discriminate R|].
    destruct (walk_stays fs _ _ _ H (split_slash_ne _) R) as [_ K]. congruence.
  - destruct (str_eq_dec s [dot; dot]) as [->|Hup].
    + exfalso. unfold resolve in R. destruct p as [|c p]; [discriminate R|].
      rewrite E in R. change (A ++ [dot; dot] :: B) with (A ++ [[dot; dot]] ++ B) in R.
      rewrite app_assoc, walk_app in R.
      match type of R with match ?w with _ => _ end = _ =>
        destruct w as [m| |] eqn:W; try discriminate R end.
      assert (fs m = Some Dir).
      { destruct (walk_snoc _ _ _ _ _ W) as (d & _ & D & ->). rewrite enter_up.
        destruct d as [|x d] using rev_ind; [exact T1|]. rewrite removelast_last.
        apply (T2 d x). congruence. }
      destruct B as [|x B].
      * cbn in R. injection R as <-. congruence.
      * destruct (walk_stays fs _ _ _ HB ltac:(discriminate) R) as [_ K]. congruence.
    + destruct (segment_text p A s B E) as (pre & trail & Ep & Hsl & Hp & Ht).
      exists pre, s, trail. split; [exact Ep|].
      split; [destruct Hp as [[_ Hp]|Hp]; auto|].
      split; [intros ->; apply Hs; left; reflexivity|].
      split; [intros ->; apply Hs; right; reflexivity|].
      split; [exact Hup|]. split; [exact Hsl|]. subst trail. apply stays_ignored. exact HB.
Qed.
