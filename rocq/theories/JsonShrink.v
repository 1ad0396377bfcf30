(** C69: deleting white space and control characters from a document leaves a document. *)
From Coq Require Import String List NArith ZArith Bool Lia ZifyBool ZifyN.
From Verif Require Import Base JsonModel JsonSpec JsonProofs JsonUnique JsonCorrupt.
Import ListNotations.
Open Scope N_scope.

Definition solid (c : N) : Prop := ~ faint c.

Lemma del_app : forall D a b o, deletes D (a ++ b) o ->
  exists o1 o2, o = o1 ++ o2 /\ deletes D a o1 /\ deletes D b o2.
Proof.
  intros D. induction a as [|x a IH]; intros b o H.
  - exists [], o. split; [reflexivity|]. split; [constructor | exact H].
  - cbn [app] in H. inversion H as [|c s t Ht|c s t Hd Ht]; subst; destruct (IH _ _ Ht) as (o1 & o2 & -> & A & B).
    + exists (x :: o1), o2. split; [reflexivity|]. split; [now constructor | exact B].
    + exists o1, o2. split; [reflexivity|]. split; [now constructor | exact B].
Qed.

Lemma del_solid : forall a o, Forall solid a -> deletes faint a o -> o = a.
Proof.
  intros a o Ha H. induction H as [|c s t Ht IH|c s t Hd Ht IH]; [reflexivity| |]; inversion Ha; subst.
  - rewrite IH by assumption. reflexivity.
  - contradiction.
Qed.

Lemma del_forall : forall (P : N -> Prop) a o, Forall P a -> deletes faint a o -> Forall P o.
Proof. intros P a o Ha H. induction H; [constructor| |]; inversion Ha; subst; auto. Qed.

Lemma del_ws : forall a o, deletes faint a o -> ws a -> ws o.
Proof. intros a o H W. exact (del_forall _ a o W H). Qed.

Lemma solid_above : forall c, 0x20 < c -> c < 0x7F -> solid c.
Proof.
  intros c H1 H2 [H|H].
  - unfold is_whitespace in H. lia.
  - unfold is_ascii_control in H. lia.
Qed.

Lemma solid_hex : forall c, hex c = true -> solid c.
Proof. intros c H. unfold hex, digit in H. apply solid_above; lia. Qed.

Lemma del_cons_solid : forall c s o, solid c -> deletes faint (c :: s) o -> exists o', o = c :: o' /\ deletes faint s o'.
Proof. intros c s o Hc H. inversion H; subst; [eauto | contradiction]. Qed.

Lemma del_content : forall c, content c -> forall o, deletes faint c o -> content o.
Proof.
  induction 1 as [|c r H1 H2 H3 H IH|e r He H IH|a b c d r Ha Hb Hc Hd H IH]; intros o Ho.
  - inversion Ho. constructor.
  - inversion Ho; subst; [constructor; auto | auto].
  - apply del_cons_solid in Ho; [|apply solid_above; reflexivity]. destruct Ho as (o1 & -> & Ho).
    apply del_cons_solid in Ho.
    + destruct Ho as (o2 & -> & Ho). apply ct_esc; auto.
    + cbn in He. repeat (destruct He as [<-|He]; [apply solid_above; reflexivity|]). destruct He.
  - do 2 (apply del_cons_solid in Ho; [|apply solid_above; reflexivity]; destruct Ho as (? & -> & Ho)).
    do 4 (apply del_cons_solid in Ho; [|apply solid_hex; assumption]; destruct Ho as (? & -> & Ho)).
    apply ct_u; auto.
Qed.

Lemma plain_solid : forall c, plain c -> solid c.
Proof. intros c (A & B & _) [X|X]; congruence. Qed.

Lemma del_string : forall c o, content c -> deletes faint (q :: c ++ [q]) o ->
  exists c', o = q :: c' ++ [q] /\ content c' /\ deletes faint c c'.
Proof.
  intros c o Hc H. apply del_cons_solid in H; [|apply solid_above; reflexivity]. destruct H as (o1 & -> & H).
  apply del_app in H. destruct H as (c' & o2 & -> & A & B). apply del_solid in B; [|repeat constructor; apply solid_above; reflexivity].
  subst o2. exists c'. split; [reflexivity|]. split; [eapply del_content; eassumption | exact A].
Qed.

Notation shr := (same_shape (deletes faint)).

Lemma del_layout :
  (forall v t (_ : value_text v t), forall o, deletes faint t o -> exists v', value_text v' o /\ shr v v') /\
  (forall v t (_ : element_text v t), forall o, deletes faint t o -> exists v', element_text v' o /\ shr v v') /\
  (forall vs t (_ : elements_text vs t), forall o, deletes faint t o -> exists vs', elements_text vs' o /\ Forall2 shr vs vs') /\
  (forall m t (_ : member_text m t), forall o, deletes faint t o -> exists m', member_text m' o /\ deletes faint (fst m) (fst m') /\ shr (snd m) (snd m')) /\
  (forall ms t (_ : members_text ms t), forall o, deletes faint t o -> exists ms', members_text ms' o /\
     Forall2 (fun m m' => deletes faint (fst m) (fst m') /\ shr (snd m) (snd m')) ms ms').
Proof.
  assert (Two : forall a b w o, solid a -> solid b -> deletes faint ([a] ++ w ++ [b]) o -> exists w', o = [a] ++ w' ++ [b] /\ deletes faint w w').
  { intros a b w o Ha Hb H. apply del_cons_solid in H; [|exact Ha]. destruct H as (o1 & -> & H). apply del_app in H.
    destruct H as (w' & o2 & -> & A & B). apply del_solid in B; [|repeat constructor; exact Hb]. subst. exists w'. split; [reflexivity | exact A]. }
  assert (S1 : solid 0x5B) by (apply solid_above; reflexivity). assert (S2 : solid 0x5D) by (apply solid_above; reflexivity).
  assert (S3 : solid 0x7B) by (apply solid_above; reflexivity). assert (S4 : solid 0x7D) by (apply solid_above; reflexivity).
  assert (S5 : solid 0x2C) by (apply solid_above; reflexivity). assert (S6 : solid 0x3A) by (apply solid_above; reflexivity).
  apply json_text_ind.
  - intros l Hl o H. apply del_solid in H; [|eapply Forall_impl; [apply plain_solid | now apply literal_plain]]. subst.
    exists (JLit l). split; constructor. exact Hl.
  - intros c Hc o H. apply del_string in H; [|exact Hc]. destruct H as (c' & -> & A & B). exists (JStr c'). split; now constructor.
  - intros w Hw o H. apply Two in H; [|assumption..]. destruct H as (w' & -> & H). exists (JArr []). split; [|constructor; constructor].
    apply vt_arr0. eapply del_ws; eassumption.
  - intros vs t _ IH o H. apply Two in H; [|assumption..]. destruct H as (w' & -> & H). destruct (IH _ H) as (vs' & A & B).
    exists (JArr vs'). split; [apply vt_arr; exact A | constructor; exact B].
  - intros w Hw o H. apply Two in H; [|assumption..]. destruct H as (w' & -> & H). exists (JObj []). split; [|constructor; constructor].
    apply vt_obj0. eapply del_ws; eassumption.
  - intros ms t _ IH o H. apply Two in H; [|assumption..]. destruct H as (w' & -> & H). destruct (IH _ H) as (vs' & A & B).
    exists (JObj vs'). split; [apply vt_obj; exact A | constructor; exact B].
  - intros v w1 t w2 H1 _ IH H2 o H. apply del_app in H. destruct H as (o1 & o2 & -> & A & H). apply del_app in H.
    destruct H as (o3 & o4 & -> & B & C). destruct (IH _ B) as (v' & D & E). exists v'. split; [|exact E].
    constructor; [eapply del_ws; eassumption | exact D | eapply del_ws; eassumption].
  - intros v t _ IH o H. destruct (IH _ H) as (v' & A & B). exists [v']. split; [now constructor|]. constructor; [exact B | constructor].
  - intros v t vs ts _ IH _ IHs o H. apply del_app in H. destruct H as (o1 & o2 & -> & A & H).
    apply del_cons_solid in H; [|exact S5]. destruct H as (o3 & -> & H). destruct (IH _ A) as (v' & B & C). destruct (IHs _ H) as (vs' & E & F).
    exists (v' :: vs'). split; [apply est_cons; assumption | now constructor].
  - intros c v w1 w2 t H1 Hc H2 _ IH o H. apply del_app in H. destruct H as (o1 & o2 & -> & A & H). apply del_app in H.
    destruct H as (o3 & o4 & -> & B & H). apply del_app in H. destruct H as (o5 & o6 & -> & C & H).
    apply del_cons_solid in H; [|exact S6]. destruct H as (o7 & -> & H). apply del_string in B; [|exact Hc]. destruct B as (c' & -> & B1 & B2).
    destruct (IH _ H) as (v' & E & F). exists (c', v'). cbn [fst snd]. split; [|auto].
    apply mt; [eapply del_ws; eassumption | exact B1 | eapply del_ws; eassumption | exact E].
  - intros m t _ IH o H. destruct (IH _ H) as (m' & A & B). exists [m']. split; [now constructor|]. constructor; [exact B | constructor].
  - intros m t ms ts _ IH _ IHs o H. apply del_app in H. destruct H as (o1 & o2 & -> & A & H).
    apply del_cons_solid in H; [|exact S5]. destruct H as (o3 & -> & H). destruct (IH _ A) as (m' & B & C). destruct (IHs _ H) as (ms' & E & F).
    exists (m' :: ms'). split; [apply mst_cons; assumption | now constructor].
Qed.

Lemma json_shrinks : forall v s, json_document v s ->
  exists o v', json_minify s = Ok o /\ json_document v' o /\ shr v v'.
Proof.
  intros v s H. destruct (json_minify_deletes s) as (o & A & B). exists o. destruct del_layout as (_ & L & _).
  destruct (L v s H o B) as (v' & C & D). exists v'. auto.
Qed.

(** ** Equal strings, equal values *)

Lemma same_shape_strings : forall v v', shr v v' -> Forall2 (deletes faint) (strings v) (strings v').
Proof.
  fix IH 1. intros v v' H. destruct v as [l|c|vs|ms]; inversion H; subst; cbn [strings].
  - constructor.
  - constructor; [assumption | constructor].
  - clear H. rename vs' into ws'. revert ws' H1. induction vs as [|v vs IHs]; intros ws' H1; inversion H1; subst; cbn [flat_map]; [constructor|].
    apply Forall2_app; [now apply IH | now apply IHs].
  - clear H. rename ms' into ns. revert ns H1. induction ms as [|[c v] ms IHs]; intros ns H1; inversion H1 as [|? m' ? ? [A B] C]; subst; cbn [flat_map fst snd app]; [constructor|].
    constructor; [exact A|]. apply Forall2_app; [now apply IH | now apply IHs].
Qed.

Lemma deletes_length_eq : forall D s t, deletes D s t -> length s = length t -> s = t.
Proof.
  intros D s t H. induction H as [|c s t H IH|c s t Hd H IH]; intro E; cbn [length] in E; [reflexivity| |].
  - rewrite IH by lia. reflexivity.
  - apply deletes_length in H. lia.
Qed.

Lemma F2_length : forall (A B : Type) (R : A -> B -> Prop) l l', Forall2 R l l' -> length l = length l'.
Proof. induction 1; cbn; congruence. Qed.

Lemma app_split_length : forall (A : Type) (a b a' b' : list A), length a = length a' -> a ++ b = a' ++ b' -> a = a' /\ b = b'.
Proof.
  induction a as [|x a IH]; destruct a' as [|y a']; intros b' L E; try discriminate L; [auto|].
  injection E as <- E. destruct (IH b a' b') as [-> ->]; auto.
Qed.

Lemma same_strings_same : forall v v', shr v v' -> strings v = strings v' -> v = v'.
Proof.
  fix IH 1. intros v v' H. destruct v as [l|c|vs|ms]; inversion H; subst; cbn [strings]; intro E.
  - reflexivity.
  - injection E as <-. reflexivity.
  - f_equal. clear H. rename vs' into ws'. revert ws' H1 E. induction vs as [|v vs IHs]; intros ws' H1 E; inversion H1; subst; [reflexivity|]. cbn [flat_map] in E.
    apply app_split_length in E; [|eapply F2_length, same_shape_strings; eassumption]. destruct E as [E1 E2]. f_equal; [now apply IH | now apply IHs].
  - f_equal. clear H. rename ms' into ns. revert ns H1 E. induction ms as [|[c v] ms IHs]; intros ns H1 E; inversion H1 as [|? [c' v'] ? ? [A B] C]; subst; [reflexivity|].
    cbn [flat_map fst snd app] in *. injection E as <- E. apply app_split_length in E; [|eapply F2_length, same_shape_strings; eassumption]. destruct E as [E1 E2].
    f_equal; [f_equal; now apply IH | now apply IHs].
Qed.

(** ** Documents as lists of items *)

Inductive item := IWs (c : N) | IPl (c : N) | IStr (c : str).

Definition flat (its : list item) : str :=
  flat_map (fun i => match i with IWs c | IPl c => [c] | IStr c => q :: c ++ [q] end) its.

Definition strs (its : list item) : list str :=
  flat_map (fun i => match i with IStr c => [c] | _ => [] end) its.

Definition good (i : item) : Prop :=
  match i with IWs c => json_ws c = true | IPl c => plain c | IStr c => content c end.

Lemma flat_app : forall a b, flat (a ++ b) = flat a ++ flat b.
Proof. intros. apply flat_map_app. Qed.

Lemma strs_app : forall a b, strs (a ++ b) = strs a ++ strs b.
Proof. intros. apply flat_map_app. Qed.

Definition laid (t : str) (l : list str) : Prop := exists its, t = flat its /\ strs its = l /\ Forall good its.

Lemma laid_app : forall a b l m, laid a l -> laid b m -> laid (a ++ b) (l ++ m).
Proof.
  intros a b l m (i & -> & <- & A) (j & -> & <- & B). exists (i ++ j). rewrite flat_app, strs_app.
  split; [reflexivity|]. split; [reflexivity|]. now apply Forall_app.
Qed.

Lemma laid_ws : forall w, ws w -> laid w [].
Proof.
  intros w H. exists (map IWs w). split; [|split].
  - induction w as [|c w IH]; [reflexivity|]. inversion H; subst. cbn. f_equal. auto.
  - induction w as [|c w IH]; [reflexivity|]. inversion H; subst. cbn. auto.
  - induction H; constructor; assumption.
Qed.

Lemma laid_plain : forall w, Forall plain w -> laid w [].
Proof.
  intros w H. exists (map IPl w). split; [|split].
  - induction w as [|c w IH]; [reflexivity|]. inversion H; subst. cbn. f_equal. auto.
  - induction w as [|c w IH]; [reflexivity|]. inversion H; subst. cbn. auto.
  - induction H; constructor; assumption.
Qed.

Lemma laid_string : forall c, content c -> laid (q :: c ++ [q]) [c].
Proof. intros c H. exists [IStr c]. split; [cbn; now rewrite app_nil_r|]. split; [reflexivity|]. constructor; [exact H | constructor]. Qed.

Lemma laid_layout :
  (forall v t (_ : value_text v t), laid t (strings v)) /\
  (forall v t (_ : element_text v t), laid t (strings v)) /\
  (forall vs t (_ : elements_text vs t), laid t (flat_map strings vs)) /\
  (forall m t (_ : member_text m t), laid t (fst m :: strings (snd m))) /\
  (forall ms t (_ : members_text ms t), laid t (flat_map (fun m => fst m :: strings (snd m)) ms)).
Proof.
  assert (One : forall c, plain c -> laid [c] []) by (intros c H; apply laid_plain; repeat constructor; apply H).
  assert (Br : forall a b w l, plain a -> plain b -> laid w l -> laid ([a] ++ w ++ [b]) l).
  { intros a b w l Ha Hb H. rewrite <- (app_nil_l l). apply laid_app; [now apply One|]. rewrite <- (app_nil_r l). apply laid_app; [exact H | now apply One]. }
  apply json_text_ind.
  - intros l Hl. apply laid_plain. now apply literal_plain.
  - intros c Hc. now apply laid_string.
  - intros w Hw. apply (Br 0x5B 0x5D); [plain_char | plain_char | now apply laid_ws].
  - intros vs t _ IH. apply (Br 0x5B 0x5D); [plain_char | plain_char | exact IH].
  - intros w Hw. apply (Br 0x7B 0x7D); [plain_char | plain_char | now apply laid_ws].
  - intros vs t _ IH. apply (Br 0x7B 0x7D); [plain_char | plain_char | exact IH].
  - intros v w1 t w2 H1 _ IH H2. rewrite <- (app_nil_l (strings v)). apply laid_app; [now apply laid_ws|].
    rewrite <- (app_nil_r (strings v)). apply laid_app; [exact IH | now apply laid_ws].
  - intros v t _ IH. cbn [flat_map]. now rewrite app_nil_r.
  - intros v t vs ts _ IH _ IHs. cbn [flat_map]. apply laid_app; [exact IH|]. apply (laid_app [0x2C] ts []); [apply One; plain_char | exact IHs].
  - intros c v w1 w2 t H1 Hc H2 _ IH. cbn [fst snd]. apply (laid_app w1 _ [] (c :: strings v)); [now apply laid_ws|].
    apply (laid_app _ _ [c]); [now apply laid_string|]. apply (laid_app w2 _ []); [now apply laid_ws|]. apply (laid_app [0x3A] t []); [apply One; plain_char | exact IH].
  - intros m t _ IH. cbn [flat_map]. now rewrite app_nil_r.
  - intros m t ms ts _ IH _ IHs. cbn [flat_map]. apply (laid_app t (S_ "," ++ ts) (fst m :: strings (snd m))); [exact IH|].
    apply (laid_app [0x2C] ts []); [apply One; plain_char | exact IHs].
Qed.

(** Items can be read off a text. *)
Lemma flat_unique : forall a, Forall good a -> forall its r, Forall good its -> flat a ++ r = flat its ->
  exists b, its = a ++ b /\ r = flat b.
Proof.
  assert (WP : forall c, json_ws c = true -> plain c -> False).
  { intros c H (A & B & _). unfold json_ws in H. unfold is_ascii_control in A. unfold is_whitespace in B. lia. }
  assert (WQ : json_ws q = true -> False) by discriminate.
  assert (PQ : plain q -> False) by (intros (_ & _ & H); now apply H).
  induction a as [|i a IH]; intros Ha its r Hi E; [exists its; auto|]. inversion Ha as [|? ? H1 H2]; subst.
  destruct its as [|j its]; [destruct i; discriminate E|]. inversion Hi as [|? ? H3 H4]; subst.
  assert (K : i = j /\ flat a ++ r = flat its).
  { destruct i as [c|c|c], j as [d|d|d]; cbn [good] in *; cbn [flat flat_map app] in E; fold (flat a) in E; fold (flat its) in E;
      rewrite <- ?app_assoc in E; cbn [app] in E; try (injection E as E0 E; subst; try (exfalso; eauto; fail)); try (split; [reflexivity | exact E]).
    injection E as E. apply content_unique in E; [|assumption..]. destruct E as [-> E]. split; [reflexivity | exact E]. }
  destruct K as [-> K]. destruct (IH H2 its r H4 K) as (b & -> & ->). exists b. auto.
Qed.

Lemma strs_split : forall its a c b, strs its = a ++ c :: b ->
  exists i j, its = i ++ IStr c :: j /\ strs i = a /\ strs j = b.
Proof.
  induction its as [|x its IH]; intros a c b E; [destruct a; discriminate E|].
  destruct x as [y|y|y]; cbn [strs flat_map app] in E; fold (strs its) in E.
  1,2: destruct (IH _ _ _ E) as (i & j & -> & A & B); eexists (_ :: i), j; split; [reflexivity | split; [exact A | exact B]].
  destruct a as [|z a].
  - injection E as <- E. exists [], its. auto.
  - injection E as <- E. destruct (IH _ _ _ E) as (i & j & -> & A & B). exists (IStr y :: i), j. split; [reflexivity|].
    cbn [strs flat_map app]. fold (strs i). rewrite A. auto.
Qed.

(** As long as the strings are safe the minifier is in step. *)
Definition squash (its : list item) : list item :=
  filter (fun i => match i with IWs _ => false | _ => true end) its.

Lemma run_items : forall its r, Forall good its -> Forall safe_content (strs its) ->
  run outs (flat its ++ r) = flat (squash its) ++ run outs r.
Proof.
  induction its as [|i its IH]; intros r H Hs; [reflexivity|]. inversion H as [|? ? H1 H2]; subst.
  destruct i as [c|c|c]; cbn [good] in H1; cbn [flat flat_map squash filter] in *; fold (flat its); fold (squash its); fold (flat (squash its)); cbn [strs flat_map app] in Hs; fold (strs its) in Hs.
  - cbn [app]. change (c :: flat its ++ r) with ([c] ++ (flat its ++ r)). rewrite run_ws by (repeat constructor; exact H1). now apply IH.
  - cbn [app]. rewrite run_sym by exact H1. f_equal. now apply IH.
  - inversion Hs; subst. rewrite <- !app_assoc. rewrite run_string by assumption. rewrite IH by assumption. reflexivity.
Qed.

Lemma squash_good : forall its, Forall good its -> Forall good (squash its).
Proof. intros its H. unfold squash. rewrite Forall_forall in *. intros i Hi. apply filter_In in Hi. apply H, Hi. Qed.

Lemma squash_strs : forall its, strs (squash its) = strs its.
Proof. induction its as [|[c|c|c] its IH]; [reflexivity| | |]; cbn [squash filter strs flat_map app]; fold (squash its); fold (strs (squash its)); fold (strs its); now rewrite ?IH. Qed.

Lemma run_quote : forall m r, exists r', run m (q :: r) = q :: r'.
Proof.
  intros m r. cbn [run]. unfold keep_element. change (is_ascii_control q) with false. cbv iota.
  destruct (is_whitespace_outside_string m q (hd_error r)) as [b m'] eqn:E.
  assert (b = false).
  { unfold is_whitespace_outside_string in E. injection E as <- _. change (is_whitespace q) with false. apply andb_false_r. }
  subst b. cbn [negb]. eauto.
Qed.

Lemma first_strings : forall v s a c b, json_document v s -> strings v = a ++ c :: b ->
  Forall safe_content a -> Forall (fun x => is_ascii_control x = false) c ->
  exists o v' b', json_minify s = Ok o /\ json_document v' o /\ shr v v' /\ strings v' = a ++ c :: b'.
Proof.
  intros v s a c b H E Ha Hc. destruct (json_shrinks v s H) as (o & v' & Eo & H' & Sh). exists o, v'.
  destruct laid_layout as (_ & L & _). destruct (L _ _ H) as (its & Es & E1 & G). destruct (L _ _ H') as (jts & Eo' & E2 & G').
  rewrite E in E1. destruct (strs_split _ _ _ _ E1) as (i & j & -> & Ei & Ej). rewrite json_minify_run in Eo. injection Eo as Eo.
  apply Forall_app in G. destruct G as [G1 G2]. inversion G2 as [|? ? Gc Gj]; subst. cbn [good] in Gc.
  change new_minifier with outs in *. rewrite flat_app in Eo'. rewrite run_items in Eo' by assumption.
  destruct (flat_unique _ (squash_good _ G1) jts _ G' Eo') as (k & -> & Ek).
  destruct (content_quotes_escaped c Gc) as [Qe Qh].
  cbn [flat flat_map] in Ek. fold (flat j) in Ek. fold (flat k) in Ek. cbn [app] in Ek. rewrite <- app_assoc in Ek. cbn [app] in Ek.
  assert (R : run outs (q :: c ++ q :: flat j) = q :: c ++ run (ins (cnt 0 c)) (q :: flat j)).
  { rewrite <- (run_string_cnt c 0 (flat j) Hc Qe (fun _ => Qh)). reflexivity. }
  rewrite R in Ek. destruct (run_quote (ins (cnt 0 c)) (flat j)) as (r' & Er). rewrite Er in Ek.
  apply Forall_app in G'. destruct G' as [_ Gk].
  destruct (flat_unique [IStr c] ltac:(repeat constructor; exact Gc) k r' Gk) as (k' & -> & _).
  { cbn [flat flat_map]. rewrite app_nil_r. cbn [app]. rewrite <- app_assoc. exact Ek. }
  exists (strs k'). split; [now rewrite json_minify_run|]. split; [exact H'|]. split; [exact Sh|].
  rewrite <- E2, strs_app, squash_strs. reflexivity.
Qed.

Lemma value_kept : forall v s a c b, json_document v s -> strings v = a ++ c :: b ->
  Forall safe_content a -> Forall (fun x => is_ascii_control x = false) c -> Forall (Forall solid) b ->
  exists o, json_minify s = Ok o /\ json_document v o.
Proof.
  intros v s a c b H E Ha Hc Hb. destruct (first_strings v s a c b H E Ha Hc) as (o & v' & b' & Eo & H' & Sh & E').
  exists o. split; [exact Eo|]. assert (v = v'); [|subst; exact H']. apply same_strings_same; [exact Sh|]. rewrite E, E'.
  pose proof (same_shape_strings _ _ Sh) as F. rewrite E, E' in F. apply Forall2_app_inv_l in F. destruct F as (x & y & F1 & F2 & Ex).
  apply F2_length in F1. apply app_split_length in Ex; [|exact F1]. destruct Ex as [<- <-]. inversion F2 as [|? ? ? ? _ F3]; subst. do 2 f_equal.
  clear - F3 Hb. induction F3 as [|p r l l' D F3 IH]; [reflexivity|]. inversion Hb; subst. rewrite IH by assumption. f_equal. symmetry. now apply del_solid.
Qed.

Lemma solid_kept : forall v s, json_document v s -> Forall (Forall solid) (strings v) ->
  exists o, json_minify s = Ok o /\ json_document v o.
Proof.
  intros v s H Hs. destruct (json_shrinks v s H) as (o & v' & Eo & H' & Sh). exists o. split; [exact Eo|].
  assert (v = v'); [|subst; exact H']. apply same_strings_same; [exact Sh|]. pose proof (same_shape_strings _ _ Sh) as F.
  clear - F Hs. induction F as [|p r l l' D F3 IH]; [reflexivity|]. inversion Hs; subst. rewrite IH by assumption. f_equal. symmetry. now apply del_solid.
Qed.
