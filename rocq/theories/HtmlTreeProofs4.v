(** Proofs about HtmlTreeSpec, fourth part: white space and attributes, and the document. *)
From Coq Require Import String List NArith Bool Arith Lia.
From Verif Require Import Base HtmlModel HtmlSpec HtmlSyntaxSpec HtmlTreeSpec HtmlProofs1 HtmlProofs2 HtmlProofs3 HtmlProofs4 HtmlProofs5 HtmlProofs6 HtmlProofs7 HtmlProofs8 HtmlProofs9 HtmlProofs10 HtmlProofs11 HtmlProofs12 HtmlProofs13
  HtmlTreeProofs1 HtmlTreeProofs2 HtmlTreeProofs3.
Import ListNotations.
Open Scope N_scope.

(** Both build no tree, or trees that look the same. *)
Definition oeq (a b : option (list event)) : Prop :=
  match a, b with Some x, Some y => eqv x y | None, None => True | _, _ => False end.

Lemma oeq_refl : forall a, oeq a a.
Proof. intros [x|]; [apply eqv_refl | exact I]. Qed.

Lemma oeq_trans : forall a b c, oeq a b -> oeq b c -> oeq a c.
Proof. intros [x|] [y|] [z|] H K; try contradiction; [exact (eqv_trans _ _ _ H K) | exact I]. Qed.

Lemma oeq_sym : forall a b, oeq a b -> oeq b a.
Proof. intros [x|] [y|] H; try contradiction; [|exact I]. intros e w. symmetry. apply H. Qed.

Lemma oeq_tree : forall ts us, oeq (build ts) (build us) -> tree ts = tree us.
Proof. intros ts us H. unfold tree. destruct (build ts), (build us); try contradiction; [|reflexivity]. cbn. now rewrite (H true false). Qed.

(** ** White space *)

Lemma is_blank_silent : forall t, is_blank t = true -> exists c, t = HChar c /\ html_blank c = true.
Proof. intros [c|c|s|n|n a sl] H; try discriminate. eauto. Qed.

Lemma run_blank : forall m s c ts, html_blank c = true -> run m s (HChar c :: ts) = option_map (app (blank_step m c)) (run m s ts).
Proof. intros m s c ts H. cbn [run step]. unfold char_step. now rewrite H. Qed.

Lemma run_oeq : forall t x y, (forall m s, oeq (run m s x) (run m s y)) -> forall m s, oeq (run m s (t :: x)) (run m s (t :: y)).
Proof.
  intros t x y H m s. cbn [run]. destruct (step m s t) as [[[ev m1] s1]|]; [|exact I]. specialize (H m1 s1).
  destruct (run m1 s1 x), (run m1 s1 y); try contradiction; [|exact I]. cbn. now apply eqv_app.
Qed.

Lemma blank_any : forall m c d a b, html_blank c = true -> html_blank d = true -> eqv a b -> eqv (blank_step m c ++ a) (blank_step m d ++ b).
Proof.
  intros m c d a b Hc Hd H. destruct m; cbn [blank_step app]; try exact H; intros e w; rewrite !look_blank by assumption; apply H.
Qed.

Lemma blank_twice : forall m c d a, html_blank c = true -> html_blank d = true -> eqv (blank_step m c ++ blank_step m d ++ a) (blank_step m d ++ a).
Proof.
  intros m c d a Hc Hd. destruct m; cbn [blank_step app]; try apply eqv_refl; intros e w; now rewrite !look_blank by assumption.
Qed.

Lemma run_blank_any : forall m s c d x y, html_blank c = true -> html_blank d = true -> oeq (run m s x) (run m s y) ->
  oeq (run m s (HChar c :: x)) (run m s (HChar d :: y)).
Proof.
  intros m s c d x y Hc Hd H. rewrite !run_blank by assumption. destruct (run m s x), (run m s y); try contradiction; [|exact I].
  cbn. now apply blank_any.
Qed.

Lemma squeeze_run : forall ts m s, oeq (run m s (squeeze_tokens ts)) (run m s ts).
Proof.
  induction ts as [|t ts IH]; intros m s; [apply oeq_refl|]. cbn [squeeze_tokens]. destruct (is_blank t) eqn:Et.
  - destruct (is_blank_silent t Et) as (c & -> & Hc). destruct (squeeze_tokens ts) as [|u r] eqn:Es.
    + apply run_blank_any; [reflexivity | exact Hc | apply IH].
    + destruct (is_blank u) eqn:Eu; [|apply run_blank_any; [reflexivity | exact Hc | apply IH]].
      destruct (is_blank_silent u Eu) as (d & -> & Hd). specialize (IH m s).
      apply oeq_trans with (run m s (HChar c :: HChar d :: r)); [|now apply run_blank_any].
      apply oeq_sym. rewrite !run_blank by assumption. destruct (run m s r); [|exact I]. cbn. now apply blank_twice.
  - now apply run_oeq.
Qed.

Lemma finish_edge : forall m s ev c, finish m s = Some ev -> html_blank c = true -> eqv (blank_step m c ++ ev) ev.
Proof.
  intros m s ev c H Hc. assert (E : exists x r, ev = x :: r /\ edge x = true).
  { unfold finish in H. destruct s; [|discriminate]. destruct m; cbn in H; injection H as <-; eexists; eexists; (split; [reflexivity|]); reflexivity. }
  destruct E as (x & r & -> & Hx). destruct m; cbn [blank_step app]; try apply eqv_refl; intros e w; rewrite look_blank by exact Hc;
    change (x :: r) with ([x] ++ r); now rewrite !look_edges by (discriminate || (constructor; [exact Hx | constructor])).
Qed.

Lemma trail_run : forall b, blank_tokens b -> forall x m s, oeq (run m s (x ++ b)) (run m s x).
Proof.
  intros b B x. induction x as [|t x IH]; intros m s.
  - cbn [app]. induction B as [|t b Ht B IH]; [apply oeq_refl|]. destruct (is_blank_silent t Ht) as (c & -> & Hc). rewrite run_blank by exact Hc.
    cbn [run] in *. destruct (run m s b) as [e|]; [|exact IH]. destruct (finish m s) as [f|] eqn:Ef; [|exact IH]. cbn [option_map oeq] in *.
    apply eqv_trans with (blank_step m c ++ f); [now apply eqv_app | exact (finish_edge m s f c Ef Hc)].
  - cbn [app]. now apply run_oeq.
Qed.

Lemma lead_build : forall a, blank_tokens a -> forall x, build (a ++ x) = build x.
Proof.
  intros a A x. induction A as [|t a Ht A IH]; [reflexivity|]. destruct (is_blank_silent t Ht) as (c & -> & Hc). cbn [app]. unfold build in *.
  rewrite run_blank by exact Hc. rewrite IH. cbn [blank_step]. now destruct (run Initial [] x).
Qed.

Lemma trim_build : forall a x b, blank_tokens a -> blank_tokens b -> oeq (build (a ++ x ++ b)) (build x).
Proof. intros a x b A B. rewrite lead_build by exact A. now apply trail_run. Qed.

(** ** Attributes *)

(** A token as far as the tree is concerned. *)
Definition norm (t : token) : token :=
  match t with
  | HComment _ => HChar 0x20
  | HDoctype s => HDoctype (skeleton s)
  | HStart n l sl => HStart n (plain_attrs n l) sl
  | _ => t
  end.

Lemma skeleton_twice : forall s, skeleton (skeleton s) = skeleton s.
Proof. intro s. pose proof (skeleton_blanks_app s []) as H. rewrite !app_nil_r in H. now rewrite H at 2. Qed.

Lemma start_low : forall p n, map low p = p -> is_start p n = true -> is_start p (map low n) = true.
Proof.
  intros p n Hp H. unfold is_start in *. apply str_eqb_eq in H. apply str_eqb_eq. rewrite firstn_map, H. exact Hp.
Qed.

Lemma typed_low : forall n, typed_element n = true -> typed_element (map low n) = true.
Proof.
  intros n H. unfold typed_element in *. apply orb_true_iff in H. apply orb_true_iff. destruct H as [H | H]; [left | right]; (apply start_low; [reflexivity | exact H]).
Qed.

Lemma plain_low : forall n l, plain_attrs (map low n) (plain_attrs n l) = plain_attrs (map low n) l.
Proof.
  intros n l. unfold plain_attrs. induction l as [|a l IH]; [reflexivity|]. cbn [filter].
  destruct (str_eqb (fst a) (S_ "type")) eqn:Ea; rewrite ?andb_true_r, ?andb_false_r; cbn [negb].
  - destruct (typed_element n) eqn:Et; cbn [negb].
    + rewrite (typed_low n Et). cbn [negb]. rewrite (typed_low n Et) in IH. exact IH.
    + cbn [map filter fst snd]. rewrite Ea, andb_true_r. destruct (typed_element (map low n)); cbn [negb map fst snd]; [exact IH|].
      rewrite skeleton_twice. f_equal. exact IH.
  - cbn [map filter fst snd]. rewrite Ea, andb_false_r. cbn [negb map fst snd]. rewrite skeleton_twice. f_equal. exact IH.
Qed.

Definition plain_step (r : option (list event * mode * list str)) : option (list event * mode * list str) :=
  match r with Some (ev, m, s) => Some (map plain_event ev, m, s) | None => None end.

Definition plain_put (r : option (list event * list str)) : option (list event * list str) :=
  match r with Some (ev, s) => Some (map plain_event ev, s) | None => None end.

Lemma put_norm : forall s n a b sl, plain_attrs n a = plain_attrs n b -> plain_put (put s n a sl) = plain_put (put s n b sl).
Proof.
  intros s n a b sl H. unfold put. destruct (pop _ s) as [c s1]. destruct (allowed _ n); [|reflexivity].
  destruct (void (kind_of n)); [|destruct sl; [reflexivity|]]; cbn [plain_put]; rewrite !map_app; cbn [map plain_event]; now rewrite H.
Qed.

Lemma in_mode_plain : forall m pre r r', plain_put r = plain_put r' -> plain_step (in_mode m pre r) = plain_step (in_mode m pre r').
Proof.
  intros m pre [[e s]|] [[e' s']|] H; try discriminate; [|reflexivity]. cbn in *. injection H as H ->. now rewrite !map_app, H.
Qed.

Lemma start_norm : forall m s n a b sl, plain_attrs n a = plain_attrs n b -> plain_step (start_step m s n a sl) = plain_step (start_step m s n b sl).
Proof.
  intros m s n a b sl H. assert (P : forall s, plain_put (put s n a sl) = plain_put (put s n b sl)) by (intro; now apply put_norm).
  assert (Q : forall m pre s, plain_step (in_mode m pre (put s n a sl)) = plain_step (in_mode m pre (put s n b sl))) by (intros; now apply in_mode_plain).
  unfold start_step. destruct s as [|x s]; [|destruct m; reflexivity || apply Q].
  destruct (kind_of n); try (destruct (up_to_body m); [apply Q | reflexivity]);
    try (destruct m; try reflexivity; try apply Q; cbn [up_to_head]; reflexivity || apply Q);
    try (destruct m; try reflexivity; destruct sl; try reflexivity; cbn [plain_step map plain_event]; now rewrite H);
    try (destruct (past_head m); [|reflexivity]; destruct sl; [reflexivity|]; cbn [plain_step]; rewrite !map_app; cbn [map plain_event]; now rewrite H).
Qed.

Lemma step_norm : forall m s t, plain_step (step m s (norm t)) = plain_step (step m s t).
Proof.
  intros m s [c|c|d|n|n a sl]; cbn [norm step]; try reflexivity.
  - destruct m; try reflexivity. cbn. now rewrite skeleton_twice.
  - apply start_norm, plain_low.
Qed.

Lemma run_norm : forall ts m s, option_map (map plain_event) (run m s (map norm ts)) = option_map (map plain_event) (run m s ts).
Proof.
  induction ts as [|t ts IH]; intros m s; [reflexivity|]. cbn [map run]. pose proof (step_norm m s t) as H.
  destruct (step m s (norm t)) as [[[e1 m1] s1]|], (step m s t) as [[[e2 m2] s2]|]; try discriminate; [|reflexivity].
  cbn [plain_step] in H. injection H as H -> ->. specialize (IH m2 s2).
  destruct (run m2 s2 (map norm ts)) as [f1|], (run m2 s2 ts) as [f2|]; try discriminate; [|reflexivity].
  cbn [option_map] in *. injection IH as IH. now rewrite !map_app, H, IH.
Qed.

Lemma norm_build : forall ts, oeq (build (map norm ts)) (build ts).
Proof.
  intro ts. unfold build. pose proof (run_norm ts Initial []) as H. destruct (run Initial [] (map norm ts)), (run Initial [] ts); try discriminate; [|exact I].
  cbn [option_map oeq] in *. injection H as H. now apply look_plain.
Qed.

Lemma norm_gone : forall t, gone (norm t) = gone t.
Proof.
  intros [c|c|s|n|n a sl]; try reflexivity. unfold gone. cbn [norm worth].
  destruct (existsb (str_eqb n) droppable_open) eqn:Ed; [|reflexivity]. cbn [andb].
  assert (Et : typed_element n = false) by (destruct (typed_element n) eqn:E; [rewrite (typed_not_droppable n E) in Ed; discriminate | reflexivity]).
  destruct a as [|x a]; [reflexivity|]. unfold plain_attrs. cbn [filter]. rewrite Et. reflexivity.
Qed.

Lemma norm_silent : forall t, silent (norm t) = silent t.
Proof. now intros [c|c|s|n|n a sl]. Qed.

Lemma norm_kind : forall o, kind_at (option_map norm o) = kind_at o /\ end_kind_at (option_map norm o) = end_kind_at o.
Proof. intros [[c|c|s|n|n a sl]|]; split; reflexivity. Qed.

Lemma norm_next : forall ts, next (map norm ts) = option_map norm (next ts).
Proof. induction ts as [|t ts IH]; [reflexivity|]. cbn [map next]. rewrite norm_silent. destruct (silent t); [exact IH | reflexivity]. Qed.

Lemma norm_fits : forall p t q, HtmlTreeSpec.fits (option_map norm p) (norm t) (option_map norm q) = HtmlTreeSpec.fits p t q.
Proof.
  intros p t q. destruct (norm_kind p) as [P1 P2]. destruct (norm_kind q) as [Q1 Q2].
  destruct t as [c|c|s|n|n a sl]; cbn [norm HtmlTreeSpec.fits]; try reflexivity; unfold end_implied; rewrite ?P1, ?P2, ?Q1, ?Q2; reflexivity.
Qed.

Lemma norm_replaceable : forall ts p, replaceable (option_map norm p) (map norm ts) = replaceable p ts.
Proof.
  induction ts as [|t ts IH]; intro p; [reflexivity|]. cbn [map replaceable]. rewrite norm_silent, norm_gone, norm_next, norm_fits.
  rewrite (IH p). change (Some (norm t)) with (option_map norm (Some t)). now rewrite IH.
Qed.

(** ** The document *)

Definition nt (ps : list part) : list token := map (fun p => norm (token_of p)) ps.

Lemma nt_app : forall a b, nt (a ++ b) = nt a ++ nt b.
Proof. intros a b. apply map_app. Qed.

Lemma nt_chars : forall a, nt (map PChar a) = map HChar a.
Proof. intro a. unfold nt. rewrite map_map. reflexivity. Qed.

Lemma nt_tokens : forall ps, oeq (build (nt ps)) (build (map token_of ps)).
Proof. intro ps. unfold nt. rewrite <- (map_map token_of norm). apply norm_build. Qed.

Lemma alike_norm : forall n l l' w w' sl, Forall2 alike l l' ->
  norm (token_of (PStart n l' w' sl)) = norm (token_of (PStart n l w sl)).
Proof.
  intros n l l' w w' sl F. cbn [token_of norm]. f_equal. unfold plain_attrs.
  induction F as [|a a' l l' [H1 H2] F IH]; [reflexivity|]. cbn [map filter fst snd]. rewrite H1.
  destruct (negb _); [|exact IH]. cbn [map fst snd]. now rewrite H2, IH.
Qed.

Lemma sim_norm : forall p p', sim p p' -> norm (token_of p') = norm (token_of p).
Proof.
  intros p p' [s s' E|n w w' _|n l l' w w' sl F Hw].
  - cbn. now rewrite E.
  - reflexivity.
  - apply alike_norm. clear - F. induction F; constructor; [now apply sim_alike | assumption].
Qed.

Lemma layout_norm : forall ps ps', layout ps ps' -> html_blanks (text_of ps) -> html_blanks (text_of ps') ->
  squeeze_tokens (nt ps') = squeeze_tokens (nt ps).
Proof.
  intros ps ps' L. induction L as [a b E|a b p p' ps ps' E S L IH]; intros A B.
  - rewrite text_of_chars in A, B. now rewrite !nt_chars, !squeeze_skeleton, E.
  - rewrite text_of_app, text_of_chars in A, B. apply html_blanks_app in A, B. destruct A as [A1 A2]. destruct B as [B1 B2].
    unfold text_of in A2, B2. cbn [map concat] in A2, B2. apply html_blanks_app in A2, B2. destruct A2 as [_ A2]. destruct B2 as [_ B2].
    rewrite !nt_app, !nt_chars.
    transitivity (squeeze_tokens (map HChar a ++ nt (p' :: ps'))).
    + apply squeeze_app. now rewrite !squeeze_skeleton, E.
    + apply squeeze_app_r. change (p :: ps) with ([p] ++ ps). change (p' :: ps') with ([p'] ++ ps'). rewrite !nt_app.
      assert (nt [p'] = nt [p]) as ->. { unfold nt. cbn [map]. now rewrite (sim_norm p p' S). }
      apply squeeze_app_r. apply IH; assumption.
Qed.

Lemma nt_squeeze : forall ps ps', squeeze_tokens (nt ps') = squeeze_tokens (nt ps) -> oeq (build (nt ps')) (build (nt ps)).
Proof.
  intros ps ps' E. apply oeq_trans with (build (squeeze_tokens (nt ps'))); [apply oeq_sym, squeeze_run|]. rewrite E. apply squeeze_run.
Qed.

Lemma nt_eq : forall ps ps', Forall2 (fun p p' => norm (token_of p') = norm (token_of p)) ps ps' -> nt ps' = nt ps.
Proof. unfold nt. intros ps ps' F. induction F as [|p p' ps ps' H F IH]; [reflexivity|]. cbn [map]. now rewrite H, IH. Qed.

Lemma no_comment_nt : forall ps, nt (map no_comment ps) = nt ps.
Proof. intro ps. apply nt_eq. induction ps as [|p ps IH]; cbn; constructor; [|exact IH]. now destruct p. Qed.

Lemma untypes_norm : forall wu p p', untypes wu p p' -> norm (token_of p') = norm (token_of p).
Proof.
  intros wu p p' U. destruct U as [p _|n l w sl Ht _]; [reflexivity|]. pose proof (filter_fewer wu l) as F. set (l' := filter _ l) in *.
  cbn [token_of norm]. f_equal. unfold plain_attrs.
  clear - F Ht. induction F as [|a l l' F IH|a l l' Ha F IH]; [reflexivity|..]; cbn [map filter fst snd].
  - destruct (negb _); cbn [map]; now rewrite IH.
  - assert (negb (typed_element n && str_eqb (a_name a) (S_ "type")) = false) as -> by (rewrite Ht, Ha; reflexivity). exact IH.
Qed.

Lemma nt_trim : forall a b ps, html_run a -> html_run b -> oeq (build (nt (map PChar a ++ ps ++ map PChar b))) (build (nt ps)).
Proof.
  assert (H : forall a, html_run a -> blank_tokens (map HChar a)).
  { intros a A. apply Forall_forall. intros t J. apply in_map_iff in J. destruct J as (c & <- & J).
    unfold html_run in A. rewrite Forall_forall in A. exact (A c J). }
  intros a b ps A B. rewrite !nt_app, !nt_chars. apply trim_build; auto.
Qed.

Lemma dropped_gone : forall p, part_ok p -> ~ is_comment p -> dropped p = true -> gone (norm (token_of p)) = true.
Proof.
  intros p Hp Hc H. rewrite norm_gone. destruct (dropped_shape p Hp Hc H) as [(n & -> & J) | (n & -> & J)]; unfold gone; cbn [token_of worth map].
  - assert (existsb (str_eqb n) droppable_close = true) as ->; [|reflexivity]. apply existsb_exists. exists n. split; [exact J | apply str_eqb_refl].
  - assert (existsb (str_eqb n) droppable_open = true) as ->; [|reflexivity]. apply existsb_exists. exists n. split; [exact J | apply str_eqb_refl].
Qed.

Lemma filter_thin : forall ps, Forall part_ok ps -> Forall (fun p => ~ is_comment p) ps ->
  thin (nt ps) (nt (filter (fun p => negb (dropped p)) ps)).
Proof.
  intros ps F C. induction ps as [|p ps IH]; [constructor|]. inversion F as [|? ? Hp Fl]; inversion C as [|? ? Cp Cl]; subst. cbn [filter].
  destruct (dropped p) eqn:E; cbn [negb nt map].
  - apply th_drop; [now apply dropped_gone | now apply IH].
  - apply th_keep. now apply IH.
Qed.

Lemma tagged_nt : forall wu ps e, good ps -> rewrites (start_tag wu) tag_out (text_of ps) e ->
  exists ps', e = text_of ps' /\ Forall part_ok ps' /\ Forall (fun p => ~ is_comment p) ps' /\ html_blanks e /\ text_kept None ps' = true /\ nt ps' = nt ps.
Proof.
  intros wu ps e (G1 & G2 & G3 & G4 & G5) R.
  pose proof (html_blanks_incl _ _ G4 (rewrites_incl _ _ tag_out_incl _ _ R)) as HB.
  destruct (tagged_parts wu ps e G1 G2 G3 G4 R) as (ps' & -> & F & S).
  assert (Fk : Forall2 same_kind ps ps').
  { refine (Forall2_and _ _ _ _ _ _ _ G2 S). intros a b Ha Sab. inversion Sab; subst; [now apply same_kind_refl | reflexivity]. }
  exists ps'. split; [reflexivity|]. split; [exact F|]. split; [refine (Forall2_right _ _ _ _ _ _ Fk); exact same_kind_comment|].
  split; [exact HB|]. split; [now rewrite (same_kind_kept _ _ Fk)|]. apply nt_eq. refine (Forall2_weak _ _ _ _ _ _ S).
  intros a b [p|n l l' w w' sl K]; [reflexivity | now apply alike_norm].
Qed.

Lemma trims_nt : forall ps t, Forall part_ok ps -> Forall (fun p => ~ is_comment p) ps -> html_blanks (text_of ps) ->
  text_kept None ps = true -> trims (text_of ps) t ->
  exists ps', html_parts t = Some ps' /\ oeq (build (nt ps')) (build (nt ps)).
Proof.
  intros ps t F C HB K T. destruct (trims_parts ps t F C HB T) as (a & b & ps' & -> & A & B & ->).
  exists ps'. rewrite trims_kept in K. split; [|apply oeq_sym; now apply nt_trim].
  rewrite !Forall_app in F, C. apply html_parts_complete; tauto.
Qed.

Theorem minify_tree : forall wu du lu s ts l, lower_ok lu -> forall ps, html_parts s = Some ps -> Forall part_safe ps -> html_blanks s ->
  html_tokens s = Some ts -> replaceable None ts = true -> html_tree s = Some l ->
  exists t, minify wu du lu s = Ok t /\ html_tree t = Some l.
Proof.
  intros wu du lu s ts l HL ps Hp Hs HB Ht Hr Htree.
  assert (Ets : ts = map token_of ps) by (unfold html_tokens in Ht; rewrite Hp in Ht; now injection Ht).
  unfold html_tree in Htree. rewrite Ht in Htree. clear Ht.
  destruct (html_parts_sound s ps Hp) as (-> & F & K). clear Hp.
  destruct (minify_spec wu du lu (text_of ps) HL) as (a & b & d & e & t & Et & H1 & H2 & H3 & H4).
  destruct (good_no_comment ps (conj F (conj Hs (conj HB K))) a H1) as (p1 & -> & G1 & S1 & T1 & _ & Ep1).
  destruct (good_untyped2 wu p1 b G1 S1 T1 H2) as (p2 & -> & G2 & F2).
  assert (N2 : nt p2 = nt ps).
  { rewrite <- (no_comment_nt ps), <- Ep1. apply nt_eq. refine (Forall2_weak _ _ _ _ _ _ F2). intros; now apply (untypes_norm wu). }
  destruct (good_cleaned p2 G2) as (E3 & G3 & _). rewrite E3 in H3.
  pose proof (filter_thin p2 (proj1 G2) (proj1 (proj2 G2))) as Th. set (p3 := filter (fun p => negb (dropped p)) p2) in *.
  assert (D : oeq (build (nt p3)) (build ts)).
  { unfold tree in Htree. destruct (build ts) as [ev|] eqn:Eb; [|discriminate].
    pose proof (nt_tokens ps) as Q. rewrite <- Ets, Eb in Q. destruct (build (nt ps)) as [ev0|] eqn:E0; [|contradiction].
    rewrite N2 in Th. destruct (thin_build (nt ps) (nt p3) ev0 Th) as (ev1 & E1 & V); [|exact E0|].
    - unfold nt. rewrite <- (map_map token_of norm), <- Ets. change (@None token) with (option_map norm None). now rewrite norm_replaceable.
    - rewrite E1. exact (eqv_trans _ _ _ V Q). }
  exists t. split; [exact Et|].
  assert (Fin : forall p6, html_parts t = Some p6 -> oeq (build (nt p6)) (build (nt p3)) -> html_tree t = Some l).
  { intros p6 E6 O6. unfold html_tree, html_tokens. rewrite E6. cbn [option_map]. rewrite <- Htree. apply oeq_tree.
    apply oeq_trans with (build (nt p6)); [apply oeq_sym, nt_tokens|]. exact (oeq_trans _ _ _ O6 D). }
  destruct H3 as [(P & T & R) | (NP & Q & R)].
  - pose proof G3 as (Q1 & Q2 & Q3 & Q4 & Q5). pose proof (trims_incl _ _ T) as Inc.
    destruct (trims_parts p3 d Q1 Q2 Q4 T) as (x & y & p4 & E4 & A & B & ->).
    assert (G4 : good p4).
    { rewrite E4 in Q1, Q2, Q3, Q5. rewrite trims_kept in Q5. repeat (rewrite Forall_app in Q1; rewrite Forall_app in Q2; rewrite Forall_app in Q3).
      split; [tauto|]. split; [tauto|]. split; [tauto|]. split; [|exact Q5]. exact (html_blanks_incl _ _ Q4 Inc). }
    destruct (tagged_nt wu p4 e G4 R) as (p5 & -> & F5 & C5 & B5 & K5 & N5).
    destruct (trims_nt p5 t F5 C5 B5 K5 H4) as (p6 & E6 & O6). apply (Fin p6 E6). rewrite N5 in O6. apply (oeq_trans _ _ _ O6).
    rewrite E4. apply oeq_sym. now apply nt_trim.
  - pose proof G3 as (Q1 & Q2 & Q3 & Q4 & Q5). pose proof (squeezed_incl _ _ _ Q) as Inc. pose proof (html_blanks_incl _ _ Q4 Inc) as HB4.
    destruct (respaced_parts (length p3) p3 d (le_n _) Q1 Q2 Q4 HB4 (proj1 (squeezed_skeleton _ _ _ Q))) as (p4 & -> & F4 & C4 & L).
    assert (G4 : good p4).
    { split; [exact F4|]. split; [exact C4|]. split; [|split; [exact HB4 | now rewrite (layout_kept _ _ L)]].
      refine (layout_forall tag_safe _ sim_safe _ _ L Q3). intro c. exact Logic.I. }
    destruct (tagged_nt wu p4 e G4) as (p5 & -> & F5 & C5 & B5 & K5 & N5).
    { refine (rewrites_impl _ _ _ _ _ _ R). intros x m m' y _. apply tidy_tag_out_out. }
    destruct (trims_nt p5 t F5 C5 B5 K5 H4) as (p6 & E6 & O6). apply (Fin p6 E6). rewrite N5 in O6. apply (oeq_trans _ _ _ O6).
    apply nt_squeeze. now apply layout_norm.
Qed.

(** ** A walk through a tree *)

Definition base (m : mode) : list str :=
  match m with
  | Initial | BeforeHtml => []
  | BeforeHead | AfterHead => [html_]
  | InHead => [head_; html_]
  | InBody | AfterBody => [body_; html_]
  end.

Lemma nest_app : forall a b s, nest s (a ++ b) = match nest s a with Some s' => nest s' b | None => None end.
Proof.
  induction a as [|e a IH]; intros b s; [reflexivity|]. destruct e; cbn [app nest]; try apply IH.
  destruct s as [|x s]; [reflexivity|]. destruct (str_eqb x n); [apply IH | reflexivity].
Qed.

Lemma nest_close : forall c s, nest (c ++ s) (map Close c) = Some s.
Proof. induction c as [|x c IH]; intro s; [reflexivity|]. cbn [map app nest]. rewrite str_eqb_refl. apply IH. Qed.

Lemma between_one : forall s k, HtmlTreeSpec.between s k = [] \/ exists x, HtmlTreeSpec.between s k = [x].
Proof. intros s k. unfold HtmlTreeSpec.between. destruct (top s) as [[]|]; auto; destruct k; eauto. Qed.

Lemma put_nest : forall stk n a sl ev s b, put stk n a sl = Some (ev, s) -> nest (stk ++ b) ev = Some (s ++ b).
Proof.
  intros stk n a sl ev s b H. unfold put in H. destruct (pop _ stk) as [c s1] eqn:E. apply pop_app in E. destruct E as [-> _].
  destruct (allowed _ n); [|discriminate]. rewrite <- app_assoc.
  assert (N : forall r, nest (c ++ s1 ++ b) (map Close c ++ map (fun x => Open x []) (HtmlTreeSpec.between s1 (kind_of n)) ++ r) = nest ((HtmlTreeSpec.between s1 (kind_of n) ++ s1) ++ b) r).
  { intro r. rewrite nest_app, nest_close. destruct (between_one s1 (kind_of n)) as [-> | [x ->]]; reflexivity. }
  destruct (void (kind_of n)); [|destruct sl; [discriminate|]]; injection H as <- <-; rewrite N; cbn [nest]; rewrite ?str_eqb_refl; reflexivity.
Qed.

Lemma shut_nest : forall stk n ev s b, shut stk n = Some (ev, s) -> nest (stk ++ b) ev = Some (s ++ b).
Proof.
  intros stk n ev s b H. destruct (shut_inv _ _ _ _ H) as (c & -> & _ & -> & _). rewrite <- app_assoc, nest_app, nest_close.
  cbn [app nest]. now rewrite str_eqb_refl.
Qed.

Lemma kind_frame : forall n, match kind_of n with KHtml => n = html_ | KHead => n = head_ | KBody => n = body_ | _ => True end.
Proof.
  intro n. unfold kind_of, kinds. cbn [map fst snd find_kind existsb]. rewrite !orb_false_r.
  destruct (str_eqb n (S_ "html")) eqn:E1; [now apply str_eqb_eq|].
  destruct (str_eqb n (S_ "head")) eqn:E2; [now apply str_eqb_eq|].
  destruct (str_eqb n (S_ "body")) eqn:E3; [now apply str_eqb_eq|].
  repeat match goal with |- context [if ?b then _ else _] => destruct b; [exact Logic.I|] end. exact Logic.I.
Qed.

Lemma in_mode_nest : forall m m0 pre r ev m1 s1 stk, in_mode m pre r = Some (ev, m1, s1) -> 
  nest (base m0) pre = Some (base m) -> (forall e s, r = Some (e, s) -> nest (base m) e = Some (s ++ base m)) -> stk = [] ->
  nest (stk ++ base m0) ev = Some (s1 ++ base m1).
Proof.
  intros m m0 pre [[e s]|] ev m1 s1 stk H Hp Hr ->; [|discriminate]. cbn in H. injection H as <- <- <-. cbn [app]. rewrite nest_app, Hp. now apply Hr.
Qed.

Lemma up_head_nest : forall m pre, up_to_head m = Some pre -> nest (base m) pre = Some (base InHead).
Proof. intros m pre H. destruct m; cbn in H; inv H; reflexivity. Qed.

Lemma past_nest : forall m pre, past_head m = Some pre -> nest (base m) pre = Some (base AfterHead).
Proof. intros m pre H. destruct m; cbn in H; inv H; reflexivity. Qed.

Lemma up_body_nest : forall m pre, up_to_body m = Some pre -> nest (base m) pre = Some (base InBody).
Proof. intros m pre H. destruct m; cbn in H; inv H; reflexivity. Qed.

Lemma start_nest : forall m s n a sl ev m1 s1, start_step m s n a sl = Some (ev, m1, s1) -> nest (s ++ base m) ev = Some (s1 ++ base m1).
Proof.
  intros m s n a sl ev m1 s1 H. unfold start_step in H. destruct s as [|x s].
  - pose proof (kind_frame n) as K.
    assert (P : forall m e s, put [] n a sl = Some (e, s) -> nest (base m) e = Some (s ++ base m)) by (intros m2 e s; apply (put_nest []) ).
    destruct (kind_of n);
      try (destruct (up_to_body m) as [pre|] eqn:E; [|discriminate]; refine (in_mode_nest _ _ _ _ _ _ _ [] H (up_body_nest _ _ E) (P _) eq_refl)).
    + subst n. destruct m; try discriminate; destruct sl; try discriminate; inv H; reflexivity.
    + subst n. destruct m; try discriminate; destruct sl; try discriminate; inv H; reflexivity.
    + subst n. destruct (past_head m) as [pre|] eqn:E; [|discriminate]. destruct sl; [discriminate|]. inv H. cbn [app]. rewrite nest_app, (past_nest _ _ E). reflexivity.
    + destruct m; cbn [up_to_head] in H; try discriminate; refine (in_mode_nest _ _ _ _ _ _ _ [] H _ (P _) eq_refl); reflexivity.
    + destruct m; cbn [up_to_head] in H; try discriminate; refine (in_mode_nest _ _ _ _ _ _ _ [] H _ (P _) eq_refl); reflexivity.
  - destruct m; try discriminate. unfold in_mode in H. destruct (put (x :: s) n a sl) as [[e s2]|] eqn:E; [|discriminate]. inv H. exact (put_nest _ _ _ _ _ _ _ E).
Qed.

Lemma end_nest : forall m s n ev m1 s1, end_step m s n = Some (ev, m1, s1) -> nest (s ++ base m) ev = Some (s1 ++ base m1).
Proof.
  intros m s n ev m1 s1 H. unfold end_step in H.
  destruct (kind_of n); try (destruct m; try discriminate; inv H; reflexivity);
    try (destruct m; try discriminate; unfold in_mode in H; (destruct (shut s n) as [[e s2]|] eqn:E; [|discriminate]); inv H; exact (shut_nest _ _ _ _ _ E));
    destruct m, s; cbn in H; try discriminate; inv H; reflexivity.
Qed.

Lemma step_nest : forall m s t ev m1 s1, step m s t = Some (ev, m1, s1) -> nest (s ++ base m) ev = Some (s1 ++ base m1).
Proof.
  intros m s t ev m1 s1 H. destruct t as [c|c|d|n|n a sl]; cbn [step] in H.
  - unfold char_step in H. destruct (html_blank c); [inv H; now destruct m1|]. destruct s as [|x s].
    + destruct (up_to_body m) as [pre|] eqn:E; [|discriminate]. inv H. cbn [app]. rewrite nest_app, (up_body_nest _ _ E). reflexivity.
    + destruct (text_ok (x :: s)); inv H. reflexivity.
  - inv H. now destruct m1.
  - destruct m; inv H. reflexivity.
  - exact (end_nest _ _ _ _ _ _ H).
  - exact (start_nest _ _ _ _ _ _ _ _ H).
Qed.

Lemma run_nest : forall ts m s ev, run m s ts = Some ev -> nest (s ++ base m) ev = Some [].
Proof.
  induction ts as [|t ts IH]; intros m s ev H; cbn [run] in H.
  - unfold finish in H. destruct s; [|discriminate]. destruct m; cbn in H; inv H; reflexivity.
  - destruct (step m s t) as [[[e m1] s1]|] eqn:E; [|discriminate]. destruct (run m1 s1 ts) as [f|] eqn:R; [|discriminate]. cbn in H. inv H.
    rewrite nest_app, (step_nest _ _ _ _ _ _ E). now apply IH.
Qed.

Lemma look_nest : forall l e w s, nest s (look e w l) = nest s l.
Proof.
  induction l as [|x l IH]; intros e w s; cbn [look]; [now destruct (w && negb e)|].
  destruct x; cbn [plain_event]; try destruct (html_blank c); try destruct (edge _); destruct (w && negb e); cbn [app nest plain_event]; rewrite ?IH; try reflexivity;
    (destruct s as [|y s]; [reflexivity|]; destruct (str_eqb y n); [apply IH | reflexivity]).
Qed.

Lemma tree_nest : forall s l, html_tree s = Some l -> nest [] l = Some [].
Proof.
  intros s l H. unfold html_tree in H. destruct (html_tokens s) as [ts|]; [|discriminate]. unfold tree in H. destruct (build ts) as [ev|] eqn:E; [|discriminate].
  cbn in H. inv H. rewrite look_nest. exact (run_nest ts Initial [] ev E).
Qed.
