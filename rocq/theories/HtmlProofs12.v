(** What a reader of HTML finds in the minified document. *)
From Coq Require Import String List NArith Bool Arith Lia ZifyBool ZifyN.
From Verif Require Import Base HtmlModel HtmlSpec HtmlSyntaxSpec HtmlProofs1 HtmlProofs2 HtmlProofs3 HtmlProofs4 HtmlProofs5 HtmlProofs6 HtmlProofs7 HtmlProofs8 HtmlProofs9 HtmlProofs10 HtmlProofs11.
Import ListNotations.
Open Scope N_scope.

(** ** No new white space but blanks *)

Lemma html_blanks_incl : forall s t, html_blanks s -> incl t (0x20 :: s) -> html_blanks t.
Proof. intros s t H I c K B. apply I in K. destruct K as [<- | K]; [reflexivity | exact (H c K B)]. Qed.

Lemma rewrites_incl : forall (L F : str -> str -> Prop), (forall m m', F m m' -> incl m' (0x20 :: m)) ->
  forall s t, rewrites L F s t -> incl t (0x20 :: s).
Proof.
  intros L F H s t R. induction R as [|c s t Hn R IH|m m' r t Hm Lm Fm R IH].
  - intros c [].
  - intros d [<- | I]; [right; now left|]. apply IH in I. destruct I as [I | I]; [now left | right; now right].
  - intros d I. apply in_app_iff in I. cbn. rewrite in_app_iff. destruct I as [I | I].
    + apply (H _ _ Fm) in I. cbn in I. tauto.
    + apply IH in I. cbn in I. tauto.
Qed.

Lemma comment_out_incl : forall m m', comment_out m m' -> incl m' (0x20 :: m).
Proof.
  intros m m' []; intros d I.
  - now right.
  - destruct I as [<- | []]. now left.
Qed.

Lemma untype_incl : forall wu m m', rewrites (type_attribute wu) (fun _ x => x = []) m m' -> incl m' (0x20 :: m).
Proof. intros wu m m' R. refine (rewrites_incl _ _ _ _ _ R). intros x y -> d []. Qed.

Lemma closed_incl : forall m k, closed m k -> incl k m.
Proof.
  intros m k []; intros d I; [| |exact I]; rewrite !in_app_iff in *; cbn in *; tauto.
Qed.

Lemma tag_out_incl : forall m m', tag_out m m' -> incl m' (0x20 :: m).
Proof.
  intros m m' [m0 _|m0 k k' m1 _ Hc _ _ _ Hi Hu]; intros d I.
  - now right.
  - apply (incl_chars d _ _ Hu), Hi in I. destruct I as [I | I]; [now left | right; exact (closed_incl _ _ Hc d I)].
Qed.

Lemma squeezed_incl : forall p s t, squeezed p s t -> incl t (0x20 :: s).
Proof.
  intros p s t Q. induction Q as [p|p c s t Hc Q IH|p w w' r t Hw Wb Hr Hq Q IH].
  - intros d [].
  - intros d [<- | I]; [right; now left|]. apply IH in I. destruct I as [I | I]; [now left | right; now right].
  - intros d I. apply in_app_iff in I. cbn. rewrite in_app_iff. destruct I as [I | I].
    + destruct Hq as [c -> _ _ _|_]; cbn in I |- *; tauto.
    + apply IH in I. cbn in I. tauto.
Qed.

Lemma trims_incl : forall s t, trims s t -> incl t (0x20 :: s).
Proof. intros s t (_ & a & b & _ & _ & ->) d I. right. rewrite !in_app_iff. tauto. Qed.

Lemma tidy_tag_out_out : forall m m', tidy_tag_out m m' -> tag_out m m'.
Proof.
  intros m m' [m0 H|m0 k m1 H Hc Hu]; [now apply to_same|]. apply (to_change _ k k); try assumption; try reflexivity.
  intros c I. now right.
Qed.

(** ** The parts at each stage *)

Definition good (ps : list part) : Prop :=
  Forall part_ok ps /\ Forall (fun p => ~ is_comment p) ps /\ Forall tag_safe ps /\
  html_blanks (text_of ps) /\ text_kept None ps = true.

Definition worths (ps : list part) : list token := flat_map worth (map token_of ps).

Lemma worths_app : forall a b, worths (a ++ b) = worths a ++ worths b.
Proof. intros a b. unfold worths. rewrite map_app. apply flat_map_app. Qed.

Lemma worths_eq : forall ps ps', Forall2 (fun p p' => worth (token_of p') = worth (token_of p)) ps ps' -> worths ps' = worths ps.
Proof.
  unfold worths. intros ps ps' F. induction F as [|p p' ps ps' H F IH]; [reflexivity|]. cbn [map flat_map]. now rewrite H, IH.
Qed.

(** Comments. *)
Lemma no_comment_kept : forall ps o, text_kept o ps = true -> text_kept o (map no_comment ps) = true.
Proof.
  induction ps as [|p ps IH]; intros o H; [exact H|].
  destruct p as [c|c|s|n w|n l w sl], o as [m|]; cbn [map no_comment text_kept] in *; try discriminate; try (apply IH; exact H).
  apply andb_true_iff in H. destruct H as [H1 H2]. rewrite H1. now apply IH.
Qed.

Lemma no_comment_worths : forall ps, worths (map no_comment ps) = worths ps.
Proof.
  intro ps. apply worths_eq. induction ps as [|p ps IH]; cbn; constructor; [|exact IH]. now destruct p.
Qed.

Lemma no_comment_forall : forall (P : part -> Prop) ps, P (PChar 0x20) -> Forall P ps -> Forall P (map no_comment ps).
Proof.
  intros P ps H F. induction F as [|p ps Hp F IH]; cbn; constructor; [|exact IH]. destruct p; assumption.
Qed.

Lemma no_comment_none : forall ps, Forall (fun p => ~ is_comment p) (map no_comment ps).
Proof.
  induction ps as [|p ps IH]; cbn; constructor; [|exact IH]. intros (c & K). destruct p; discriminate.
Qed.

(** What the kinds of two parts have in common. *)
Definition same_kind (p p' : part) : Prop :=
  match p, p' with
  | PChar _, PChar _ => True
  | PDoctype _, PDoctype _ => True
  | PEnd n _, PEnd n' _ => n' = n
  | PStart n _ _ _, PStart n' _ _ _ => n' = n
  | _, _ => False
  end.

Lemma same_kind_kept : forall ps ps', Forall2 same_kind ps ps' -> forall o, text_kept o ps' = text_kept o ps.
Proof.
  intros ps ps' F. induction F as [|p p' ps ps' H F IH]; intro o; [reflexivity|].
  destruct p, p'; cbn in H; try contradiction; subst; cbn [text_kept]; destruct o; try reflexivity; try apply IH.
  now rewrite IH.
Qed.

Lemma same_kind_comment : forall p p', same_kind p p' -> ~ is_comment p'.
Proof. intros p p' H (c & ->). destruct p; exact H. Qed.

Lemma same_kind_refl : forall p, ~ is_comment p -> same_kind p p.
Proof. intros [] H; cbn; auto. apply H. eexists. reflexivity. Qed.

(** Types. *)
Definition type_end (p : part) : Prop :=
  match p with
  | PStart n l w sl => sl = true -> w = [] -> forall l' a, l = l' ++ [a] -> a_name a <> S_ "type"
  | _ => True
  end.

Lemma fewer_nil : forall l, fewer l [] -> Forall (fun a => a_name a = S_ "type") l.
Proof.
  intros l F. remember [] as z eqn:Ez. induction F as [|b l l' F IH|b l l' Hb F IH]; [constructor | discriminate|].
  constructor; auto.
Qed.

Lemma fewer_last : forall l l', fewer l l' -> (forall x a, l = x ++ [a] -> a_name a <> S_ "type") ->
  forall x a, l' = x ++ [a] -> exists y, l = y ++ [a].
Proof.
  intros l l' F. induction F as [|b l l' F IH|b l l' Hb F IH]; intros H x a E.
  - destruct x; discriminate.
  - destruct x as [|c x].
    + injection E as -> ->. pose proof (fewer_nil _ F) as T.
      destruct l as [|e l]; [exists []; reflexivity|]. exfalso.
      destruct (exists_last (l := e :: l)) as (y & d & K); [discriminate|].
      apply (H (a :: y) d); [now rewrite K|]. rewrite Forall_forall in T. apply T. rewrite K. apply in_app_iff. right. now left.
    + injection E as -> ->. destruct (IH (fun x0 a0 K => H (c :: x0) a0 (f_equal (cons c) K)) x a eq_refl) as (y & ->). now exists (c :: y).
  - destruct (IH (fun x0 a0 K => H (b :: x0) a0 (f_equal (cons b) K)) x a E) as (y & ->). now exists (b :: y).
Qed.

Lemma fewer_forall : forall (P : attribute -> Prop) l l', fewer l l' -> Forall P l -> Forall P l'.
Proof. intros P l l' F. induction F; intro G; [constructor|..]; inversion G; subst; auto. Qed.

Lemma typed_not_droppable : forall n, typed_element n = true -> existsb (str_eqb n) droppable_open = false.
Proof.
  intros n H. destruct (existsb (str_eqb n) droppable_open) eqn:E; [|reflexivity].
  apply existsb_exists in E. destruct E as (x & I & K). apply str_eqb_eq in K. subst x.
  cbn in I. intuition (subst; discriminate).
Qed.

Lemma untypes_ok : forall wu p p', untypes wu p p' -> part_ok p -> tag_safe p -> type_end p -> ~ is_comment p ->
  part_ok p' /\ tag_safe p' /\ same_kind p p' /\ worth (token_of p') = worth (token_of p).
Proof.
  intros wu p p' U. destruct U as [p _|n l w sl Ht _]; intros Hp Hs He Hc; [|pose proof (filter_fewer wu l) as F; set (l' := filter _ l) in *].
  - repeat split; try assumption. now apply same_kind_refl.
  - destruct Hp as (A1 & A2 & A3 & A4). destruct Hs as (B1 & B2). cbn [type_end] in He. split; [|split; [|split]].
    + split; [exact A1|]. split; [exact (fewer_forall _ _ _ F A2)|]. split; [exact A3|].
      intros K1 K2 x a E. destruct (fewer_last l l' F (He K1 K2) x a E) as (y & Ey). exact (A4 K1 K2 y a Ey).
    + split; [exact (fewer_forall _ _ _ F B1)|].
      intros K1 K2 x a E. destruct (fewer_last l l' F (He K1 K2) x a E) as (y & Ey). exact (B2 K1 K2 y a Ey).
    + reflexivity.
    + cbn [token_of worth]. rewrite (typed_not_droppable n Ht). cbn [andb]. do 2 f_equal.
      clear - F Ht. induction F as [|a l l' F IH|a l l' Ha F IH]; [reflexivity|..]; cbn [map filter fst snd].
      * destruct (negb _); cbn [map]; now rewrite IH.
      * assert (negb (typed_element n && str_eqb (a_name a) (S_ "type")) = false) as -> by (rewrite Ht, Ha; reflexivity). exact IH.
Qed.

(** Tags to drop. *)
Lemma dropped_shape : forall p, part_ok p -> ~ is_comment p -> dropped p = true ->
  (exists n, p = PEnd n [] /\ In n droppable_close) \/ (exists n, p = PStart n [] [] false /\ In n droppable_open).
Proof.
  assert (Uniq : forall p q, part_ok p -> ~ is_comment p -> (forall c, p <> PChar c) -> part_ok q -> ~ is_comment q ->
            (forall c, q <> PChar c) -> part_text p = part_text q -> p = q).
  { intros p q P1 P2 P3 Q1 Q2 Q3 E. destruct (read_markup_complete p [] P1 P2 P3) as (s & Es & Hs).
    destruct (read_markup_complete q [] Q1 Q2 Q3) as (s' & Es' & Hs').
    rewrite E, Es' in Es. injection Es as ->. rewrite Hs in Hs'. now injection Hs'. }
  assert (Names : forall n, In n droppable_close \/ In n droppable_open -> tag_name_ok n).
  { intros n H. assert (K : (match n with c :: _ => ascii_alpha c | [] => false end && forallb name_char n) = true).
    { cbn in H. intuition (subst; reflexivity). }
    apply andb_true_iff in K. destruct K as [K1 K2]. rewrite forallb_forall in K2. split.
    - destruct n as [|c r]; [discriminate|]. eauto.
    - apply Forall_forall. exact K2. }
  intros p Hp Hc D. unfold dropped in D. apply inb_iff, spec_tags_iff in D.
  assert (Np : forall c, p <> PChar c).
  { intros c ->. destruct D as [(n & _ & E) | (n & _ & E)]; cbn in E; injection E as _ E; [|discriminate].
    symmetry in E. apply app_eq_nil in E. destruct E; discriminate. }
  destruct D as [(n & I & E) | (n & I & E)].
  - right. exists n. split; [|exact I]. apply Uniq; try assumption.
    + repeat split; try apply Names; auto; try constructor. intro K. discriminate.
    + intros (c & K). discriminate.
    + discriminate.
  - left. exists n. split; [|exact I]. apply Uniq; try assumption.
    + split; [apply Names; auto | constructor].
    + intros (c & K). discriminate.
    + discriminate.
Qed.

Lemma dropped_worth : forall p, part_ok p -> ~ is_comment p -> dropped p = true -> worth (token_of p) = [].
Proof.
  intros p H1 H2 H3. destruct (dropped_shape p H1 H2 H3) as [(n & -> & I) | (n & -> & I)]; cbn [token_of worth map].
  - assert (existsb (str_eqb n) droppable_close = true) as ->; [|reflexivity].
    apply existsb_exists. exists n. split; [exact I | now apply str_eqb_eq].
  - assert (existsb (str_eqb n) droppable_open = true) as ->; [|reflexivity].
    apply existsb_exists. exists n. split; [exact I | now apply str_eqb_eq].
Qed.

Lemma filter_worths : forall ps, Forall part_ok ps -> Forall (fun p => ~ is_comment p) ps ->
  worths (filter (fun p => negb (dropped p)) ps) = worths ps.
Proof.
  intros ps F C. induction F as [|p ps Hp F IH]; [reflexivity|]. inversion C; subst. cbn [filter].
  destruct (dropped p) eqn:E; cbn [negb].
  - rewrite IH by assumption. change (p :: ps) with ([p] ++ ps). rewrite worths_app. unfold worths at 2. cbn [map flat_map].
    now rewrite (dropped_worth p) by assumption.
  - change (p :: ps) with ([p] ++ ps). rewrite worths_app, <- IH by assumption. now rewrite <- worths_app.
Qed.

Lemma filter_kept : forall ps o, Forall part_ok ps -> Forall (fun p => ~ is_comment p) ps ->
  (forall m, o = Some m -> In m text_elements) ->
  text_kept o ps = true -> text_kept o (filter (fun p => negb (dropped p)) ps) = true.
Proof.
  induction ps as [|p ps IH]; intros o F C Ho H; [exact H|]. inversion F as [|? ? Hp Fl]; inversion C as [|? ? Cp Cl]; subst.
  assert (Hnone : forall m, None = Some m -> In m text_elements) by discriminate.
  cbn [filter]. destruct (dropped p) eqn:E; cbn [negb].
  - destruct (dropped_shape p Hp Cp E) as [(n & -> & I) | (n & -> & I)]; cbn [text_kept] in H.
    + destruct o as [m|].
      * exfalso. apply andb_true_iff in H. destruct H as [H _]. apply str_eqb_eq in H. specialize (Ho m eq_refl).
        assert (K : existsb (str_eqb (map low n)) text_elements = false) by (cbn in I; intuition (subst; reflexivity)).
        assert (K2 : existsb (str_eqb (map low n)) text_elements = true).
        { apply existsb_exists. exists m. split; [exact Ho | now apply str_eqb_eq]. }
        congruence.
      * now apply IH.
    + destruct o as [m|]; [discriminate|].
      assert (K : is_text_element n = false) by (cbn in I; intuition (subst; reflexivity)).
      rewrite K in H. now apply IH.
  - destruct p as [c|c|s|n w|n l w sl], o as [m|]; cbn [text_kept] in *; try discriminate; try (apply IH; assumption).
    + apply andb_true_iff in H. destruct H as [H1 H2]. rewrite H1. now apply IH.
    + apply IH; try assumption. intros m K. destruct (is_text_element n) eqn:Et; [|discriminate]. injection K as <-.
      unfold is_text_element in Et. apply existsb_exists in Et. destruct Et as (x & I & Ex). apply str_eqb_eq in Ex. now subst x.
Qed.

Lemma text_of_filter : forall f ps, incl (text_of (filter f ps)) (text_of ps).
Proof.
  intros f ps. induction ps as [|p ps IH]; [intros c []|]. cbn [filter]. unfold text_of in *. 
  destruct (f p); cbn [map concat]; intros c I; rewrite ?in_app_iff in *; [|right; now apply IH].
  destruct I as [I | I]; [now left | right; now apply IH].
Qed.

(** White space. *)
Lemma chars_kept : forall a o ps, text_kept o (map PChar a ++ ps) = text_kept o ps.
Proof. induction a as [|c a IH]; intros o ps; [reflexivity|]. cbn. apply IH. Qed.

Lemma layout_kept : forall ps ps', layout ps ps' -> forall o, text_kept o ps' = text_kept o ps.
Proof.
  intros ps ps' L. induction L as [a b E|a b p p' ps ps' E S L IH]; intro o.
  - rewrite <- (app_nil_r (map PChar a)), <- (app_nil_r (map PChar b)), !chars_kept. reflexivity.
  - rewrite !chars_kept. destruct S; cbn [text_kept]; destruct o; try reflexivity; try apply IH. now rewrite IH.
Qed.

Lemma layout_forall : forall (P : part -> Prop), (forall c, P (PChar c)) -> (forall p p', sim p p' -> P p -> P p') ->
  forall ps ps', layout ps ps' -> Forall P ps -> Forall P ps'.
Proof.
  intros P Hc Hs ps ps' L. assert (A : forall a, Forall P (map PChar a)).
  { intro a. apply Forall_forall. intros x I. apply in_map_iff in I. destruct I as (c & <- & _). apply Hc. }
  induction L as [a b E|a b p p' ps ps' E S L IH]; intro F; [apply A|].
  apply Forall_app in F. destruct F as [_ F]. inversion F; subst. apply Forall_app. split; [apply A|]. constructor; eauto.
Qed.

Lemma sim_safe : forall p p', sim p p' -> tag_safe p -> tag_safe p'.
Proof.
  intros p p' S H. destruct S as [s s' E|n w w'|n l l' w w' sl F Hw]; try exact I.
  destruct H as (H1 & H2). split; [exact (Forall2_Forall _ _ _ _ _ sim_size_safe F H1)|].
  intros K1 K2 x a E. destruct (Forall2_last _ _ _ _ _ _ _ F E) as (y & b & Ey & Sb). destruct Sb as [Sb _].
  rewrite Sb. exact (H2 K1 (Hw K2) y b Ey).
Qed.

Lemma alike_worth : forall n l l' w w' sl, Forall2 alike l l' ->
  worth (token_of (PStart n l' w' sl)) = worth (token_of (PStart n l w sl)).
Proof.
  intros n l l' w w' sl F. cbn [token_of worth].
  assert (E1 : (match map (fun a => (a_name a, value_of a)) l' with [] => true | _ => false end) =
               (match map (fun a => (a_name a, value_of a)) l with [] => true | _ => false end)) by (now destruct F).
  rewrite E1. destruct (existsb _ _ && _ && _); [reflexivity|]. do 2 f_equal. clear E1.
  induction F as [|a a' l l' [H1 H2] F IH]; [reflexivity|]. cbn [map filter fst snd]. rewrite H1.
  destruct (negb _); [|exact IH]. cbn [map fst snd]. now rewrite H2, IH.
Qed.

Lemma sim_worth : forall p p', sim p p' -> worth (token_of p') = worth (token_of p).
Proof.
  intros p p' [s s' E|n w w' _|n l l' w w' sl F Hw].
  - cbn. now rewrite E.
  - reflexivity.
  - apply alike_worth. clear - F. induction F; constructor; [now apply sim_alike | assumption].
Qed.

(** ** Squeezing tokens *)

Lemma squeeze_solid_app : forall a t b, is_blank t = false -> squeeze_tokens (a ++ t :: b) = squeeze_tokens a ++ t :: squeeze_tokens b.
Proof.
  intros a t b Ht. induction a as [|x a IH]; cbn [app squeeze_tokens].
  - now rewrite Ht.
  - rewrite IH. destruct (is_blank x) eqn:Ex; [|reflexivity].
    destruct (squeeze_tokens a) as [|y z] eqn:Ea; cbn [app].
    + now rewrite Ht.
    + destruct (is_blank y); reflexivity.
Qed.

Lemma squeeze_app : forall a a' b, squeeze_tokens a = squeeze_tokens a' -> squeeze_tokens (a ++ b) = squeeze_tokens (a' ++ b).
Proof.
  assert (H : forall a b, squeeze_tokens (a ++ b) = squeeze_tokens (squeeze_tokens a ++ b)).
  { induction a as [|x a IH]; intro b; [reflexivity|]. cbn [app squeeze_tokens]. destruct (is_blank x) eqn:Ex.
    - rewrite IH. destruct (squeeze_tokens a) as [|y z] eqn:Ea; cbn [app squeeze_tokens].
      + change (is_blank (HChar 0x20)) with true. reflexivity.
      + destruct (is_blank y) eqn:Ey; cbn [app squeeze_tokens].
        * rewrite Ey. destruct (squeeze_tokens (z ++ b)) as [|u v]; [reflexivity|]. destruct (is_blank u) eqn:Eu; [|reflexivity].
          now rewrite Eu.
        * change (is_blank (HChar 0x20)) with true. rewrite Ey. cbn beta iota. rewrite ?Ey. reflexivity.
    - cbn [app squeeze_tokens]. rewrite Ex. now rewrite IH. }
  intros a a' b E. rewrite H, E, <- H. reflexivity.
Qed.

Lemma worths_chars : forall a, worths (map PChar a) = map HChar a.
Proof. induction a as [|c a IH]; [reflexivity|]. unfold worths in *. cbn. now rewrite IH. Qed.

Lemma skeleton_html : forall a, html_blanks a -> html_blanks (skeleton a).
Proof.
  induction a as [|c a IH]; intro H; [exact H|]. cbn [skeleton].
  assert (Ha : html_blanks a) by (intros x I; apply H; now right).
  assert (G : forall d, d = 0x20 \/ d = c -> html_blanks (d :: skeleton a)).
  { intros d Hd x [<- | I] B; [destruct Hd as [-> | ->]; [reflexivity | apply H; [now left | exact B]] | exact (IH Ha x I B)]. }
  destruct (is_whitespace c); [|apply G; now right].
  destruct (skeleton a) as [|y z] eqn:Ea; [apply G; now left|].
  destruct y as [|p]; [apply G; now left|].
  do 6 (destruct p as [p|p|]; try (apply G; now left)). exact (IH Ha).
Qed.

Lemma squeeze_skeleton : forall a, html_blanks a -> squeeze_tokens (map HChar a) = map HChar (skeleton a).
Proof.
  assert (H : forall a c r, skeleton a = c :: r -> is_whitespace c = true -> c = 0x20).
  { intros [|x a] c r E K; [discriminate|]. cbn in E. destruct (is_whitespace x) eqn:Ex.
    - destruct (skeleton a) as [|y z] eqn:Ea; [now injection E as <-|].
      destruct y as [|p]; [now injection E as <-|].
      do 6 (destruct p as [p|p|]; try (now injection E as <-)).
    - injection E as <- _. congruence. }
  assert (Same : forall c s, html_blanks s -> In c s -> html_blank c = is_whitespace c).
  { intros c s Hs I. destruct (is_whitespace c) eqn:E; [exact (Hs c I E)|].
    destruct (html_blank c) eqn:E2; [|reflexivity]. apply html_blank_blank in E2. unfold blank in E2. congruence. }
  induction a as [|c a IH]; intro HB; [reflexivity|]. assert (Ha : html_blanks a) by (intros x I; apply HB; now right).
  cbn [map squeeze_tokens skeleton is_blank]. rewrite IH by exact Ha. rewrite (Same c (c :: a) HB) by now left.
  destruct (is_whitespace c) eqn:Ec; [|reflexivity]. pose proof (skeleton_html a Ha) as Hk.
  destruct (skeleton a) as [|x r] eqn:Ea; cbn [map]; [reflexivity|].
  cbn [is_blank]. rewrite (Same x (x :: r) Hk) by now left. destruct (is_whitespace x) eqn:Ex.
  - now rewrite (H a x r Ea Ex).
  - destruct x as [|p]; [reflexivity|]. do 6 (destruct p as [p|p|]; try reflexivity). discriminate Ex.
Qed.

Lemma squeeze_cons : forall t x y, squeeze_tokens x = squeeze_tokens y -> squeeze_tokens (t :: x) = squeeze_tokens (t :: y).
Proof. intros t x y E. cbn [squeeze_tokens]. now rewrite E. Qed.

Lemma squeeze_app_r : forall a x y, squeeze_tokens x = squeeze_tokens y -> squeeze_tokens (a ++ x) = squeeze_tokens (a ++ y).
Proof. induction a as [|t a IH]; intros x y E; [exact E|]. cbn [app]. apply squeeze_cons. now apply IH. Qed.

Lemma layout_worths : forall ps ps', layout ps ps' -> html_blanks (text_of ps) -> html_blanks (text_of ps') ->
  squeeze_tokens (worths ps') = squeeze_tokens (worths ps).
Proof.
  intros ps ps' L. induction L as [a b E|a b p p' ps ps' E S L IH]; intros A B.
  - rewrite text_of_chars in A, B. now rewrite !worths_chars, !squeeze_skeleton, E.
  - rewrite text_of_app, text_of_chars in A, B. apply html_blanks_app in A, B. destruct A as [A1 A2]. destruct B as [B1 B2].
    unfold text_of in A2, B2. cbn [map concat] in A2, B2. apply html_blanks_app in A2, B2. destruct A2 as [_ A2]. destruct B2 as [_ B2].
    rewrite !worths_app, !worths_chars.
    transitivity (squeeze_tokens (map HChar a ++ worths (p' :: ps'))).
    + apply squeeze_app. now rewrite !squeeze_skeleton, E.
    + apply squeeze_app_r. change (p :: ps) with ([p] ++ ps). change (p' :: ps') with ([p'] ++ ps'). rewrite !worths_app.
      assert (worths [p'] = worths [p]) as ->. { unfold worths. cbn [map flat_map]. now rewrite (sim_worth p p' S). }
      apply squeeze_app_r. apply IH; assumption.
Qed.

(** ** Ends *)

Definition blank_tokens (l : list token) : Prop := Forall (fun t => is_blank t = true) l.

Lemma skip_blanks_app : forall a x, blank_tokens a -> skip_blanks (a ++ x) = skip_blanks x.
Proof. intros a x H. induction H as [|t a Ht H IH]; [reflexivity|]. cbn. now rewrite Ht. Qed.

Lemma skip_blanks_all : forall a, blank_tokens a -> skip_blanks a = [].
Proof. intros a H. rewrite <- (app_nil_r a). now rewrite skip_blanks_app. Qed.

Lemma skip_split : forall l, exists a, l = a ++ skip_blanks l /\ blank_tokens a /\ (skip_blanks l = [] \/ exists t r, skip_blanks l = t :: r /\ is_blank t = false).
Proof.
  induction l as [|t l (a & E & B & H)]; [exists []; repeat split; [constructor | now left]|]. cbn [skip_blanks].
  destruct (is_blank t) eqn:Et.
  - exists (t :: a). cbn [app]. rewrite <- E. repeat split; [now constructor | exact H].
  - exists []. repeat split; [constructor|]. right. eauto.
Qed.

Lemma blank_rev : forall a, blank_tokens a -> blank_tokens (rev a).
Proof. intros a H. apply Forall_rev. exact H. Qed.

Lemma trim_ends : forall a x b, blank_tokens a -> blank_tokens b -> trim_tokens (a ++ x ++ b) = trim_tokens x.
Proof.
  intros a x b A B. unfold trim_tokens. rewrite skip_blanks_app by exact A.
  destruct (skip_split x) as (c & E & C & H). rewrite E at 1. rewrite <- app_assoc, skip_blanks_app by exact C.
  destruct H as [-> | (t & r & -> & Ht)].
  - cbn [app]. now rewrite (skip_blanks_all b B).
  - cbn [app skip_blanks]. rewrite Ht. f_equal. change (t :: r ++ b) with ((t :: r) ++ b).
    rewrite rev_app_distr, skip_blanks_app by now apply blank_rev. reflexivity.
Qed.

Lemma trim_split : forall l, exists a b, l = a ++ trim_tokens l ++ b /\ blank_tokens a /\ blank_tokens b /\
  (trim_tokens l = [] \/ (exists t, trim_tokens l = [t] /\ is_blank t = false) \/
   exists t z t', trim_tokens l = t :: z ++ [t'] /\ is_blank t = false /\ is_blank t' = false).
Proof.
  intro l. unfold trim_tokens. destruct (skip_split l) as (a & E & A & H).
  destruct (skip_split (rev (skip_blanks l))) as (b & E2 & B & H2).
  exists a, (rev b). split; [|split; [exact A|split; [now apply blank_rev|]]].
  - apply (f_equal (@rev token)) in E2. rewrite rev_app_distr, rev_involutive in E2. rewrite <- E2. exact E.
  - destruct H2 as [-> | (t & r & E3 & Ht)]; [now left|]. right. rewrite E3. cbn [rev].
    destruct (rev r) as [|u v] eqn:Er; [left; exists t; auto|]. right.
    exists u, v, t. repeat split; [|exact Ht]. 
    apply (f_equal (@rev token)) in E2. rewrite rev_app_distr, rev_involutive, E3 in E2. cbn [rev] in E2. rewrite Er in E2.
    destruct H as [H | (t0 & r0 & H & Ht0)]; rewrite H in E2; [discriminate|]. injection E2 as -> _. exact Ht0.
Qed.

Lemma squeeze_blank : forall a, blank_tokens a -> blank_tokens (squeeze_tokens a).
Proof.
  intros a H. induction H as [|t a Ht H IH]; [constructor|]. cbn [squeeze_tokens]. rewrite Ht.
  destruct (squeeze_tokens a) as [|u v] eqn:E; [repeat constructor|]. destruct (is_blank u); [exact IH|]. constructor; [reflexivity | exact IH].
Qed.

Lemma trim_solid : forall t, is_blank t = false -> trim_tokens [t] = [t].
Proof. intros t H. unfold trim_tokens. cbn. rewrite H. cbn. now rewrite H. Qed.

Lemma trim_solid2 : forall t z t', is_blank t = false -> is_blank t' = false -> trim_tokens (t :: z ++ [t']) = t :: z ++ [t'].
Proof.
  intros t z t' H H'. unfold trim_tokens. cbn [skip_blanks]. rewrite H. cbn [rev]. rewrite rev_app_distr. cbn [rev app skip_blanks].
  rewrite H'. cbn [rev]. rewrite rev_app_distr, rev_involutive. reflexivity.
Qed.

Lemma trim_squeeze : forall l, trim_tokens (squeeze_tokens l) = squeeze_tokens (trim_tokens l).
Proof.
  intro l. destruct (trim_split l) as (a & b & E & A & B & H).
  pose proof (squeeze_blank a A) as SA. pose proof (squeeze_blank b B) as SB.
  destruct H as [K | [(t & K & Ht) | (t & z & t' & K & Ht & Ht')]]; rewrite K in *.
  - cbn [app] in E. rewrite E. pose proof (squeeze_blank (a ++ b) (proj2 (Forall_app _ _ _) (conj A B))) as S.
    transitivity (trim_tokens (squeeze_tokens (a ++ b) ++ [] ++ [])); [now rewrite !app_nil_r|].
    now rewrite (trim_ends _ [] [] S (Forall_nil _)).
  - rewrite E at 1. cbn [app]. rewrite squeeze_solid_app by exact Ht. cbn [squeeze_tokens]. rewrite Ht.
    change (t :: squeeze_tokens b) with ([t] ++ squeeze_tokens b). rewrite trim_ends by assumption. now apply trim_solid.
  - rewrite E at 1. cbn [app]. rewrite squeeze_solid_app by exact Ht. rewrite <- app_assoc. cbn [app].
    rewrite squeeze_solid_app by exact Ht'.
    assert (squeeze_tokens (t :: z ++ [t']) = t :: squeeze_tokens z ++ [t']) as ->.
    { change (t :: z ++ [t']) with ([] ++ t :: z ++ [t']). rewrite squeeze_solid_app by exact Ht. rewrite squeeze_solid_app by exact Ht'. reflexivity. }
    change (t :: squeeze_tokens z ++ t' :: squeeze_tokens b) with (t :: squeeze_tokens z ++ [t'] ++ squeeze_tokens b).
    rewrite (app_assoc (squeeze_tokens z)). change (t :: (squeeze_tokens z ++ [t']) ++ squeeze_tokens b) with ((t :: squeeze_tokens z ++ [t']) ++ squeeze_tokens b).
    rewrite trim_ends by assumption. now apply trim_solid2.
Qed.

(** White space at the ends of a document is text. *)
Lemma first_text : forall A ps r, blanks A -> Forall part_ok ps -> text_of ps = A ++ r ->
  exists ps', ps = map PChar A ++ ps' /\ r = text_of ps'.
Proof.
  induction A as [|c A IH]; intros ps r B F E; [exists ps; auto|]. inversion B as [|? ? Bc BA]; subst.
  destruct ps as [|p ps]; [discriminate|]. inversion F as [|? ? Hp Fl]; subst.
  assert (exists d, p = PChar d) as [d ->].
  { destruct p as [d| | | |]; [eauto|..]; exfalso; cbn in E; injection E as <- _; discriminate Bc. }
  unfold text_of in E. cbn [map concat part_text app] in E. injection E as -> E.
  destruct (IH ps r BA Fl E) as (ps' & -> & ->). exists ps'. auto.
Qed.

Lemma part_last : forall p, ~ is_comment p -> part_ok p -> (exists c, p = PChar c) \/ exists t, part_text p = t ++ [gt].
Proof.
  intros [c|c|s|n w|n l w sl] Hc Hp; [left; eauto|..]; right.
  - exfalso. apply Hc. eexists. reflexivity.
  - exists (S_ "<!" ++ s). cbn [part_text]. now rewrite <- app_assoc.
  - exists (S_ "</" ++ n ++ w). cbn [part_text]. now rewrite <- !app_assoc.
  - destruct sl.
    + exists (S_ "<" ++ n ++ attributes_text l ++ w ++ S_ "/"). cbn [part_text slash_text]. now rewrite <- !app_assoc.
    + exists (S_ "<" ++ n ++ attributes_text l ++ w). cbn [part_text slash_text]. now rewrite <- !app_assoc.
Qed.

Lemma last_text : forall B ps r, blanks B -> Forall part_ok ps -> Forall (fun p => ~ is_comment p) ps -> text_of ps = r ++ B ->
  exists ps', ps = ps' ++ map PChar B /\ r = text_of ps'.
Proof.
  induction B as [|c B IH] using rev_ind; intros ps r W F C E.
  - exists ps. rewrite !app_nil_r in *. auto.
  - apply Forall_app in W. destruct W as [W Wc]. inversion Wc as [|? ? Bc _]; subst.
    destruct ps as [|p0 ps0] using rev_ind.
    { exfalso. cbn in E. symmetry in E. apply app_eq_nil in E. destruct E as [_ E]. apply app_eq_nil in E. destruct E; discriminate. }
    clear IHps0. rename ps0 into ps. rename p0 into p. apply Forall_app in F, C. destruct F as [F Fp]. destruct C as [C Cp].
    inversion Fp as [|? ? Hp _]; inversion Cp as [|? ? Hc _]; subst. rewrite text_of_app, app_assoc in E.
    destruct (part_last p Hc Hp) as [[d ->] | (t & Ep)].
    + change (text_of [PChar d]) with [d] in E.
      apply app_inj_tail in E. destruct E as [E ->]. destruct (IH ps r W F C E) as (ps' & -> & ->). exists ps'. split; [|reflexivity].
      now rewrite map_app, app_assoc.
    + exfalso. assert (text_of [p] = t ++ [gt]) as Et by (unfold text_of; cbn [map concat]; now rewrite app_nil_r). rewrite Et, app_assoc in E.
      apply app_inj_tail in E. destruct E as [_ <-]. discriminate Bc.
Qed.

Lemma trims_parts : forall ps t, Forall part_ok ps -> Forall (fun p => ~ is_comment p) ps -> html_blanks (text_of ps) ->
  trims (text_of ps) t ->
  exists a b ps', ps = map PChar a ++ ps' ++ map PChar b /\ html_run a /\ html_run b /\ t = text_of ps'.
Proof.
  intros ps t F C HB (_ & a & b & A & B & E).
  assert (A' : html_run a). { apply (blanks_html a (text_of ps) A HB). intros c I. rewrite E, in_app_iff. now left. }
  assert (B' : html_run b). { apply (blanks_html b (text_of ps) B HB). intros c I. rewrite E, !in_app_iff. tauto. }
  destruct (first_text a ps (t ++ b) A F E) as (ps1 & -> & E1). apply Forall_app in F, C. symmetry in E1.
  destruct (last_text b ps1 t B) as (ps' & -> & ->); try tauto. exists a, b, ps'. auto.
Qed.

Lemma trims_worths : forall a b ps, html_run a -> html_run b ->
  trim_tokens (worths (map PChar a ++ ps ++ map PChar b)) = trim_tokens (worths ps).
Proof.
  assert (H : forall a, html_run a -> blank_tokens (map HChar a)).
  { intros a A. apply Forall_forall. intros t I. apply in_map_iff in I. destruct I as (c & <- & I).
    unfold html_run in A. rewrite Forall_forall in A. exact (A c I). }
  intros a b ps A B. rewrite !worths_app, !worths_chars. apply trim_ends; auto.
Qed.

Lemma trims_kept : forall a b ps o, text_kept o (map PChar a ++ ps ++ map PChar b) = text_kept o ps.
Proof.
  intros a b ps o. rewrite chars_kept. revert o. induction ps as [|p ps IH]; intro o; cbn [app].
  - rewrite <- (app_nil_r (map PChar b)). apply chars_kept.
  - destruct p, o; cbn [text_kept]; try reflexivity; try apply IH. now rewrite IH.
Qed.

Lemma trims_good : forall ps t, good ps -> trims (text_of ps) t ->
  exists ps', t = text_of ps' /\ good ps' /\ trim_tokens (worths ps') = trim_tokens (worths ps) /\
    squeeze_tokens (trim_tokens (worths ps')) = squeeze_tokens (trim_tokens (worths ps)).
Proof.
  intros ps t (G1 & G2 & G3 & G4 & G5) T. pose proof (trims_incl _ _ T) as I.
  destruct (trims_parts ps t G1 G2 G4 T) as (a & b & ps' & -> & A & B & ->). exists ps'. split; [reflexivity|].
  rewrite trims_kept in G5. rewrite trims_worths by assumption.
  repeat (rewrite Forall_app in G1; rewrite Forall_app in G2; rewrite Forall_app in G3).
  split; [|auto]. split; [tauto|]. split; [tauto|]. split; [tauto|]. split; [|exact G5].
  exact (html_blanks_incl _ _ G4 I).
Qed.

(** ** The whole way *)

Definition start_good (ps : list part) : Prop := Forall part_ok ps /\ Forall part_safe ps /\ html_blanks (text_of ps) /\ text_kept None ps = true.

Lemma safe_parts : forall p, part_safe p -> tag_safe p /\ safe_type p /\ type_end p.
Proof.
  intros [c|c|s|n w|n l w sl] H; try (repeat split; exact I). destruct H as [H1 H2]. cbn [tag_safe safe_type type_end]. split; [|split].
  - split.
    + apply Forall_impl with (2 := H1). intros a (_ & K). exact K.
    + intros K1 K2 x a E. destruct (H2 K1 K2 x a E) as (_ & K). exact K.
  - intro K. apply Forall_impl with (2 := H1). intros a (Q & _). exact (Q K).
  - intros K1 K2 x a E E2. destruct (H2 K1 K2 x a E) as (K & _). apply K. rewrite E2. exists []. reflexivity.
Qed.

Lemma good_no_comment : forall ps, start_good ps -> forall a, uncommented (text_of ps) a ->
  exists ps', a = text_of ps' /\ good ps' /\ Forall safe_type ps' /\ Forall type_end ps' /\ worths ps' = worths ps /\ ps' = map no_comment ps.
Proof.
  intros ps (G1 & G2 & G3 & G4) a U. pose proof (rewrites_incl _ _ comment_out_incl _ _ U) as I.
  assert (Ok : Forall part_ok (map no_comment ps)) by (apply no_comment_forall; [discriminate | exact G1]).
  pose proof (uncommented_parts ps a G1 G2 U) as ->. exists (map no_comment ps). split; [reflexivity|].
  split; [split; [exact Ok|]|].
  - split; [apply no_comment_none|]. split; [|split; [exact (html_blanks_incl _ _ G3 I) | now apply no_comment_kept]].
    apply no_comment_forall; [exact Logic.I|]. apply Forall_impl with (2 := G2). intros p H. now apply safe_parts.
  - split; [|split; [|split; [apply no_comment_worths | reflexivity]]].
    + apply no_comment_forall; [exact Logic.I|]. apply Forall_impl with (2 := G2). intros p H. now apply safe_parts.
    + apply no_comment_forall; [exact Logic.I|]. apply Forall_impl with (2 := G2). intros p H. now apply safe_parts.
Qed.

Lemma Forall2_and : forall (A : Type) (P : A -> Prop) (R Q : A -> A -> Prop) l l',
  (forall a b, P a -> R a b -> Q a b) -> Forall P l -> Forall2 R l l' -> Forall2 Q l l'.
Proof.
  intros A P R Q l l' H F G. induction G as [|a b l l' Hab G IH]; [constructor|]. inversion F; subst. constructor; auto.
Qed.

Lemma Forall2_weak : forall (A : Type) (R Q : A -> A -> Prop), (forall a b, R a b -> Q a b) ->
  forall l l', Forall2 R l l' -> Forall2 Q l l'.
Proof. intros A R Q H l l' F. induction F; constructor; auto. Qed.

Lemma Forall2_right : forall (A : Type) (R : A -> A -> Prop) (P : A -> Prop) l l',
  (forall a b, R a b -> P b) -> Forall2 R l l' -> Forall P l'.
Proof. intros A R P l l' H F. induction F; constructor; eauto. Qed.

Lemma good_untyped : forall wu ps e, good ps -> Forall safe_type ps -> Forall type_end ps -> untyped wu (text_of ps) e ->
  exists ps', e = text_of ps' /\ good ps' /\ worths ps' = worths ps /\ Forall2 same_kind ps ps'.
Proof.
  intros wu ps e (G1 & G2 & G3 & G4 & G5) S T U. pose proof (rewrites_incl _ _ (untype_incl wu) _ _ U) as I.
  destruct (untyped_parts wu ps e G1 G2 S G4 U) as (ps' & F & ->).
  assert (All : Forall (fun p => part_ok p /\ tag_safe p /\ type_end p /\ ~ is_comment p) ps).
  { rewrite Forall_forall in *. intros p K. repeat split; auto. }
  assert (F2 : Forall2 (fun p p' => part_ok p' /\ tag_safe p' /\ same_kind p p' /\ worth (token_of p') = worth (token_of p)) ps ps').
  { refine (Forall2_and _ _ _ _ _ _ _ All F). intros a b (K1 & K2 & K3 & K4) K. now apply (untypes_ok wu). }
  assert (Fk : Forall2 same_kind ps ps') by (refine (Forall2_weak _ _ _ _ _ _ F2); intros a b K; tauto).
  exists ps'. split; [reflexivity|]. split; [|split; [|exact Fk]].
  - split; [refine (Forall2_right _ _ _ _ _ _ F2); tauto|].
    split; [refine (Forall2_right _ _ _ _ _ _ Fk); exact same_kind_comment|].
    split; [refine (Forall2_right _ _ _ _ _ _ F2); tauto|].
    split; [exact (html_blanks_incl _ _ G4 I)|]. now rewrite (same_kind_kept _ _ Fk).
  - apply worths_eq. refine (Forall2_weak _ _ _ _ _ _ F2). tauto.
Qed.

Lemma good_cleaned : forall ps, good ps -> let ps' := filter (fun p => negb (dropped p)) ps in
  clean_unneeded_tags (text_of ps) = text_of ps' /\ good ps' /\ worths ps' = worths ps.
Proof.
  intros ps (G1 & G2 & G3 & G4 & G5) ps'. unfold ps'. split; [now apply cleaned_parts|]. split.
  - assert (Sub : forall P, Forall P ps -> Forall P (filter (fun p => negb (dropped p)) ps)).
    { intros P F. rewrite Forall_forall in *. intros p K. apply filter_In in K. apply F. tauto. }
    repeat split; auto.
    + intros c I B. exact (G4 c (text_of_filter _ _ c I) B).
    + apply filter_kept; try assumption. discriminate.
  - now apply filter_worths.
Qed.

Lemma good_squeezed : forall ps d, good ps -> squeezed None (text_of ps) d ->
  exists ps', d = text_of ps' /\ good ps' /\ squeeze_tokens (worths ps') = squeeze_tokens (worths ps).
Proof.
  intros ps d (G1 & G2 & G3 & G4 & G5) Q. pose proof (squeezed_incl _ _ _ Q) as I.
  pose proof (html_blanks_incl _ _ G4 I) as HB.
  destruct (respaced_parts (length ps) ps d (le_n _) G1 G2 G4 HB (proj1 (squeezed_skeleton _ _ _ Q))) as (ps' & -> & F & C & L).
  exists ps'. split; [reflexivity|]. split; [|now apply layout_worths].
  split; [exact F|]. split; [exact C|]. split; [|split; [exact HB | now rewrite (layout_kept _ _ L)]].
  refine (layout_forall tag_safe _ sim_safe _ _ L G3). intro c. exact Logic.I.
Qed.

Lemma good_tags : forall wu ps e, good ps -> rewrites (start_tag wu) tag_out (text_of ps) e ->
  exists ps', e = text_of ps' /\ Forall part_ok ps' /\ Forall (fun p => ~ is_comment p) ps' /\ html_blanks e /\ text_kept None ps' = true /\ worths ps' = worths ps.
Proof.
  intros wu ps e (G1 & G2 & G3 & G4 & G5) R.
  pose proof (html_blanks_incl _ _ G4 (rewrites_incl _ _ tag_out_incl _ _ R)) as HB.
  destruct (tagged_parts wu ps e G1 G2 G3 G4 R) as (ps' & -> & F & S).
  assert (Fk : Forall2 same_kind ps ps').
  { refine (Forall2_and _ _ _ _ _ _ _ G2 S). intros a b Ha Sab. inversion Sab; subst; [now apply same_kind_refl | reflexivity]. }
  exists ps'. split; [reflexivity|]. split; [exact F|]. split; [refine (Forall2_right _ _ _ _ _ _ Fk); exact same_kind_comment|].
  split; [exact HB|]. split; [now rewrite (same_kind_kept _ _ Fk)|]. apply worths_eq. refine (Forall2_weak _ _ _ _ _ _ S).
  intros a b [p|n l l' w w' sl K]; [reflexivity | now apply alike_worth].
Qed.

Lemma trims_end : forall ps t, Forall part_ok ps -> Forall (fun p => ~ is_comment p) ps -> html_blanks (text_of ps) ->
  text_kept None ps = true -> trims (text_of ps) t ->
  exists ps', html_parts t = Some ps' /\ trim_tokens (worths ps') = trim_tokens (worths ps).
Proof.
  intros ps t F C HB K T. destruct (trims_parts ps t F C HB T) as (a & b & ps' & -> & A & B & ->).
  exists ps'. rewrite trims_kept in K. rewrite trims_worths by assumption. split; [|reflexivity].
  rewrite !Forall_app in F, C. apply html_parts_complete; tauto.
Qed.

Lemma kept_mentions : forall ps p, In p ps -> keeps_blanks p -> preformatted (text_of ps).
Proof.
  intros ps p I K. destruct p as [c|c|s|n w|n l w sl]; try contradiction. apply in_split in I. destruct I as (x & y & ->).
  rewrite text_of_app.
  assert (E : text_of (PStart n l w sl :: y) = (lt :: n) ++ attributes_text l ++ w ++ slash_text sl ++ text_of y).
  { unfold text_of. cbn [map concat part_text]. now rewrite <- !app_assoc. }
  rewrite E. destruct K as [K | [K | []]]; [right | left];
    exists (text_of x), (lt :: n), (attributes_text l ++ w ++ slash_text sl ++ text_of y); (split; [reflexivity|]); cbn [map]; rewrite <- K; reflexivity.
Qed.

Lemma kept_kind : forall p p', same_kind p p' -> keeps_blanks p -> keeps_blanks p'.
Proof. intros [] [] H K; cbn in *; try contradiction. now subst. Qed.

Lemma Forall2_in : forall (A : Type) (R : A -> A -> Prop) l l' a, Forall2 R l l' -> In a l -> exists b, In b l' /\ R a b.
Proof.
  intros A R l l' a F. induction F as [|x y l l' H F IH]; intro I; [destruct I|]. destruct I as [<- | I].
  - exists y. split; [now left | exact H].
  - destruct (IH I) as (b & K1 & K2). exists b. split; [now right | exact K2].
Qed.

Lemma minify_reads : forall wu du lu s ps, lower_ok lu -> html_parts s = Some ps -> Forall part_safe ps -> html_blanks s ->
  exists t ps', minify wu du lu s = Ok t /\ html_parts t = Some ps' /\
    trim_tokens (squeeze_tokens (worths ps')) = trim_tokens (squeeze_tokens (worths ps)) /\
    (Exists keeps_blanks ps -> trim_tokens (worths ps') = trim_tokens (worths ps)).
Proof.
  intros wu du lu s ps HL Hp Hs HB. destruct (html_parts_sound s ps Hp) as (-> & F & K).
  destruct (minify_spec wu du lu (text_of ps) HL) as (a & b & d & e & t & Et & H1 & H2 & H3 & H4).
  destruct (good_no_comment ps (conj F (conj Hs (conj HB K))) a H1) as (p1 & -> & G1 & S1 & T1 & W1 & Ep1).
  destruct (good_untyped wu p1 b G1 S1 T1 H2) as (p2 & -> & G2 & W2 & F2).
  destruct (good_cleaned p2 G2) as (E3 & G3 & W3). set (p3 := filter (fun p => negb (dropped p)) p2) in *. rewrite E3 in H3.
  exists t. rewrite Et.
  destruct H3 as [(P & T & R) | (NP & Q & R)].
  - destruct (trims_good p3 d G3 T) as (p4 & -> & G4 & W4 & _).
    destruct (good_tags wu p4 e G4 R) as (p5 & -> & F5 & C5 & B5 & K5 & W5).
    destruct (trims_end p5 t F5 C5 B5 K5 H4) as (p6 & E6 & W6).
    assert (W : trim_tokens (worths p6) = trim_tokens (worths ps)) by congruence.
    exists p6. split; [reflexivity|]. split; [exact E6|]. split; [|auto]. now rewrite !trim_squeeze, W.
  - destruct (good_squeezed p3 d G3 Q) as (p4 & -> & G4 & W4).
    destruct (good_tags wu p4 e G4) as (p5 & -> & F5 & C5 & B5 & K5 & W5).
    { refine (rewrites_impl _ _ _ _ _ _ R). intros x m m' y _. apply tidy_tag_out_out. }
    destruct (trims_end p5 t F5 C5 B5 K5 H4) as (p6 & E6 & W6).
    exists p6. split; [reflexivity|]. split; [exact E6|]. split.
    + rewrite !trim_squeeze, W6, <- !trim_squeeze. now rewrite W5, W4, W3, W2, W1.
    + intro Ex. exfalso. apply NP. apply Exists_exists in Ex. destruct Ex as (p & I & Kp).
      assert (I1 : In p p1). { rewrite Ep1. apply in_map_iff. exists p. split; [now destruct p | exact I]. }
      destruct (Forall2_in _ _ _ _ _ F2 I1) as (q & I2 & Sq). pose proof (kept_kind _ _ Sq Kp) as Kq.
      apply (kept_mentions p3 q); [|exact Kq]. unfold p3. apply filter_In. split; [exact I2|].
      destruct (dropped q) eqn:Dq; [|reflexivity]. exfalso. destruct G2 as (O2 & C2 & _). rewrite Forall_forall in O2, C2.
      destruct (dropped_shape q (O2 q I2) (C2 q I2) Dq) as [(n & -> & _) | (n & -> & In')]; [exact Kq|].
      cbn [keeps_blanks] in Kq. cbn in In', Kq. intuition (subst; discriminate).
Qed.
