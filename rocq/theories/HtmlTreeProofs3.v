(** Proofs about HtmlTreeSpec, third part: leaving out tags does not change the tree. *)
From Coq Require Import String List NArith Bool Arith Lia.
From Verif Require Import Base HtmlSpec HtmlSyntaxSpec HtmlTreeSpec HtmlTreeProofs1 HtmlTreeProofs2.
Import ListNotations.
Open Scope N_scope.

(** Some of the tags that may be left out are. *)
Inductive thin : list token -> list token -> Prop :=
| th_end : thin [] []
| th_keep : forall t ts us, thin ts us -> thin (t :: ts) (t :: us)
| th_drop : forall t ts us, gone t = true -> thin ts us -> thin (t :: ts) us.

(** What follows closes the elements [p]. *)
Definition closing (p : list str) (q : option token) : Prop :=
  match kind_at q, end_kind_at q with
  | Some k, _ => Forall (fun x => closes k (kind_of x) = true) p
  | None, Some k => void k = false
  | None, None => False
  end.

(** The state after the source and after the output, between the tags [p] and [q]; [l]: what the
    output has yet to tell. *)
Inductive rel (p q : option token) : mode -> list str -> mode -> list str -> list event -> Prop :=
| rel_same : forall m s, rel p q m s m s []
| rel_mode : forall m m' l, lag m' m = Some l -> (m = InBody -> m' <> InBody -> body_next q = true) -> rel p q m [] m' [] l
| rel_pend : forall c x s k, p = Some (HEnd k) -> kind_of (map low k) = kind_of x ->
    Forall (fun y => loose (kind_of y) = true) (c ++ [x]) -> wf ((c ++ [x]) ++ s) -> closing (c ++ [x]) q ->
    rel p q InBody s InBody ((c ++ [x]) ++ s) (map Close (c ++ [x]))
| rel_group : forall c t s, kind_of t = KTable -> (c = [] \/ exists x, c = [x] /\ kind_of x = KCols) -> kind_at q = Some KRow ->
    rel p q InBody (tbody_ :: t :: s) InBody (c ++ t :: s) (map Close c ++ [Open tbody_ []]).

Lemma close_edges : forall c, Forall (fun y => loose (kind_of y) = true) c -> Forall (fun x => edge x = true) (map Close c).
Proof. intros c F. induction F as [|y c H F IH]; constructor; [|exact IH]. cbn [edge]. now rewrite H. Qed.

Lemma rel_edges : forall p q m s m' s' l, rel p q m s m' s' l -> Forall (fun x => edge x = true) l.
Proof.
  intros p q m s m' s' l R. destruct R as [m s|m m' l H _|c x s k Ep Ek F W C|c t s Et Hc Hq].
  - constructor.
  - exact (lag_edges _ _ _ H).
  - now apply close_edges.
  - apply Forall_app. split; [|repeat constructor]. apply close_edges. destruct Hc as [-> | (x & -> & Hx)]; repeat constructor. now rewrite Hx.
Qed.

(** An end tag is left out. *)
Lemma drop_end : forall q n s ev s1 c, gone (HEnd n) = true -> loose (kind_of n) = true ->
  shut s n = Some (ev, s1) -> Forall (fun y => loose (kind_of y) = true) c -> wf (c ++ s) -> end_implied (kind_of n) q = true ->
  exists c', c ++ s = (c' ++ [n]) ++ s1 /\ map Close c ++ ev = map Close (c' ++ [n]) /\
    rel (Some (HEnd n)) q InBody s1 InBody (c ++ s) (map Close (c' ++ [n])).
Proof.
  intros q n s ev s1 c Hg Hn Hs Hc W Hq. destruct (shut_inv _ _ _ _ Hs) as (d & E & Fd & Ev & _). exists (c ++ d).
  assert (E' : c ++ s = ((c ++ d) ++ [n]) ++ s1) by (rewrite E, <- !app_assoc; reflexivity).
  split; [exact E'|]. split; [rewrite Ev, !map_app, <- app_assoc; reflexivity|].
  rewrite E' in *. destruct (gone_end n Hg) as [El _]. apply (rel_pend _ _ _ _ _ n); [reflexivity | now rewrite El | | exact W|].
  - repeat (apply Forall_app; split); auto.
  - unfold closing. unfold end_implied in Hq. destruct (kind_at q) as [k|].
    + apply Forall_app. split; [|now repeat constructor]. apply (chain_closes k (c ++ d) n s1); [now rewrite <- app_assoc in W | now apply Forall_app | exact Hq].
    + destruct (end_kind_at q) as [k|]; [|discriminate]. now apply negb_true_iff in Hq.
Qed.

Lemma silent_step : forall t, silent t = true -> exists c, html_blank c = true /\ forall m s, step m s t = Some (blank_step m c, m, s).
Proof.
  intros [c|c|d|n|n a sl] H; try discriminate; [exists c | exists 0x20]; (split; [exact H || reflexivity|]); intros m s; [|reflexivity].
  cbn [step silent] in *. unfold char_step. now rewrite H.
Qed.

Lemma blank_shape : forall m c, blank_step m c = [] \/ blank_step m c = [Text c].
Proof. intros [] c; cbn; auto. Qed.

Lemma next_loud : forall t ts, silent t = false -> next (t :: ts) = Some t.
Proof. intros t ts H. cbn [next]. now rewrite H. Qed.

Lemma run_cons : forall m s t ts ev, run m s (t :: ts) = Some ev -> exists ev1 m1 s1 ev2,
  step m s t = Some (ev1, m1, s1) /\ run m1 s1 ts = Some ev2 /\ ev = ev1 ++ ev2.
Proof.
  intros m s t ts ev H. cbn [run] in H. destruct (step m s t) as [[[ev1 m1] s1]|]; [|discriminate].
  destruct (run m1 s1 ts) as [ev2|] eqn:E; [|discriminate]. cbn in H. injection H as <-. do 4 eexists. eauto.
Qed.

Lemma run_step : forall m s t ts ev1 m1 s1 ev2, step m s t = Some (ev1, m1, s1) -> run m1 s1 ts = Some ev2 ->
  run m s (t :: ts) = Some (ev1 ++ ev2).
Proof. intros m s t ts ev1 m1 s1 ev2 H K. cbn [run]. now rewrite H, K. Qed.

(** A tag that is kept. *)
Lemma rel_keep : forall p m s m' s' l t ev m1 s1, rel p (Some t) m s m' s' l -> silent t = false -> wf s -> in_place m s ->
  step m s t = Some (ev, m1, s1) -> forall q, exists ev' m1' s1' l', step m' s' t = Some (ev', m1', s1') /\ rel (Some t) q m1 s1 m1' s1' l' /\
    ev' ++ l' = l ++ ev.
Proof.
  intros p m s m' s' l t ev m1 s1 R Hs W P H q. destruct R as [m s|m m' l HL HB|c x s k Ep Ek F Wc C|c t0 s Et Hc Hq].
  - exists ev, m1, s1, []. split; [exact H|]. split; [constructor|]. now rewrite app_nil_r.
  - destruct (lag_keep _ _ _ _ _ _ _ HL Hs HB H) as [K | (-> & -> & -> & K & N & _)].
    + exists (l ++ ev), m1, s1, []. split; [exact K|]. split; [constructor|]. apply app_nil_r.
    + exists [], m', [], l. split; [exact K|]. split; [|now rewrite app_nil_r]. apply rel_mode; [exact HL|]. intros E N'. now specialize (N E).
  - set (d := c ++ [x]) in *. assert (Ns : s <> []) by (apply (chain_around d s); [now destruct c | exact Wc | exact F]).
    unfold closing in C. destruct t as [a|a|a|n|n a sl]; cbn [kind_at end_kind_at] in C; try contradiction; cbn [step] in *.
    + destruct (end_inv _ _ _ _ _ _ H P) as [(I & _) | [(_ & E & _) | (I & Fr & _ & -> & Es)]].
      * rewrite (idle_void _ I) in C. discriminate.
      * contradiction.
      * pose proof (shut_more d s _ _ _ Es Wc F) as Es'. exists (map Close d ++ ev), InBody, s1, [].
        split; [|split; [constructor | apply app_nil_r]]. unfold end_step. destruct (kind_of (map low n)); try discriminate I; try discriminate Fr; rewrite Es'; reflexivity.
    + destruct (start_inv _ _ _ _ _ _ _ _ H) as [(_ & E & _) | (pre & ev' & Ep' & -> & K)]; [contradiction|].
      destruct K as [(-> & K) | (_ & K & _)]; [|contradiction]. destruct (K Ns) as [_ ->].
      pose proof (put_more d s _ _ _ _ _ Ep' C) as Es'. exists (map Close d ++ ev'), InBody, s1, [].
      split; [|split; [constructor | apply app_nil_r]]. unfold start_step. destruct (d ++ s) as [|y r] eqn:Eds; [destruct d; [destruct s|]; [contradiction | discriminate | discriminate]|].
      now rewrite Es'.
  - destruct t as [a|a|a|n|n a sl]; try discriminate Hq. cbn [kind_at] in Hq. injection Hq as Hq. cbn [step start_step] in H.
    destruct (put (tbody_ :: t0 :: s) (map low n) a sl) as [[e2 s2]|] eqn:Ep; [|discriminate]. cbn [in_mode app] in H. injection H as <- <- <-.
    assert (E : put (c ++ t0 :: s) (map low n) a sl = Some ((map Close c ++ [Open tbody_ []]) ++ e2, s2)).
    { unfold put in *. rewrite Hq in *. change (kind_of tbody_) with KGroup in Ep. cbn [pop] in Ep. change (kind_of tbody_) with KGroup in Ep. cbn [closes] in Ep.
      rewrite (pop_more _ c (t0 :: s) [] (t0 :: s)).
      - unfold between in *. cbn [top] in *. change (kind_of tbody_) with KGroup in Ep. rewrite Et. cbn [app] in *.
        destruct (allowed _ _); [|discriminate]. cbn [void] in *. destruct sl; [discriminate|]. injection Ep as <- <-. rewrite app_nil_r, <- app_assoc. reflexivity.
      - destruct Hc as [-> | (x & -> & Hx)]; repeat constructor. now rewrite Hx.
      - cbn [pop]. rewrite Et. reflexivity. }
    exists ((map Close c ++ [Open tbody_ []]) ++ e2), InBody, s2, []. split; [|split; [constructor | apply app_nil_r]]. cbn [step]. unfold start_step.
    destruct (c ++ t0 :: s) as [|y r] eqn:Ec; [destruct c; discriminate|]. now rewrite E.
Qed.

(** A tag that is left out. *)
Lemma gone_loose : forall n s ev s1, gone (HEnd n) = true -> idle (kind_of n) = false -> frame (kind_of n) = false -> shut s n = Some (ev, s1) -> wf s ->
  loose (kind_of n) = true.
Proof.
  intros n s ev s1 Hg Hi Hf Es W. destruct (gone_end n Hg) as [_ Hk]. destruct (shut_inv _ _ _ _ Es) as (d & -> & _). apply wf_app in W.
  destruct W as [[Hs _] _]. destruct (kind_of n); try contradiction Hk; reflexivity || discriminate.
Qed.

Lemma frame_put : forall s n a sl ev s1, put s n a sl = Some (ev, s1) -> frame (kind_of n) = false.
Proof. intros s n a sl ev s1 H. destruct (put_inv _ _ _ _ _ _ H) as (c & s2 & _ & Ha & _). apply allowed_child in Ha. now destruct (kind_of n). Qed.

Lemma rel_drop : forall p m s m' s' l t ev m1 s1 q, rel p (Some t) m s m' s' l -> gone t = true -> wf s -> in_place m s -> after p s ->
  fits p t q = true -> step m s t = Some (ev, m1, s1) -> rel (Some t) q m1 s1 m' s' (l ++ ev).
Proof.
  intros p m s m' s' l t ev m1 s1 q R Hg W P A Hf H.
  assert (Mode : forall m' m l, lag m' m = Some l -> (m = InBody -> m' <> InBody -> body_next (Some t) = true) ->
            step m [] t = Some (ev, m1, s1) -> rel (Some t) q m1 s1 m' [] (l ++ ev)).
  { clear - Hg Hf. intros m' m l HL HB H. destruct (lag_drop _ _ _ _ _ _ _ HL Hg HB H) as (-> & HL' & N). apply rel_mode; [exact HL'|].
    intros E1 E2. destruct (N E1 E2) as (a & sl & ->). exact Hf. }
  destruct R as [m s|m m' l HL HB|c x s k Ep Ek F Wc C|c t0 s Et Hc Hq].
  - cbn [app]. destruct s as [|y s].
    + apply (Mode m m []); [now destruct m | intros E N; contradiction | exact H].
    + destruct t as [a|a|a|n|n a sl]; try discriminate Hg; cbn [step] in H.
      * destruct (gone_end n Hg) as [El Hk]. rewrite El in H. destruct (end_inv _ _ _ _ _ _ H P) as [(I & -> & -> & -> & _) | [(_ & E & _) | (I & Fr & M & -> & Es)]];
          [constructor | discriminate|].
        pose proof (gone_loose _ _ _ _ Hg I Fr Es W) as Ln. destruct (shut_inv _ _ _ _ Es) as (d & E & _).
        assert (m = InBody).
        { destruct M as [-> | ->]; [|reflexivity]. destruct P as [P | [P | (_ & x & P & Kx)]]; try discriminate. rewrite P in E.
          destruct d as [|? [|]]; injection E as ? ?; try discriminate. subst x. rewrite Kx in Ln. discriminate. }
        subst m. cbn [fits] in Hf. rewrite Ln in Hf.
        destruct (drop_end q n _ _ _ [] Hg Ln Es ltac:(constructor) W Hf) as (c' & E1 & E2 & R). cbn [app map] in *. now rewrite E2.
      * destruct (gone_start _ _ _ Hg) as (El & -> & -> & K). rewrite El in H.
        destruct (start_inv _ _ _ _ _ _ _ _ H) as [(_ & E & _) | (pre & ev' & Ep & -> & J)]; [discriminate|].
        destruct J as [(-> & J) | (_ & J & _)]; [|discriminate]. destruct (J ltac:(discriminate)) as [-> ->]. cbn [app].
        pose proof (frame_put _ _ _ _ _ _ Ep) as Fr. destruct K as [-> | [-> | [-> | ->]]]; try discriminate Fr.
        cbn [fits] in Hf. change (kind_of tbody_) with KGroup in Hf. apply andb_true_iff in Hf. destruct Hf as [Hp Hn].
        assert (Nx : kind_at q = Some KRow) by (destruct (kind_at q) as [k|]; [|discriminate]; now destruct k).
        destruct (put_inv _ _ _ _ _ _ Ep) as (c & s2 & Ec & Ha & K). change (kind_of tbody_) with KGroup in *.
        assert (Eb : between s2 KGroup = []) by (unfold between; destruct (top s2) as [k|]; [|reflexivity]; now destruct k). rewrite Eb in *.
        cbn [app map] in *. apply allowed_child in Ha. change (kind_of tbody_) with KGroup in Ha.
        destruct s2 as [|t0 s2]; [discriminate|]. cbn [top] in Ha.
        assert (Et : kind_of t0 = KTable) by (destruct (kind_of t0); reflexivity || discriminate).
        destruct K as [(V & _) | (_ & _ & -> & ->)]; [discriminate|]. cbn [app].
        destruct (pop_app _ _ _ _ Ec) as [E _]. rewrite E.
        apply rel_group; [exact Et | | exact Nx]. unfold after in A.
        assert (Top : top (y :: s) = Some KTable \/ top (y :: s) = Some KCols).
        { destruct (kind_at p) as [k|]; [destruct k; try discriminate Hp; auto|]. destruct (end_kind_at p) as [k|]; [|discriminate]. destruct k; try discriminate Hp; auto. }
        cbn [top] in Top. destruct Top as [Top | Top]; injection Top as Top; cbn [pop] in Ec; rewrite Top in Ec; cbn [closes] in Ec.
        -- injection Ec as <- _. now left.
        -- destruct W as [[_ W1] W2]. rewrite Top in W1. specialize (W1 eq_refl). destruct s as [|z s]; [discriminate|]. cbn [top] in W1.
           assert (Kz : kind_of z = KTable) by (destruct (kind_of z); reflexivity || discriminate).
           cbn [pop] in Ec. rewrite Kz in Ec. cbn [closes] in Ec. injection Ec as <- _. right. eauto.
  - apply (Mode m' m l HL HB H).
  - set (d := c ++ [x]) in *. assert (Ns : s <> []) by (apply (chain_around d s); [now destruct c | exact Wc | exact F]).
    unfold closing in C. destruct t as [a|a|a|n|n a sl]; try discriminate Hg; cbn [kind_at end_kind_at] in C; cbn [step] in H.
    + destruct (gone_end n Hg) as [El Hk]. rewrite El in *. destruct (end_inv _ _ _ _ _ _ H P) as [(I & _) | [(_ & E & _) | (I & Fr & M & -> & Es)]].
      * rewrite (idle_void _ I) in C. discriminate.
      * contradiction.
      * pose proof (gone_loose _ _ _ _ Hg I Fr Es W) as Ln. cbn [fits] in Hf. rewrite Ln in Hf.
        destruct (drop_end q n _ _ _ d Hg Ln Es F Wc Hf) as (c' & E1 & E2 & R). now rewrite E2.
    + destruct (gone_start _ _ _ Hg) as (El & -> & -> & K). rewrite El in *.
      destruct (start_inv _ _ _ _ _ _ _ _ H) as [(_ & E & _) | (pre & ev' & Eq & -> & J)]; [contradiction|].
      destruct J as [(-> & J) | (_ & J & _)]; [|contradiction]. destruct (J Ns) as [_ ->]. cbn [app].
      pose proof (frame_put _ _ _ _ _ _ Eq) as Fr. destruct K as [-> | [-> | [-> | ->]]]; try discriminate Fr.
      cbn [fits] in Hf. change (kind_of tbody_) with KGroup in Hf. apply andb_true_iff in Hf. destruct Hf as [Hp Hn].
      assert (Nx : kind_at q = Some KRow) by (destruct (kind_at q) as [k0|]; [|discriminate]; now destruct k0).
      subst p. unfold after in A. cbn [kind_at end_kind_at] in Hp, A. rewrite Ek in *.
      assert (Kx : kind_of x = KCols /\ top s = Some KTable).
      { apply Forall_app in F. destruct F as [_ F]. inversion F as [|? ? Lx _]; subst. destruct (kind_of x); try discriminate Hp; try discriminate Lx; auto. }
      destruct Kx as [Kx Ts]. destruct s as [|t0 s]; [contradiction|]. cbn [top] in Ts. injection Ts as Ts.
      assert (Ec : c = []).
      { destruct c as [|y c]; [reflexivity|]. exfalso. apply Forall_app in F. destruct F as [F _].
        pose proof (chain_rank (y :: c) x (t0 :: s)) as R. unfold d in Wc. rewrite <- app_assoc in Wc. specialize (R Wc F). rewrite Kx in R.
        inversion R as [|? ? Ry _]; subst. inversion F as [|? ? Fy _]; subst. destruct (kind_of y); try discriminate Fy; cbn in Ry; lia. }
      subst c d. cbn [app map] in *. unfold put in Eq. change (kind_of tbody_) with KGroup in Eq. cbn [pop] in Eq. rewrite Ts in Eq. cbn [closes] in Eq.
      unfold between in Eq. cbn [top] in Eq. rewrite Ts in Eq. cbn [app map void] in Eq. destruct (allowed _ _); [|discriminate]. injection Eq as <- <-.
      change (rel (Some (HStart tbody_ [] false)) q InBody (tbody_ :: t0 :: s) InBody ([x] ++ t0 :: s) (map Close [x] ++ [Open tbody_ []])).
      apply rel_group; [exact Ts | right; eauto | exact Nx].
  - destruct t as [a|a|a|n|n a sl]; try discriminate Hq. destruct (gone_start _ _ _ Hg) as (El & _ & _ & K). cbn [kind_at] in Hq. rewrite El in Hq.
    destruct K as [-> | [-> | [-> | ->]]]; discriminate Hq.
Qed.

(** ** The tree *)

Lemma rel_finish : forall p m s m' s' l ev, rel p None m s m' s' l -> finish m s = Some ev -> finish m' s' = Some (l ++ ev).
Proof.
  intros p m s m' s' l ev R H. destruct R as [m s|m m' l HL HB|c x s k Ep Ek F Wc C|c t0 s Et Hc Hq].
  - exact H.
  - exact (lag_finish _ _ _ _ HL H).
  - contradiction.
  - discriminate.
Qed.

Lemma rel_blank : forall p q m s m' s' l c, rel p q m s m' s' l -> l = [] -> blank_step m' c = blank_step m c.
Proof.
  intros p q m s m' s' l c R E. destruct R as [m s|m m' l HL HB|d x s k Ep Ek F Wc C|d t0 s Et Hc Hq]; try reflexivity.
  subst l. destruct m', m; try discriminate HL; reflexivity.
Qed.

Theorem thin_tree : forall ts us, thin ts us -> forall p m s m' s' l ev, rel p (next ts) m s m' s' l -> wf s -> in_place m s -> after p s ->
  replaceable p ts = true -> run m s ts = Some ev -> exists ev', run m' s' us = Some ev' /\ eqv ev' (l ++ ev).
Proof.
  intros ts us T. induction T as [|t ts us T IH|t ts us Hg T IH]; intros p m s m' s' l ev R W P A Hr H.
  - exists (l ++ ev). split; [exact (rel_finish _ _ _ _ _ _ _ R H) | apply eqv_refl].
  - destruct (run_cons _ _ _ _ _ H) as (ev1 & m1 & s1 & ev2 & H1 & H2 & ->). cbn [replaceable] in Hr. destruct (silent t) eqn:Hs.
    + destruct (silent_step t Hs) as (c & Hc & E). rewrite E in H1. injection H1 as <- <- <-.
      assert (R' : rel p (next ts) m s m' s' l) by (cbn [next] in R; now rewrite Hs in R).
      destruct (IH p m s m' s' l ev2 R' W P A Hr H2) as (ev' & K1 & K2).
      exists (blank_step m' c ++ ev'). split; [exact (run_step _ _ _ _ _ _ _ _ (E m' s') K1)|].
      apply (eqv_blank l _ _ c); [exact (rel_edges _ _ _ _ _ _ _ R) | exact Hc | apply blank_shape | apply blank_shape | exact (rel_blank _ _ _ _ _ _ _ c R) | exact K2].
    + apply andb_true_iff in Hr. destruct Hr as [_ Hr]. rewrite (next_loud t ts Hs) in R.
      destruct (step_state _ _ _ _ _ _ H1 Hs W P) as (W1 & P1 & A1).
      destruct (rel_keep _ _ _ _ _ _ _ _ _ _ R Hs W P H1 (next ts)) as (e1 & m1' & s1' & l' & S1 & R1 & Ee).
      destruct (IH _ _ _ _ _ _ _ R1 W1 P1 A1 Hr H2) as (ev' & K1 & K2).
      exists (e1 ++ ev'). split; [exact (run_step _ _ _ _ _ _ _ _ S1 K1)|].
      rewrite app_assoc, <- Ee, <- app_assoc. now apply eqv_app.
  - destruct (run_cons _ _ _ _ _ H) as (ev1 & m1 & s1 & ev2 & H1 & H2 & ->). cbn [replaceable] in Hr.
    destruct (silent t) eqn:Hs; [rewrite (gone_silent t Hs) in Hg; discriminate|]. rewrite Hg in Hr.
    apply andb_true_iff in Hr. destruct Hr as [Hf Hr]. rewrite (next_loud t ts Hs) in R.
    destruct (step_state _ _ _ _ _ _ H1 Hs W P) as (W1 & P1 & A1).
    pose proof (rel_drop _ _ _ _ _ _ _ _ _ _ (next ts) R Hg W P A Hf H1) as R1.
    destruct (IH _ _ _ _ _ _ _ R1 W1 P1 A1 Hr H2) as (ev' & K1 & K2). exists ev'. split; [exact K1|]. now rewrite <- app_assoc in K2.
Qed.

Corollary thin_build : forall ts us ev, thin ts us -> replaceable None ts = true -> build ts = Some ev ->
  exists ev', build us = Some ev' /\ eqv ev' ev.
Proof.
  intros ts us ev T Hr H. apply (thin_tree ts us T None Initial [] Initial [] [] ev); [constructor | exact I | right; now left | exact I | exact Hr | exact H].
Qed.
