(** Proofs about HtmlTreeSpec, second part: the tree of a document without the tags that may be left
    out. *)
From Coq Require Import String List NArith Bool Arith Lia.
From Verif Require Import Base HtmlSpec HtmlSyntaxSpec HtmlTreeSpec HtmlTreeProofs1.
Import ListNotations.
Open Scope N_scope.

(** ** The tags that may be left out *)

Lemma gone_end : forall n, gone (HEnd n) = true -> map low n = n /\
  match kind_of n with
  | KHtml | KHead | KBody | KLink | KCol | KVoid | KBr | KHr | KLi | KDef | KOption | KCell | KRow | KGroup | KCols | KNone => True
  | _ => False
  end.
Proof.
  intros n H. unfold gone in H. cbn [worth] in H. destruct (existsb (str_eqb n) droppable_close) eqn:E; [|discriminate].
  apply existsb_exists in E. destruct E as (x & I & E). apply str_eqb_eq in E. subst x.
  unfold droppable_close in I. cbn [map In] in I.
  repeat (destruct I as [<- | I]; [split; [reflexivity | vm_compute; exact Logic.I]|]). destruct I.
Qed.

Lemma gone_start : forall n a sl, gone (HStart n a sl) = true -> map low n = n /\ a = [] /\ sl = false /\
  (n = html_ \/ n = head_ \/ n = body_ \/ n = tbody_).
Proof.
  intros n a sl H. unfold gone in H. cbn [worth] in H. destruct (existsb (str_eqb n) droppable_open) eqn:E; [|discriminate].
  destruct a; [|discriminate]. destruct sl; [discriminate|]. apply existsb_exists in E. destruct E as (x & I & E).
  apply str_eqb_eq in E. subst x. unfold droppable_open in I. cbn [map In] in I.
  repeat (destruct I as [<- | I]; [split; [reflexivity | vm_compute; tauto]|]). destruct I.
Qed.

Lemma gone_silent : forall t, silent t = true -> gone t = false.
Proof. intros [c|c|s|n|n a sl] H; reflexivity || discriminate. Qed.

(** ** The state of the source *)

(** Outside the body there are no open elements but one of the head. *)
Definition in_place (m : mode) (stk : list str) : Prop :=
  m = InBody \/ stk = [] \/ (m = InHead /\ exists x, stk = [x] /\ kind_of x = KMeta).

(** What the last tag says about the open elements. *)
Definition after (p : option token) (stk : list str) : Prop :=
  match kind_at p, end_kind_at p with
  | Some KTable, _ => top stk = Some KTable
  | Some (KCol | KCols), _ => top stk = Some KCols
  | None, Some (KCaption | KCols) => top stk = Some KTable
  | _, _ => True
  end.

Lemma put_after : forall t stk n a a' sl ev s, put stk (map low n) a sl = Some (ev, s) -> t = HStart n a' sl -> after (Some t) s.
Proof.
  intros t stk n a a' sl ev s H ->. destruct (put_inv _ _ _ _ _ _ H) as (c & s1 & Ep & Ha & K). apply allowed_child in Ha.
  unfold after, kind_at. destruct K as [(V & -> & _) | (V & _ & -> & _)]; destruct (kind_of (map low n)) eqn:Ek; try exact Logic.I; try discriminate V;
    cbn [top]; rewrite ?Ek; try reflexivity.
  destruct (top (between s1 KCol ++ s1)) as [x|]; [|discriminate Ha]. now destruct x.
Qed.

Lemma shut_after : forall n stk ev s, shut stk (map low n) = Some (ev, s) -> wf stk -> after (Some (HEnd n)) s.
Proof.
  intros n stk ev s H W. destruct (shut_inv _ _ _ _ H) as (c & -> & _). apply wf_app in W. destruct W as [[_ W] _].
  unfold after, kind_at, end_kind_at. destruct (kind_of (map low n)) eqn:Ek; try exact Logic.I.
  - specialize (W eq_refl). destruct (top s) as [x|]; [|discriminate W]. now destruct x.
  - specialize (W eq_refl). destruct (top s) as [x|]; [|discriminate W]. now destruct x.
Qed.

Lemma put_meta : forall n a sl ev s, put [] n a sl = Some (ev, s) -> kind_of n = KMeta \/ kind_of n = KLink ->
  s = [] \/ exists x, s = [x] /\ kind_of x = KMeta.
Proof.
  intros n a sl ev s H K. destruct (put_inv _ _ _ _ _ _ H) as (c & s1 & Ep & Ha & J). injection Ep as <- <-.
  unfold between in J. cbn [top app] in J. destruct J as [(_ & -> & _) | (V & _ & -> & _)]; [now left|].
  destruct K as [K | K]; rewrite K in V; [|discriminate]. right. eauto.
Qed.

Ltac inv H := match type of H with Some _ = Some _ => injection H; clear H; intros; subst | None = Some _ => discriminate H end.

Definition frame (k : kind) : bool := match k with KHtml | KHead | KBody => true | _ => false end.
Definition idle (k : kind) : bool := match k with KLink | KCol | KVoid | KHr => true | _ => false end.

Lemma end_inv : forall m stk n ev m1 s1, end_step m stk n = Some (ev, m1, s1) -> in_place m stk ->
  (idle (kind_of n) = true /\ ev = [] /\ m1 = m /\ s1 = stk /\ m <> AfterBody) \/
  (frame (kind_of n) = true /\ stk = [] /\ s1 = []) \/
  (idle (kind_of n) = false /\ frame (kind_of n) = false /\ (m = InHead \/ m = InBody) /\ m1 = m /\ shut stk n = Some (ev, s1)).
Proof.
  intros m stk n ev m1 s1 H P. unfold end_step in H.
  assert (G : forall o : option (list event * list str), match m with InHead | InBody => in_mode m [] o | _ => None end = Some (ev, m1, s1) ->
    (m = InHead \/ m = InBody) /\ m1 = m /\ o = Some (ev, s1)).
  { intros o K. destruct m; try discriminate; destruct o as [[ev' s']|]; try discriminate; cbn in K; inv K; auto. }
  destruct (kind_of n) eqn:Ek; cbn [idle frame];
    try (right; right; (split; [reflexivity|]); (split; [reflexivity|]); apply (G _ H));
    try (left; destruct m; try discriminate; inv H; (split; [reflexivity|]); repeat split; discriminate).
  - right. left. split; [reflexivity|]. destruct m; try (destruct stk; [|discriminate]; cbn in H; inv H; auto). inv H.
    destruct P as [P | [-> | (P & _)]]; try discriminate. auto.
  - right. left. split; [reflexivity|]. destruct m, stk; try discriminate; cbn in H; inv H; auto.
  - right. left. split; [reflexivity|]. destruct m, stk; try discriminate; cbn in H; inv H; auto.
Qed.

Lemma start_inv : forall m stk n a sl ev m1 s1, start_step m stk n a sl = Some (ev, m1, s1) ->
  (frame (kind_of n) = true /\ stk = [] /\ s1 = []) \/
  (exists pre ev', put stk n a sl = Some (ev', s1) /\ ev = pre ++ ev' /\
    ((m1 = InBody /\ (stk <> [] -> m = InBody /\ pre = [])) \/
     (m1 = InHead /\ stk = [] /\ (kind_of n = KMeta \/ kind_of n = KLink)))).
Proof.
  intros m stk n a sl ev m1 s1 H. unfold start_step in H. destruct stk as [|x stk].
  - assert (G : forall o : option (list event), match o with Some pre => in_mode InBody pre (put [] n a sl) | None => None end = Some (ev, m1, s1) ->
      exists pre ev', put [] n a sl = Some (ev', s1) /\ ev = pre ++ ev' /\
        ((m1 = InBody /\ ([] <> @nil str -> m = InBody /\ pre = [])) \/ (m1 = InHead /\ @nil str = [] /\ (kind_of n = KMeta \/ kind_of n = KLink)))).
    { intros [pre|] K; [|discriminate]. destruct (put [] n a sl) as [[ev' s']|]; [|discriminate]. cbn in K. inv K.
      exists pre, ev'. repeat split. left. split; [reflexivity | contradiction]. }
    assert (G2 : kind_of n = KMeta \/ kind_of n = KLink ->
      match m with InBody => in_mode InBody [] (put [] n a sl)
      | _ => match up_to_head m with Some pre => in_mode InHead pre (put [] n a sl) | None => None end end = Some (ev, m1, s1) ->
      exists pre ev', put [] n a sl = Some (ev', s1) /\ ev = pre ++ ev' /\
        ((m1 = InBody /\ ([] <> @nil str -> m = InBody /\ pre = [])) \/ (m1 = InHead /\ @nil str = [] /\ (kind_of n = KMeta \/ kind_of n = KLink)))).
    { clear G H. intros Kn K.
      assert (C : in_mode InBody [] (put [] n a sl) = Some (ev, m1, s1) \/ exists pre, in_mode InHead pre (put [] n a sl) = Some (ev, m1, s1)).
      { destruct m; try discriminate; try (now left); right; eexists; exact K. }
      clear K. destruct (put [] n a sl) as [[ev' s']|]; [|destruct C as [C | (pre & C)]; discriminate C].
      destruct C as [C | (pre & C)]; cbn [in_mode] in C; inv C; [exists [], ev | exists pre, ev']; (split; [reflexivity|]); (split; [reflexivity|]); auto.
      left. split; [reflexivity | contradiction]. }
    destruct (kind_of n) eqn:Ek; try (right; apply (G _ H)); try (right; rewrite <- Ek in *; apply G2; [now rewrite Ek; auto | exact H]);
      left; (split; [reflexivity|]); (split; [reflexivity|]); destruct m; try discriminate; cbn in H; destruct sl; try discriminate; inv H; reflexivity.
  - right. destruct m; try discriminate. destruct (put _ n a sl) as [[ev' s']|]; [|discriminate]. cbn in H. inv H.
    exists [], ev. repeat split. left. split; auto.
Qed.

Lemma step_state : forall m stk t ev m1 s1, step m stk t = Some (ev, m1, s1) -> silent t = false -> wf stk -> in_place m stk ->
  wf s1 /\ in_place m1 s1 /\ after (Some t) s1.
Proof.
  intros m stk t ev m1 s1 H Hs W P. destruct t as [c|c|s|n|n a sl]; cbn [step] in H; cbn [silent] in Hs; try discriminate.
  - unfold char_step in H. rewrite Hs in H. destruct stk as [|x stk].
    + destruct (up_to_body m); [|discriminate]. inv H. repeat split; [now left].
    + destruct (text_ok (x :: stk)); [|discriminate]. inv H. repeat split; try assumption; apply W.
  - destruct m; try discriminate. inv H. destruct P as [P | [-> | (P & _)]]; try discriminate. repeat split. right. now left.
  - destruct (end_inv _ _ _ _ _ _ H P) as [(I & -> & -> & -> & _) | [(F & -> & ->) | (_ & _ & M & -> & Es)]].
    + split; [exact W|]. split; [exact P|]. unfold after, kind_at, end_kind_at. now destruct (kind_of (map low n)).
    + split; [exact W|]. split; [right; now left|]. unfold after, kind_at, end_kind_at. now destruct (kind_of (map low n)).
    + destruct (shut_inv _ _ _ _ Es) as (c & E & _). split; [rewrite E in W; apply wf_app in W; apply W|].
      split; [|exact (shut_after _ _ _ _ Es W)].
      destruct P as [P | [P | (_ & x & P & _)]]; [now left| |]; rewrite P in E; [destruct c; discriminate|].
      destruct c as [|? [|]]; injection E as ? ?; try discriminate. subst. right. now left.
  - destruct (start_inv _ _ _ _ _ _ _ _ H) as [(F & -> & ->) | (pre & ev' & Ep & _ & K)].
    + split; [exact W|]. split; [right; now left|]. unfold after, kind_at. now destruct (kind_of (map low n)).
    + split; [exact (put_wf _ _ _ _ _ _ Ep W)|]. split; [|exact (put_after _ _ _ _ _ _ _ _ Ep eq_refl)].
      destruct K as [(-> & _) | (-> & -> & Kn)]; [now left|]. right. destruct (put_meta _ _ _ _ _ Ep Kn) as [-> | (x & -> & Kx)]; [now left|].
      right. split; [reflexivity|]. eauto.
Qed.

(** ** The state of the output *)

(** The tags between two modes. *)
Definition lag (m' m : mode) : option (list event) :=
  match m', m with
  | Initial, Initial | BeforeHtml, BeforeHtml | BeforeHead, BeforeHead | InHead, InHead | AfterHead, AfterHead
  | InBody, (InBody | AfterBody) | AfterBody, AfterBody => Some []
  | (Initial | BeforeHtml), BeforeHead => Some [Open html_ []]
  | (Initial | BeforeHtml), InHead => Some [Open html_ []; Open head_ []]
  | (Initial | BeforeHtml), AfterHead => Some [Open html_ []; Open head_ []; Close head_]
  | (Initial | BeforeHtml), (InBody | AfterBody) => Some [Open html_ []; Open head_ []; Close head_; Open body_ []]
  | BeforeHead, InHead => Some [Open head_ []]
  | BeforeHead, AfterHead => Some [Open head_ []; Close head_]
  | BeforeHead, (InBody | AfterBody) => Some [Open head_ []; Close head_; Open body_ []]
  | InHead, AfterHead => Some [Close head_]
  | InHead, (InBody | AfterBody) => Some [Close head_; Open body_ []]
  | AfterHead, (InBody | AfterBody) => Some [Open body_ []]
  | _, _ => None
  end.

Lemma lag_edges : forall m' m l, lag m' m = Some l -> Forall (fun x => edge x = true) l.
Proof. intros m' m l H. destruct m', m; try discriminate; cbv [lag] in H; inv H; repeat constructor. Qed.

(** The tag that follows is not one that would go into the head. *)
Definition body_next (q : option token) : bool :=
  match kind_at q, end_kind_at q with
  | Some (KMeta | KLink), _ => false
  | None, Some m => negb (void m)
  | _, _ => true
  end.

Lemma idle_void : forall k, idle k = true -> void k = true.
Proof. now destruct k. Qed.

Lemma put_pre : forall m pre pre' n a sl ev m1 s1 l, in_mode m pre (put [] n a sl) = Some (ev, m1, s1) -> pre' = l ++ pre ->
  in_mode m pre' (put [] n a sl) = Some (l ++ ev, m1, s1).
Proof.
  intros m pre pre' n a sl ev m1 s1 l H ->. destruct (put [] n a sl) as [[e s]|]; [|discriminate]. cbn in *. inv H. now rewrite app_assoc.
Qed.

(** A tag that is not left out. *)
Lemma lag_keep : forall m' m l t ev m1 s1, lag m' m = Some l -> silent t = false ->
  (m = InBody -> m' <> InBody -> body_next (Some t) = true) ->
  step m [] t = Some (ev, m1, s1) ->
  step m' [] t = Some (l ++ ev, m1, s1) \/ (ev = [] /\ m1 = m /\ s1 = [] /\ step m' [] t = Some ([], m', []) /\ (m = InBody -> m' = InBody) /\
    exists n, t = HEnd n /\ idle (kind_of (map low n)) = true).
Proof.
  intros m' m l t ev m1 s1 HL Hs HB H. destruct t as [c|c|s|n|n a sl]; cbn [step] in *; cbn [silent] in Hs; try discriminate.
  - left. unfold char_step in *. rewrite Hs in *. destruct m', m; try discriminate; (cbv [lag] in HL; inv HL); cbn in *; inv H; reflexivity.
  - left. destruct m; try discriminate. destruct m'; try discriminate; (cbv [lag] in HL; inv HL); exact H.
  - destruct (idle (kind_of (map low n))) eqn:Ei.
    + right. unfold end_step in *. assert (E : ev = [] /\ m1 = m /\ s1 = [] /\ m <> AfterBody).
      { destruct (kind_of (map low n)); try discriminate Ei; destruct m; try discriminate; inv H; repeat split; discriminate. }
      destruct E as (-> & -> & -> & Nm). split; [reflexivity|]. split; [reflexivity|]. split; [reflexivity|]. split; [|split; [|eauto]].
      * destruct (kind_of (map low n)); try discriminate Ei; destruct m', m; try discriminate; reflexivity || contradiction.
      * intro Em. destruct m'; try reflexivity; exfalso; assert (K : body_next (Some (HEnd n)) = true) by (apply HB; [exact Em | discriminate]);
          unfold body_next, kind_at, end_kind_at in K; rewrite (idle_void _ Ei) in K; discriminate.
    + left. unfold end_step in *. destruct (kind_of (map low n)); try discriminate Ei;
        destruct m', m; try discriminate; (cbv [lag] in HL; inv HL); cbn in *; inv H; reflexivity.
  - left. unfold start_step in *. destruct (kind_of (map low n)) eqn:Ek;
      try (destruct m', m; try discriminate; (cbv [lag] in HL; inv HL); cbn [up_to_body past_head option_map] in *; try discriminate; solve [(eapply put_pre; [exact H | reflexivity]) | exact H]);
      try (destruct m', m; try discriminate; (cbv [lag] in HL; inv HL); cbn [up_to_body past_head option_map] in *; try discriminate; destruct sl; try discriminate; inv H; reflexivity).
    + assert (N : m = InBody -> m' = InBody).
      { intro Em. destruct m'; try reflexivity; exfalso; assert (K : body_next (Some (HStart n a sl)) = true) by (apply HB; [exact Em | discriminate]);
          unfold body_next, kind_at in K; rewrite Ek in K; discriminate. }
      destruct m', m; try discriminate; try (specialize (N eq_refl); discriminate N); (cbv [lag] in HL; inv HL); cbn [up_to_head] in *; try discriminate; try exact H; (eapply put_pre; [exact H | reflexivity]).
    + assert (N : m = InBody -> m' = InBody).
      { intro Em. destruct m'; try reflexivity; exfalso; assert (K : body_next (Some (HStart n a sl)) = true) by (apply HB; [exact Em | discriminate]);
          unfold body_next, kind_at in K; rewrite Ek in K; discriminate. }
      destruct m', m; try discriminate; try (specialize (N eq_refl); discriminate N); (cbv [lag] in HL; inv HL); cbn [up_to_head] in *; try discriminate; try exact H; (eapply put_pre; [exact H | reflexivity]).
Qed.

(** A tag that is left out. *)
Lemma lag_drop : forall m' m l t ev m1 s1, lag m' m = Some l -> gone t = true ->
  (m = InBody -> m' <> InBody -> body_next (Some t) = true) ->
  step m [] t = Some (ev, m1, s1) ->
  s1 = [] /\ lag m' m1 = Some (l ++ ev) /\ (m1 = InBody -> m' <> InBody -> exists a sl, t = HStart body_ a sl).
Proof.
  intros m' m l t ev m1 s1 HL Hg HB H. destruct t as [c|c|s|n|n a sl]; cbn [step] in *; try discriminate Hg.
  - destruct (gone_end n Hg) as [El Hk]. rewrite El in H. unfold body_next, kind_at, end_kind_at in HB. rewrite El in HB.
    unfold end_step in H. destruct (kind_of n) eqn:Ek; try contradiction Hk;
      try (destruct m; discriminate);
      try (destruct m', m; try discriminate; (cbv [lag] in HL; inv HL); cbn in H; inv H; cbn in *; repeat split; try reflexivity; intros; try discriminate;
           exfalso; specialize (HB eq_refl ltac:(discriminate)); discriminate).
    all: destruct m', m; try discriminate; (cbv [lag] in HL; inv HL); cbn in H; inv H; cbn in *; repeat split; try reflexivity; intros; try discriminate; try contradiction;
      exfalso; specialize (HB eq_refl ltac:(discriminate)); discriminate.
  - destruct (gone_start n a sl Hg) as (El & -> & -> & K). rewrite El in H. unfold start_step in H.
    destruct K as [-> | [-> | [-> | ->]]].
    + change (kind_of html_) with KHtml in H. destruct m', m; try discriminate; (cbv [lag] in HL; inv HL); cbn in H; inv H; cbn; repeat split; try reflexivity; intros; discriminate.
    + change (kind_of head_) with KHead in H. destruct m', m; try discriminate; (cbv [lag] in HL; inv HL); cbn in H; inv H; cbn; repeat split; try reflexivity; intros; discriminate.
    + change (kind_of body_) with KBody in H. destruct m', m; try discriminate; (cbv [lag] in HL; inv HL); cbn in H; inv H; cbn; repeat split; try reflexivity; intros; eauto; discriminate.
    + change (kind_of tbody_) with KGroup in H. cbn in H. destruct (up_to_body m); discriminate.
Qed.

Lemma lag_finish : forall m' m l ev, lag m' m = Some l -> finish m [] = Some ev -> finish m' [] = Some (l ++ ev).
Proof. intros m' m l ev HL H. destruct m', m; try discriminate; (cbv [lag] in HL; inv HL); cbn in *; inv H; reflexivity. Qed.
