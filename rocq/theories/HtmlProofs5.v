(** White space. *)
From Coq Require Import String List NArith Bool Arith Lia ZifyBool ZifyN.
From Verif Require Import Base HtmlModel HtmlSpec HtmlProofs1 HtmlProofs2.
Import ListNotations.
Open Scope N_scope.

Definition no_blank_first (r : str) : Prop := forall c r', r = c :: r' -> ~ blank c.

(** ** The two replacements *)
Inductive between_tags : str -> str -> Prop :=
| bt : forall w r, w <> [] -> blanks w -> between_tags ([gt] ++ w ++ [lt]) r.

Inductive long_run : str -> str -> Prop :=
| lr_run : forall w r, (2 <= length w)%nat -> blanks w -> no_blank_first r -> long_run w r
| lr_end : forall c r, c = 0xD \/ c = 0xA -> no_blank_first r -> long_run [c] r.

Lemma between_match : forall s l t, m_alt re_between_tags s = Some (l, t) ->
  concat l <> [] /\ between_tags (concat l) t.
Proof.
  intros s l t H. apply m_alt_fits in H. destruct H as (a & [<- | []] & _ & _ & F).
  inversion F as [|p c r l' Pc F2| |]; subst. inversion F2 as [| |p n w r l2 P Hn F3|]; subst.
  inversion F3 as [|p d r l3 Pd F4| |]; subst. inversion F4; subst.
  apply N.eqb_eq in Pc. apply N.eqb_eq in Pd. subst. cbn [concat app]. split; [discriminate|].
  apply (bt w t); [|exact P]. destruct w; [cbn in Hn; lia | discriminate].
Qed.

Lemma between_found : forall m t, between_tags m t -> m_alt re_between_tags (m ++ t) <> None.
Proof.
  intros m t H. destruct H as [w r Hw W].
  apply (fits_m_alt re_between_tags _ [[gt]; w; [lt]] r (or_introl eq_refl)).
  constructor; [reflexivity|]. constructor; [exact W | destruct w; [contradiction | cbn; lia]|].
  constructor; [reflexivity | constructor].
Qed.

Lemma between_det : forall m r m' r', between_tags m r -> between_tags m' r' -> m ++ r = m' ++ r' -> m = m'.
Proof.
  intros m r m' r' H H' E. destruct H as [w r _ W], H' as [w' r' _ W'].
  cbn [app] in E. injection E as E. rewrite <- !app_assoc in E. cbn [app] in E.
  apply first_split in E; [now subst|..]; intro I.
  - apply (proj1 (Forall_forall _ _) W) in I. discriminate.
  - apply (proj1 (Forall_forall _ _) W') in I. discriminate.
Qed.

Lemma long_match : forall s l t, m_alt re_spaces s = Some (l, t) -> concat l <> [] /\ long_run (concat l) t.
Proof.
  intros s l t H. unfold re_spaces, m_alt in H.
  destruct (m_seq [Greedy is_whitespace 2] s) as [[l0 t0]|] eqn:E.
  - injection H as -> ->. destruct (m_seq_fits _ _ _ _ E) as [_ F].
    inversion F as [| |p n w r l2 P Hn F3|]; subst. inversion F3; subst.
    cbn [concat]. rewrite app_nil_r. split; [destruct w; [cbn in Hn; lia | discriminate]|].
    apply lr_run; [exact Hn | exact P|]. intros c r' Hc K. pose proof (greedy_last _ _ _ _ _ E _ _ Hc).
    unfold blank in K. congruence.
  - destruct (m_seq [One (fun c => (c =? 0xD) || (c =? 0xA))] s) as [[l0 t0]|] eqn:E2; [|discriminate].
    injection H as -> ->. destruct (m_seq_fits _ _ _ _ E2) as [Es F].
    inversion F as [|p c r l' Pc F2| |]; subst. inversion F2; subst. cbn [concat app] in *.
    split; [discriminate|]. rewrite orb_true_iff, !N.eqb_eq in Pc. apply lr_end; [exact Pc|].
    intros d r' -> K.
    apply (fits_m_seq [Greedy is_whitespace 2] [[c; d]] r').
    + constructor; [|cbn; lia | constructor]. constructor; [destruct Pc as [-> | ->]; reflexivity|].
      constructor; [exact K | constructor].
    + exact E.
Qed.

Lemma long_found : forall m t, long_run m t -> m_alt re_spaces (m ++ t) <> None.
Proof.
  intros m t H. destruct H as [w r Hw W _|c r Hc _].
  - rewrite <- (app_nil_r w) at 1. change (w ++ []) with (concat [w]).
    apply (fits_m_alt re_spaces [Greedy is_whitespace 2]); [now left|]. constructor; [exact W | exact Hw | constructor].
  - change [c] with (concat [[c]]).
    apply (fits_m_alt re_spaces [One (fun c => (c =? 0xD) || (c =? 0xA))]); [right; now left|].
    constructor; [|constructor]. rewrite orb_true_iff, !N.eqb_eq. exact Hc.
Qed.

Lemma long_blanks : forall m r, long_run m r -> blanks m /\ no_blank_first r /\ m <> [].
Proof.
  intros m r H. destruct H as [w r Hw W F|c r Hc F].
  - repeat split; try assumption. destruct w; [cbn in Hw; lia | discriminate].
  - repeat split; try assumption; [|discriminate]. constructor; [destruct Hc as [-> | ->]; reflexivity | constructor].
Qed.

(** A run of white space and what follows it. *)
Lemma run_unique : forall w w' r r', blanks w -> blanks w' -> no_blank_first r -> no_blank_first r' ->
  w ++ r = w' ++ r' -> w = w' /\ r = r'.
Proof.
  intros w w' r r' W W' F F' E. assert (r = r') as <- by (apply (blank_front w _ w' _); assumption).
  split; [|reflexivity]. apply app_inv_tail in E. exact E.
Qed.

Lemma long_det : forall m r m' r', long_run m r -> long_run m' r' -> m ++ r = m' ++ r' -> m = m'.
Proof.
  intros m r m' r' H H' E. destruct (long_blanks _ _ H) as (A & B & _), (long_blanks _ _ H') as (A' & B' & _).
  exact (proj1 (run_unique _ _ _ _ A A' B B' E)).
Qed.

Definition st1 (s : str) : str := re_subst_all re_between_tags (S_ "> <") s.
Definition st2 (s : str) : str := re_subst_all re_spaces (S_ " ") s.

Lemma st1_eq : forall s t, rewrites between_tags (fun _ m' => m' = S_ "> <") s t -> st1 s = t.
Proof.
  intros s t R. refine (rewrites_det _ _ between_det _ _ _ _ _ R); [intros; congruence|].
  exact (re_subst_all_rewrites _ _ _ between_match between_found s).
Qed.

Lemma st1_rw : forall s, rewrites between_tags (fun _ m' => m' = S_ "> <") s (st1 s).
Proof. intro s. exact (re_subst_all_rewrites _ _ _ between_match between_found s). Qed.

Lemma st2_eq : forall s t, rewrites long_run (fun _ m' => m' = S_ " ") s t -> st2 s = t.
Proof.
  intros s t R. refine (rewrites_det _ _ long_det _ _ _ _ _ R); [intros; congruence|].
  exact (re_subst_all_rewrites _ _ _ long_match long_found s).
Qed.

Lemma st2_rw : forall s, rewrites long_run (fun _ m' => m' = S_ " ") s (st2 s).
Proof. intro s. exact (re_subst_all_rewrites _ _ _ long_match long_found s). Qed.

Lemma st1_char : forall c s, (forall w r, c :: s = [gt] ++ w ++ [lt] ++ r -> w <> [] -> ~ blanks w) ->
  st1 (c :: s) = c :: st1 s.
Proof.
  intros c s H. apply st1_eq. apply rw_char; [|apply st1_rw].
  intros m r E B. destruct B as [w r Hw W]. rewrite <- !app_assoc in E. exact (H w r E Hw W).
Qed.

Lemma st1_between : forall w r, w <> [] -> blanks w -> st1 ([gt] ++ w ++ [lt] ++ r) = S_ "> <" ++ st1 r.
Proof.
  intros w r Hw W. apply st1_eq.
  replace ([gt] ++ w ++ [lt] ++ r) with (([gt] ++ w ++ [lt]) ++ r) by (rewrite <- !app_assoc; reflexivity).
  apply rw_match; [discriminate | now constructor | reflexivity | apply st1_rw].
Qed.

Lemma st1_blanks : forall w r, blanks w -> st1 (w ++ r) = w ++ st1 r.
Proof.
  intros w r W. induction W as [|c w Hc W IH]; [reflexivity|]. cbn [app].
  rewrite st1_char, IH; [reflexivity|]. intros w' r' E. injection E as -> _. discriminate Hc.
Qed.

Lemma st1_first : forall s, no_blank_first s -> no_blank_first (st1 s).
Proof.
  intros s F c r E K. destruct s as [|d s].
  - discriminate E.
  - assert (H : exists r', st1 (d :: s) = d :: r').
    { pose proof (st1_rw (d :: s)) as R. inversion R as [|? ? u Hn R1|m m' r0 u Hm Lm Fm R2 E1]; subst.
      - eexists. reflexivity.
      - destruct Lm as [w r0 Hw W]. injection E1 as <- _. eexists. reflexivity. }
    destruct H as (r' & H). rewrite H in E. injection E as -> _. exact (F _ _ eq_refl K).
Qed.

Lemma st2_char : forall c s, ~ blank c -> st2 (c :: s) = c :: st2 s.
Proof.
  intros c s H. apply st2_eq. apply rw_char; [|apply st2_rw]. intros m r E L.
  destruct (long_blanks _ _ L) as (B & _ & Hm). destruct m as [|d m]; [contradiction|].
  injection E as <- _. inversion B; contradiction.
Qed.

Lemma st2_run : forall w r, long_run w r -> st2 (w ++ r) = S_ " " ++ st2 r.
Proof.
  intros w r L. apply st2_eq. apply rw_match; [exact (proj2 (proj2 (long_blanks _ _ L))) | exact L | reflexivity | apply st2_rw].
Qed.

Lemma st2_single : forall c r, blank c -> c <> 0xD -> c <> 0xA -> no_blank_first r -> st2 (c :: r) = c :: st2 r.
Proof.
  intros c r B H1 H2 F. apply st2_eq. apply rw_char; [|apply st2_rw]. intros m r' E L.
  destruct (long_blanks _ _ L) as (B' & F' & _).
  destruct (run_unique [c] m r r') as [<- <-]; try assumption.
  - constructor; [exact B | constructor].
  - inversion L as [? ? Hl|? ? Hc]; subst; [cbn in Hl; lia | tauto].
Qed.

Lemma run_split : forall s, exists w r, s = w ++ r /\ blanks w /\ no_blank_first r.
Proof.
  intro s. destruct (trim_start_spec s) as (w & W & E & F). exists w, (trim_start s). repeat split; assumption.
Qed.

Lemma squeeze : forall n s p, (length s <= n)%nat ->
  (p = Some gt -> forall w r, s = w ++ [lt] ++ r -> w <> [] -> ~ blanks w) ->
  squeezed p s (st2 (st1 s)).
Proof.
  induction n as [|n IH]; intros s p Hn Hp.
  - destruct s; [constructor | cbn in Hn; lia].
  - destruct s as [|c s]; [constructor|]. cbn [length] in Hn. destruct (is_whitespace c) eqn:Ec.
    + destruct (run_split s) as (w & r & -> & W & F). rewrite app_length in Hn.
      change (c :: w ++ r) with ((c :: w) ++ r) in *.
      assert (W' : blanks (c :: w)) by (constructor; assumption).
      rewrite st1_blanks by exact W'.
      assert (Hr : squeezed None r (st2 (st1 r))) by (apply IH; [lia | discriminate]).
      pose proof (st1_first _ F) as F1.
      assert (Hg : ~ (p = Some gt /\ exists r', r = lt :: r')).
      { intros [Ep (r' & ->)]. exact (Hp Ep (c :: w) r' eq_refl ltac:(discriminate) W'). }
      assert (D : long_run (c :: w) (st1 r) \/ (w = [] /\ c <> 0xD /\ c <> 0xA)).
      { destruct w as [|d w].
        - destruct (N.eq_dec c 0xD) as [-> | N1]; [left; apply lr_end; auto|].
          destruct (N.eq_dec c 0xA) as [-> | N2]; [left; apply lr_end; auto|]. right. auto.
        - left. apply lr_run; [cbn; lia | exact W' | exact F1]. }
      destruct D as [D | (-> & N1 & N2)].
      * rewrite (st2_run _ _ D). apply sq_run; [discriminate | exact W' | exact F | | exact Hr].
        apply sr_many. intros d Ed. inversion D as [? ? Hl|? ? Hc]; subst.
        -- rewrite Ed in Hl. cbn in Hl. lia.
        -- injection Ed as ->. destruct Hc as [-> | ->]; auto.
      * cbn [app]. rewrite st2_single by assumption.
        apply (sq_run p [c] [c] r); [discriminate | exact W' | exact F | | exact Hr].
        apply (sr_one p [c] r c); auto.
    + assert (Nc : ~ blank c) by (unfold blank; congruence).
      destruct (N.eq_dec c gt) as [-> | Ng].
      * destruct (run_split s) as (w & r & -> & W & F). rewrite app_length in Hn.
        assert (D : (w <> [] /\ exists r', r = lt :: r') \/ ~ (w <> [] /\ exists r', r = lt :: r')).
        { destruct w as [|d w]; [right; tauto|]. destruct r as [|e r]; [right; intros [_ (? & ?)]; discriminate|].
          destruct (N.eq_dec e lt) as [-> | Ne]; [left; split; [discriminate | eauto] | right].
          intros [_ (? & K)]. injection K as -> _. contradiction. }
        destruct D as [(Hw & r' & ->) | D].
        -- change (gt :: w ++ lt :: r') with ([gt] ++ w ++ [lt] ++ r').
           rewrite (st1_between w r' Hw W). change (S_ "> <" ++ st1 r') with (gt :: [0x20] ++ lt :: st1 r').
           rewrite st2_char by discriminate.
           assert (E : st2 ([0x20] ++ lt :: st1 r') = [0x20] ++ lt :: st2 (st1 r')).
           { cbn [app]. rewrite st2_single; try discriminate; [|reflexivity|].
             - rewrite st2_char by discriminate. reflexivity.
             - intros d x Hd. injection Hd as <- _. discriminate. }
           rewrite E. apply sq_char; [discriminate|].
           apply (sq_run (Some gt) w [0x20] ([lt] ++ r')); [exact Hw | exact W | exact F | |].
           ++ apply sr_many. intros d _. right; right. split; [reflexivity | exists r'; reflexivity].
           ++ apply sq_char; [discriminate|]. apply IH; [cbn in Hn; lia | discriminate].
        -- assert (Hx : forall w0 r0, w ++ r = w0 ++ [lt] ++ r0 -> w0 <> [] -> ~ blanks w0).
           { intros w0 r0 E Hw0 W0. apply D. destruct (run_unique w w0 r ([lt] ++ r0)) as [-> ->]; try assumption.
             - intros d x Hd. injection Hd as <- _. discriminate.
             - split; [exact Hw0 | exists r0; reflexivity]. }
           rewrite st1_char, st2_char by (try discriminate; intros w0 r0 E; injection E as E; exact (Hx w0 r0 E)).
           apply sq_char; [discriminate|]. apply IH; [rewrite app_length; lia|]. intros _. exact Hx.
      * rewrite st1_char, st2_char; [|exact Nc | intros w r E; injection E as -> _; contradiction].
        apply sq_char; [exact Nc|]. apply IH; [lia|]. intro K. injection K as ->. contradiction.
Qed.

Lemma squeezed_run_det : forall p w r a b, w <> [] -> squeezed_run p w r a -> squeezed_run p w r b -> a = b.
Proof.
  intros p w r a b Hw H H'. destruct H as [c -> H1 H2 H3|H].
  - destruct H' as [c' E _ _ _|H']; [congruence|]. exfalso. destruct (H' c eq_refl) as [K | [K | K]]; contradiction.
  - destruct H' as [c' -> H1 H2 H3|H']; [|reflexivity]. exfalso. destruct (H c' eq_refl) as [K | [K | K]]; contradiction.
Qed.

Lemma squeezed_det : forall p s t, squeezed p s t -> forall t', squeezed p s t' -> t = t'.
Proof.
  intros p s t R. induction R as [p|p c s t Hc R IH|p w w' r t Hw W F Hr R IH]; intros t' R'.
  - inversion R' as [|? ? ? ? ? ?|p0 w w' r t0 Hw W F Hr R0 Ep E Et]; [reflexivity|]. destruct w; [congruence | discriminate].
  - inversion R' as [| ? ? ? ? ? R2|p0 w w' r t0 Hw W F Hr R0 Ep E Et]; [f_equal; auto|].
    exfalso. destruct w; [congruence|]. injection E as -> _. inversion W; contradiction.
  - inversion R' as [p0 Ep E1 E2|p0 c ? ? Hc R2 Ep E1 E2|p0 w2 w2' r2 u Hw2 W2 F2 Hr2 R2 Ep E1 E2].
    + exfalso. clear -Hw E1 E2. destruct w; [congruence | discriminate].
    + exfalso. destruct w as [|d w]; [congruence|]. injection E1 as -> _. inversion W; contradiction.
    + destruct (run_unique w w2 r r2) as [<- <-]; try assumption; [now symmetry|].
      rewrite (squeezed_run_det _ _ _ _ _ Hw Hr Hr2), (IH _ R2). reflexivity.
Qed.

(** ** Which sources are left alone *)

Lemma to_lowercase_starts : forall lu p s, lower_ok lu -> (forall x, In x p -> In x (S_ "<textarp")) ->
  ((exists t, to_lowercase lu s = p ++ t) <-> exists b c, s = b ++ c /\ map low b = p).
Proof.
  intros lu p s HL. revert s. induction p as [|a p IH]; intros s Hp.
  - split; [intros _; exists [], s; split; reflexivity|]. intros _. exists (to_lowercase lu s). reflexivity.
  - assert (Hp' : forall x, In x p -> In x (S_ "<textarp")) by (intros; apply Hp; now right).
    split.
    + intros [t Et]. destruct s as [|c s]; [discriminate|]. cbn [to_lowercase flat_map] in Et.
      destruct (N.ltb_spec c 0x80) as [Hc|Hc].
      * cbn [app] in Et. injection Et as Ea Et. destruct (proj1 (IH s Hp')) as (b & d & -> & <-); [exists t; exact Et|].
        exists (c :: b), d. split; [reflexivity|]. cbn [map]. unfold low at 1. rewrite Ea. reflexivity.
      * exfalso. destruct (HL c Hc) as [Hne Hx]. destruct (lu c) as [|x l]; [contradiction|].
        injection Et as -> _. apply (Hx a (or_introl eq_refl)). apply Hp. now left.
    + intros (b & d & -> & E). destruct b as [|c b]; [discriminate|]. injection E as Ea Eb.
      destruct (proj2 (IH (b ++ d) Hp')) as [t Et]; [exists b, d; split; [reflexivity | exact Eb]|].
      exists t. cbn [app to_lowercase flat_map]. destruct (N.ltb_spec c 0x80) as [Hc|Hc].
      * unfold low in Ea. rewrite Ea. cbn [app]. f_equal. exact Et.
      * exfalso. specialize (Hp a (or_introl eq_refl)). unfold low in Ea.
        destruct ((0x41 <=? c) && (c <=? 0x5A)) eqn:E2; [lia|]. subst a. cbn in Hp. lia.
Qed.

Lemma contains_lower : forall lu p s, lower_ok lu -> p <> [] -> (forall x, In x p -> In x (S_ "<textarp")) ->
  contains p (to_lowercase lu s) = true <-> mentions p s.
Proof.
  intros lu p s HL Hne Hp. rewrite contains_spec. split.
  - intros (a & b & E). revert a E. induction s as [|c s IH]; intros a E.
    + exfalso. cbn in E. destruct a; destruct p; try discriminate. contradiction.
    + destruct a as [|x a].
      * destruct (proj1 (to_lowercase_starts lu p (c :: s) HL Hp)) as (b' & d & -> & Eb); [exists b; exact E|].
        exists [], b', d. split; [reflexivity | exact Eb].
      * (* a position inside the lower case of the first character has no match *)
        cbn [to_lowercase flat_map] in E. change (flat_map _ s) with (to_lowercase lu s) in E.
        assert (exists a', to_lowercase lu s = a' ++ p ++ b) as [a' Ea].
        { destruct (N.ltb_spec c 0x80) as [Hc|Hc].
          - cbn [app] in E. injection E as _ E. exists a. exact E.
          - destruct (HL c Hc) as [_ Hx]. revert E Hx. generalize (x :: a) as u. generalize (lu c) as v.
            induction v as [|y v IHv]; intros u E Hx.
            + exists u. exact E.
            + destruct u as [|z u].
              * exfalso. destruct p as [|q p]; [contradiction|]. injection E as -> _.
                apply (Hx q (or_introl eq_refl)). apply Hp. now left.
              * injection E as _ E. apply (IHv u E). intros k Ik. apply Hx. now right. }
        destruct (IH a' Ea) as (a2 & b2 & c2 & -> & Eb). exists (c :: a2), b2, c2. split; [reflexivity | exact Eb].
  - intros (a & b & d & -> & Eb). destruct (proj2 (to_lowercase_starts lu p (b ++ d) HL Hp)) as [t Et].
    + exists b, d. split; [reflexivity | exact Eb].
    + exists (to_lowercase lu a), t. rewrite <- Et. unfold to_lowercase. apply flat_map_app.
Qed.

Definition preformatted (s : str) : Prop := mentions (S_ "<textarea") s \/ mentions (S_ "<pre") s.

Lemma condense_whitespace_spec : forall lu s, lower_ok lu ->
  (preformatted s /\ trims s (condense_whitespace lu s)) \/
  (~ preformatted s /\ squeezed None s (condense_whitespace lu s)).
Proof.
  intros lu s HL. unfold condense_whitespace, preformatted.
  assert (P1 : contains (S_ "<textarea") (to_lowercase lu s) = true <-> mentions (S_ "<textarea") s).
  { apply contains_lower; [exact HL | discriminate|]. cbn. intuition. }
  assert (P2 : contains (S_ "<pre") (to_lowercase lu s) = true <-> mentions (S_ "<pre") s).
  { apply contains_lower; [exact HL | discriminate|]. cbn. intuition. }
  destruct (contains (S_ "<textarea") (to_lowercase lu s)) eqn:E1.
  - left. split; [left; now apply P1 | apply trim_trims].
  - destruct (contains (S_ "<pre") (to_lowercase lu s)) eqn:E2.
    + left. split; [right; now apply P2 | apply trim_trims].
    + right. split.
      * intros [K | K]; [apply P1 in K | apply P2 in K]; congruence.
      * apply (squeeze (length s)); [reflexivity | discriminate].
Qed.

(** ** What squeezing gives *)

Lemma squeezed_head : forall p s t, squeezed p s t -> no_blank_first s -> no_blank_first t.
Proof.
  intros p s t R F. inversion R as [|? c s' t' Hc|? w w' r t' Hw W]; subst.
  - exact F.
  - intros d x E. injection E as <- _. exact Hc.
  - exfalso. destruct w as [|c w]; [contradiction|]. apply (F c (w ++ r) eq_refl). inversion W; assumption.
Qed.

Lemma squeezed_run_one : forall p w r w', w <> [] -> blanks w -> squeezed_run p w r w' ->
  exists c, w' = [c] /\ blank c /\ c <> 0xD /\ c <> line_end.
Proof.
  intros p w r w' Hw W H. destruct H as [c -> H1 H2 _|_].
  - exists c. inversion W. auto.
  - exists 0x20. repeat split; discriminate.
Qed.

Lemma tidy_cons : forall c s, (~ blank c \/ no_blank_first s) -> tidy s -> tidy (c :: s).
Proof.
  intros c s H T [|x a] b d r E [B D].
  - injection E as -> ->. destruct H as [H|H]; [contradiction | exact (H d r eq_refl D)].
  - injection E as -> ->. exact (T a b d r eq_refl (conj B D)).
Qed.

Lemma squeezed_tidy : forall p s t, squeezed p s t -> tidy t /\ ~ In 0xD t /\ ~ In line_end t.
Proof.
  intros p s t R. induction R as [p|p c s t Hc R (T & C1 & C2)|p w w' r t Hw W F Hr R (T & C1 & C2)].
  - repeat split; try (intros []; fail). intros [|] ? ? ? E; discriminate.
  - repeat split.
    + apply tidy_cons; [now left | exact T].
    + intros [-> | I]; [apply Hc; reflexivity | contradiction].
    + intros [-> | I]; [apply Hc; reflexivity | contradiction].
  - destruct (squeezed_run_one _ _ _ _ Hw W Hr) as (c & -> & B & N1 & N2). cbn [app]. repeat split.
    + apply tidy_cons; [right | exact T]. exact (squeezed_head _ _ _ R F).
    + intros [-> | I]; contradiction.
    + intros [-> | I]; contradiction.
Qed.

Lemma skeleton_first : forall s, no_blank_first s -> forall r, skeleton s <> 0x20 :: r.
Proof.
  intros [|c s] F r E; [discriminate|]. cbn in E. destruct (is_whitespace c) eqn:Ec.
  - exact (F c s eq_refl Ec).
  - injection E as -> _. discriminate.
Qed.

Lemma skeleton_run : forall w r, w <> [] -> blanks w -> no_blank_first r -> skeleton (w ++ r) = 0x20 :: skeleton r.
Proof.
  intros w r Hw W F. induction W as [|c w Hc W IH]; [contradiction|]. cbn [app skeleton]. unfold blank in Hc. rewrite Hc.
  destruct w as [|d w].
  - cbn [app]. pose proof (skeleton_first r F) as H. destruct (skeleton r) as [|e u]; [reflexivity|].
    destruct e as [|e]; [reflexivity|].
    do 6 (try destruct e as [e|e|]; try reflexivity). exfalso. exact (H _ eq_refl).
  - rewrite IH by discriminate. reflexivity.
Qed.

Lemma squeezed_skeleton : forall p s t, squeezed p s t -> skeleton t = skeleton s /\ (length t <= length s)%nat.
Proof.
  intros p s t R. induction R as [p|p c s t Hc R [IH IL]|p w w' r t Hw W F Hr R [IH IL]].
  - split; reflexivity.
  - split; [|cbn; lia]. cbn. unfold blank in Hc. destruct (is_whitespace c); [congruence | now rewrite IH].
  - destruct (squeezed_run_one _ _ _ _ Hw W Hr) as (c & -> & B & _ & _). split.
    + rewrite (skeleton_run [c] t), (skeleton_run w r), IH; try assumption; try discriminate; [reflexivity| |].
      * constructor; [exact B | constructor].
      * exact (squeezed_head _ _ _ R F).
    + rewrite !app_length. destruct w; [contradiction | cbn; lia].
Qed.
