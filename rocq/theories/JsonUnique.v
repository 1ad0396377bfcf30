(** The JSON grammar of JsonSpec is unambiguous: a text has at most one value. *)
From Coq Require Import String List NArith Bool Lia.
From Verif Require Import Base JsonSpec JsonProofs.
Import ListNotations.
Open Scope N_scope.

(** Characters of numbers and of the three names. *)
Definition litc (c : N) : bool :=
  digit c || ((0x61 <=? c) && (c <=? 0x7A)) || (c =? 0x2D) || (c =? 0x2B) || (c =? 0x2E) || (c =? 0x45).

Lemma digit_litc : forall c, digit c = true -> litc c = true.
Proof. intros c H. unfold litc. rewrite H. reflexivity. Qed.

Lemma digits_litc : forall s, Forall (fun c => digit c = true) s -> Forall (fun c => litc c = true) s.
Proof. intros s H. eapply Forall_impl; [|exact H]. apply digit_litc. Qed.

Lemma literal_litc : forall l, literal l -> l <> [] /\ Forall (fun c => litc c = true) l.
Proof.
  intros l [(m & i & f & e & Hm & Hi & Hf & He & ->) | [-> | [-> | ->]]].
  - split.
    + intro E. apply app_eq_nil in E. destruct E as [_ E]. apply app_eq_nil in E.
      destruct E as [E _]. destruct Hi; discriminate.
    + repeat (apply Forall_app; split).
      * destruct Hm as [<- | [<- | []]]; repeat constructor.
      * destruct Hi as [|d r Hd _ Hr]; constructor;
          [reflexivity|constructor|apply digit_litc; assumption|apply digits_litc; assumption].
      * destruct Hf as [|ds [_ Hds]]; constructor; [reflexivity|apply digits_litc; assumption].
      * destruct He as [|x sg ds Hx Hsg [_ Hds]]; constructor.
        -- destruct Hx as [<- | [<- | []]]; reflexivity.
        -- apply Forall_app. split; [|apply digits_litc; assumption].
           destruct Hsg as [<- | [<- | [<- | []]]]; repeat constructor.
  - split; [discriminate|repeat constructor].
  - split; [discriminate|repeat constructor].
  - split; [discriminate|repeat constructor].
Qed.

(** [r] is empty or starts with a character on which [P] is false. *)
Definition stops (P : N -> bool) (r : str) : Prop :=
  match r with [] => True | c :: _ => P c = false end.

Lemma span_unique : forall P a a' r r',
  Forall (fun c => P c = true) a -> Forall (fun c => P c = true) a' ->
  stops P r -> stops P r' -> a ++ r = a' ++ r' -> a = a' /\ r = r'.
Proof.
  intros P. induction a as [|c a IH]; intros [|c' a'] r r' Ha Ha' Hr Hr' E; cbn [app] in E.
  - auto.
  - subst r. inversion Ha'; subst. cbn in Hr. congruence.
  - subst r'. inversion Ha; subst. cbn in Hr'. congruence.
  - injection E as <- E. inversion Ha; inversion Ha'; subst.
    destruct (IH a' r r') as [-> ->]; auto.
Qed.

Lemma content_unique : forall c, content c -> forall c' r r', content c' ->
  c ++ q :: r = c' ++ q :: r' -> c = c' /\ r = r'.
Proof.
  induction 1 as [|c r0 H1 H2 H3 H IH|e r0 He H IH|a b c d r0 Ha Hb Hc Hd H IH];
    intros c' r r' H' E.
  - destruct H'; cbn [app] in E; try discriminate E.
    + injection E as E. auto.
    + injection E as E _. congruence.
  - destruct H' as [|c' r0' H1' H2' H3' H'|e' r0' He' H'|a' b' c' d' r0' Ha' Hb' Hc' Hd' H']; cbn [app] in E.
    + injection E as E _. congruence.
    + injection E as <- E. destruct (IH _ _ _ H' E) as [-> ->]. auto.
    + injection E as E _. congruence.
    + injection E as E _. congruence.
  - destruct H' as [|c' r0' H1' H2' H3' H'|e' r0' He' H'|a' b' c' d' r0' Ha' Hb' Hc' Hd' H']; cbn [app] in E.
    + discriminate E.
    + injection E as E _. congruence.
    + injection E as <- E. destruct (IH _ _ _ H' E) as [-> ->]. auto.
    + injection E as E _. subst e. cbn in He.
      repeat (destruct He as [He|He]; [discriminate He|]). destruct He.
  - destruct H' as [|c' r0' H1' H2' H3' H'|e' r0' He' H'|a' b' c' d' r0' Ha' Hb' Hc' Hd' H']; cbn [app] in E.
    + discriminate E.
    + injection E as E _. congruence.
    + injection E as E _. subst e'. cbn in He'.
      repeat (destruct He' as [He'|He']; [discriminate He'|]). destruct He'.
    + injection E as <- <- <- <- E. destruct (IH _ _ _ H' E) as [-> ->]. auto.
Qed.

(** What may follow: a value is followed by whitespace, a separator, a closing
    bracket or nothing; an element by a separator, a closing bracket or nothing. *)
Definition closer (c : N) : Prop := c = 0x2C \/ c = 0x5D \/ c = 0x7D.
Definition after_element (r : str) : Prop :=
  match r with [] => True | c :: _ => closer c end.
Definition after_value (r : str) : Prop :=
  match r with [] => True | c :: _ => closer c \/ json_ws c = true end.

Lemma json_ws_cases : forall c, json_ws c = true -> c = 0x20 \/ c = 9 \/ c = 10 \/ c = 13.
Proof.
  intros c H. unfold json_ws in H. repeat rewrite orb_true_iff in H.
  repeat rewrite N.eqb_eq in H. tauto.
Qed.

Lemma after_element_stops : forall r, after_element r -> stops json_ws r.
Proof. intros [|c r] H; [exact I|]. destruct H as [-> | [-> | ->]]; reflexivity. Qed.

Lemma after_value_stops : forall r, after_value r -> stops litc r.
Proof.
  intros [|c r] H; [exact I|]. destruct H as [[-> | [-> | ->]]|H]; try reflexivity.
  apply json_ws_cases in H. destruct H as [-> | [-> | [-> | ->]]]; reflexivity.
Qed.

Lemma after_value_ws : forall w r, ws w -> after_element r -> after_value (w ++ r).
Proof.
  intros [|c w] r Hw Hr; cbn [app].
  - destruct r; [exact I|]. left. exact Hr.
  - right. inversion Hw; assumption.
Qed.

(** Values do not start with whitespace. *)
Lemma value_text_head : forall v t, value_text v t -> exists c t', t = c :: t' /\ json_ws c = false.
Proof.
  destruct 1 as [l Hl|c Hc|w Hw|vs t Ht|w Hw|ms t Ht]; try (do 2 eexists; split; [reflexivity|reflexivity]).
  destruct (literal_litc l Hl) as [Hne Hall]. destruct l as [|c l]; [congruence|].
  exists c, l. split; [reflexivity|]. inversion Hall as [|? ? Hc _]; subst.
  destruct (json_ws c) eqn:W; [|reflexivity]. apply json_ws_cases in W.
  destruct W as [-> | [-> | [-> | ->]]]; discriminate Hc.
Qed.

Lemma lead_ws : forall v t v' t' w w' r r', value_text v t -> value_text v' t' -> ws w -> ws w' ->
  w ++ t ++ r = w' ++ t' ++ r' -> w = w' /\ t ++ r = t' ++ r'.
Proof.
  intros v t v' t' w w' r r' H H' Hw Hw' E.
  apply (span_unique json_ws); try assumption.
  - destruct (value_text_head v t H) as (c & t0 & -> & Hc). exact Hc.
  - destruct (value_text_head v' t' H') as (c & t0 & -> & Hc). exact Hc.
Qed.

Definition starts_litc (t : str) : Prop := exists c t', t = c :: t' /\ litc c = true.

(** Elements and members of non-empty lists do not start with a closing bracket
    after optional whitespace. *)
Lemma elements_head : forall vs t, elements_text vs t ->
  exists w v t' r, ws w /\ value_text v t' /\ t = w ++ t' ++ r.
Proof.
  intros vs t H. destruct H as [v t H|v t vs ts H _]; destruct H as [v w1 t w2 H1 H H2].
  - exists w1, v, t, w2. auto.
  - exists w1, v, t, (w2 ++ S_ "," ++ ts). rewrite <- !app_assoc. auto.
Qed.

Lemma value_head_not : forall v t c t', value_text v t -> t = c :: t' ->
  c <> 0x5D /\ c <> 0x7D /\ c <> 0x2C /\ c <> 0x3A.
Proof.
  intros v t c t' H E. destruct H as [l Hl|cc Hc|w Hw|vs t Ht|w Hw|ms t Ht];
    try (cbn in E; injection E as <- _; repeat split; discriminate).
  destruct (literal_litc l Hl) as [_ Hall]. subst l. inversion Hall as [|? ? Hc _]; subst.
  repeat split; intros ->; discriminate Hc.
Qed.

Lemma members_head : forall ms t, members_text ms t ->
  exists w r, ws w /\ t = w ++ q :: r.
Proof.
  intros ms t H. destruct H as [m t H|m t ms ts H _]; destruct H as [c v w1 w2 t H1 Hc H2 H].
  - eexists w1, _. split; [assumption|]. cbn [app]. reflexivity.
  - eexists w1, _. split; [assumption|]. cbn [app]. rewrite <- !app_assoc. cbn [app]. reflexivity.
Qed.

Lemma closer_comma : closer 0x2C. Proof. left. reflexivity. Qed.
Lemma closer_brack : closer 0x5D. Proof. right. left. reflexivity. Qed.
Lemma closer_brace : closer 0x7D. Proof. right. right. reflexivity. Qed.

Lemma ws_vs_elements : forall w vs t r r', ws w -> elements_text vs t ->
  w ++ 0x5D :: r = t ++ r' -> False.
Proof.
  intros w vs t r r' Hw Ht E.
  destruct (elements_head vs t Ht) as (w' & v & t' & r2 & Hw' & Hv & ->).
  rewrite <- !app_assoc in E.
  destruct (value_text_head _ _ Hv) as (c & t0 & -> & Hc).
  destruct (span_unique json_ws w w' (0x5D :: r) ((c :: t0) ++ r2 ++ r')) as [_ A]; auto.
  - reflexivity.
  - cbn [app] in A. injection A as A _.
    destruct (value_head_not _ _ c t0 Hv eq_refl) as [B _]. congruence.
Qed.

Lemma ws_vs_members : forall w ms t r r', ws w -> members_text ms t ->
  w ++ 0x7D :: r = t ++ r' -> False.
Proof.
  intros w ms t r r' Hw Ht E.
  destruct (members_head ms t Ht) as (w' & r2 & Hw' & ->).
  rewrite <- !app_assoc in E.
  destruct (span_unique json_ws w w' (0x7D :: r) ((q :: r2) ++ r')) as [_ A]; auto;
    try reflexivity. discriminate A.
Qed.

Lemma unique_mut :
  (forall v t (_ : value_text v t), forall v' t' r r', value_text v' t' ->
     t ++ r = t' ++ r' -> after_value r -> after_value r' -> v = v' /\ r = r') /\
  (forall v t (_ : element_text v t), forall v' t' r r', element_text v' t' ->
     t ++ r = t' ++ r' -> after_element r -> after_element r' -> v = v' /\ r = r') /\
  (forall vs t (_ : elements_text vs t), forall vs' t' r r', elements_text vs' t' ->
     t ++ 0x5D :: r = t' ++ 0x5D :: r' -> vs = vs' /\ r = r') /\
  (forall m t (_ : member_text m t), forall m' t' r r', member_text m' t' ->
     t ++ r = t' ++ r' -> after_element r -> after_element r' -> m = m' /\ r = r') /\
  (forall ms t (_ : members_text ms t), forall ms' t' r r', members_text ms' t' ->
     t ++ 0x7D :: r = t' ++ 0x7D :: r' -> ms = ms' /\ r = r').
Proof.
  apply json_text_ind.
  - intros l Hl v' t' r r' H' E Hr Hr'.
    destruct (literal_litc l Hl) as [Hne Hall].
    destruct H' as [l' Hl'|c' Hc'|w' Hw'|vs' t' Ht'|w' Hw'|ms' t' Ht'];
      try (destruct l as [|x l]; [congruence|]; inversion Hall as [|? ? Hx _]; subst;
           cbn in E; injection E as E _; subst x; discriminate Hx).
    destruct (literal_litc l' Hl') as [_ Hall'].
    destruct (span_unique litc l l' r r') as [-> ->]; auto using after_value_stops.
  - intros c Hc v' t' r r' H' E Hr Hr'.
    destruct H' as [l' Hl'|c' Hc'|w' Hw'|vs' t' Ht'|w' Hw'|ms' t' Ht'];
      try (cbn in E; discriminate E).
    + destruct (literal_litc l' Hl') as [Hne Hall]. destruct l' as [|x l]; [congruence|].
      inversion Hall as [|? ? Hx _]; subst. cbn in E. injection E as E _. subst x. discriminate Hx.
    + cbn [app] in E. injection E as E. rewrite <- !app_assoc in E. cbn [app] in E.
      destruct (content_unique c Hc c' r r' Hc' E) as [-> ->]. auto.
  - intros w Hw v' t' r r' H' E Hr Hr'.
    destruct H' as [l' Hl'|c' Hc'|w' Hw'|vs' t' Ht'|w' Hw'|ms' t' Ht'];
      try (cbn in E; discriminate E).
    + destruct (literal_litc l' Hl') as [Hne Hall]. destruct l' as [|x l]; [congruence|].
      inversion Hall as [|? ? Hx _]; subst. cbn in E. injection E as E _. subst x. discriminate Hx.
    + cbn in E. injection E as E. rewrite <- !app_assoc in E. cbn [app] in E.
      destruct (span_unique json_ws w w' (0x5D :: r) (0x5D :: r')) as [_ A]; auto; try reflexivity.
      injection A as ->. auto.
    + exfalso. cbn in E. injection E as E. rewrite <- !app_assoc in E. cbn [app] in E.
      eapply ws_vs_elements; eauto.
  - intros vs t Ht IH v' t' r r' H' E Hr Hr'.
    destruct H' as [l' Hl'|c' Hc'|w' Hw'|vs' t' Ht'|w' Hw'|ms' t' Ht'];
      try (cbn in E; discriminate E).
    + destruct (literal_litc l' Hl') as [Hne Hall]. destruct l' as [|x l]; [congruence|].
      inversion Hall as [|? ? Hx _]; subst. cbn in E. injection E as E _. subst x. discriminate Hx.
    + exfalso. cbn in E. injection E as E. rewrite <- !app_assoc in E. cbn [app] in E.
      eapply ws_vs_elements; eauto.
    + cbn in E. injection E as E. rewrite <- !app_assoc in E. cbn [app] in E.
      destruct (IH _ _ _ _ Ht' E) as [-> ->]. auto.
  - intros w Hw v' t' r r' H' E Hr Hr'.
    destruct H' as [l' Hl'|c' Hc'|w' Hw'|vs' t' Ht'|w' Hw'|ms' t' Ht'];
      try (cbn in E; discriminate E).
    + destruct (literal_litc l' Hl') as [Hne Hall]. destruct l' as [|x l]; [congruence|].
      inversion Hall as [|? ? Hx _]; subst. cbn in E. injection E as E _. subst x. discriminate Hx.
    + cbn in E. injection E as E. rewrite <- !app_assoc in E. cbn [app] in E.
      destruct (span_unique json_ws w w' (0x7D :: r) (0x7D :: r')) as [_ A]; auto; try reflexivity.
      injection A as ->. auto.
    + exfalso. cbn in E. injection E as E. rewrite <- !app_assoc in E. cbn [app] in E.
      eapply ws_vs_members; eauto.
  - intros ms t Ht IH v' t' r r' H' E Hr Hr'.
    destruct H' as [l' Hl'|c' Hc'|w' Hw'|vs' t' Ht'|w' Hw'|ms' t' Ht'];
      try (cbn in E; discriminate E).
    + destruct (literal_litc l' Hl') as [Hne Hall]. destruct l' as [|x l]; [congruence|].
      inversion Hall as [|? ? Hx _]; subst. cbn in E. injection E as E _. subst x. discriminate Hx.
    + exfalso. cbn in E. injection E as E. rewrite <- !app_assoc in E. cbn [app] in E.
      eapply ws_vs_members; eauto.
    + cbn in E. injection E as E. rewrite <- !app_assoc in E. cbn [app] in E.
      destruct (IH _ _ _ _ Ht' E) as [-> ->]. auto.
  - intros v w1 t w2 H1 Hv IH H2 v' t' r r' H' E Hr Hr'.
    destruct H' as [v' w1' t' w2' H1' Hv' H2']. rewrite <- !app_assoc in E.
    destruct (lead_ws _ _ _ _ _ _ _ _ Hv Hv' H1 H1' E) as [_ E'].
    destruct (IH _ _ _ _ Hv' E') as [-> E2]; auto using after_value_ws.
    destruct (span_unique json_ws w2 w2' r r') as [_ ->]; auto using after_element_stops.
  - intros v t Ht IH vs' t' r r' H' E.
    destruct H' as [v' t' Ht'|v' t' vs' ts' Ht' Hts'].
    + destruct (IH _ _ _ _ Ht' E closer_brack closer_brack) as [-> A]. injection A as ->. auto.
    + exfalso. rewrite <- !app_assoc in E. cbn [S_ app] in E.
      destruct (IH _ _ _ _ Ht' E closer_brack closer_comma) as [_ A]. discriminate A.
  - intros v t vs ts Ht IH Hts IHs vs' t' r r' H' E.
    destruct H' as [v' t' Ht'|v' t' vs' ts' Ht' Hts'].
    + exfalso. rewrite <- !app_assoc in E. cbn [S_ app] in E.
      destruct (IH _ _ _ _ Ht' E closer_comma closer_brack) as [_ A]. discriminate A.
    + rewrite <- !app_assoc in E. cbn [S_ app] in E.
      destruct (IH _ _ _ _ Ht' E closer_comma closer_comma) as [-> A].
      injection A as A. destruct (IHs _ _ _ _ Hts' A) as [-> ->]. auto.
  - intros c v w1 w2 t H1 Hc H2 Ht IH m' t' r r' H' E Hr Hr'.
    destruct H' as [c' v' w1' w2' t' H1' Hc' H2' Ht'].
    repeat (cbn [app] in E; rewrite <- !app_assoc in E). cbn [app S_] in E.
    destruct (span_unique json_ws w1 w1' (q :: (c ++ [q]) ++ w2 ++ 0x3A :: t ++ r)
      (q :: (c' ++ [q]) ++ w2' ++ 0x3A :: t' ++ r')) as [_ A]; auto; try reflexivity.
    { rewrite <- !app_assoc. cbn [app]. exact E. }
    injection A as A. rewrite <- !app_assoc in A. cbn [app] in A.
    destruct (content_unique c Hc c' _ _ Hc' A) as [-> A2].
    destruct (span_unique json_ws w2 w2' (0x3A :: t ++ r) (0x3A :: t' ++ r')) as [_ A3]; auto; try reflexivity.
    injection A3 as A3. destruct (IH _ _ _ _ Ht' A3 Hr Hr') as [-> ->]. auto.
  - intros m t Ht IH ms' t' r r' H' E.
    destruct H' as [m' t' Ht'|m' t' ms' ts' Ht' Hts'].
    + destruct (IH _ _ _ _ Ht' E closer_brace closer_brace) as [-> A]. injection A as ->. auto.
    + exfalso. rewrite <- !app_assoc in E. cbn [S_ app] in E.
      destruct (IH _ _ _ _ Ht' E closer_brace closer_comma) as [_ A]. discriminate A.
  - intros m t ms ts Ht IH Hts IHs ms' t' r r' H' E.
    destruct H' as [m' t' Ht'|m' t' ms' ts' Ht' Hts'].
    + exfalso. rewrite <- !app_assoc in E. cbn [S_ app] in E.
      destruct (IH _ _ _ _ Ht' E closer_comma closer_brace) as [_ A]. discriminate A.
    + rewrite <- !app_assoc in E. cbn [S_ app] in E.
      destruct (IH _ _ _ _ Ht' E closer_comma closer_comma) as [-> A].
      injection A as A. destruct (IHs _ _ _ _ Hts' A) as [-> ->]. auto.
Qed.

Lemma json_document_unique : forall v v' s, json_document v s -> json_document v' s -> v = v'.
Proof.
  intros v v' s H H'. destruct unique_mut as (_ & A & _).
  destruct (A v s H v' s [] [] H' eq_refl I I) as [-> _]. reflexivity.
Qed.
