(** Consequences: items, licences, comments, re-minification, and the length bound. *)
From Coq Require Import String Arith List NArith ZArith Bool Lia.
From Verif Require Import Base CssModel CssSpec CssProofs1 CssProofs2 CssProofs3 CssProofs4 CssProofs5.
Import ListNotations.
Open Scope N_scope.

Definition lic_of_items (l : list item) : list str :=
  flat_map (fun i => match i with ILic b => [b] | _ => [] end) l.

Lemma licences_items_from : forall ps w,
  lic_of_items (items_from w ps) = flat_map (fun p => match p with PLic b => [b] | _ => [] end) ps.
Proof.
  assert (F : forall w l, lic_of_items (flush w l) = lic_of_items l) by (intros [|c w] l; reflexivity).
  induction ps as [|p ps IH]; intro w; cbn [items_from flat_map].
  - rewrite F. reflexivity.
  - destruct p; cbn [app]; rewrite ?F; try apply IH;
      change (lic_of_items (?i :: ?l)) with ((match i with ILic b => [b] | _ => [] end) ++ lic_of_items l);
      rewrite IH; reflexivity.
Qed.

Lemma licences_items : forall s, licences s = lic_of_items (items s).
Proof. intro s. unfold licences, items. rewrite licences_items_from. reflexivity. Qed.

(** The punctuation of a text, from its items. *)
Fixpoint item_problem (depth : nat) (bracket : bool) (l : list item) (e : option lexerr) : option str :=
  match l with
  | [] =>
      match e with
      | None => None
      | Some UnclosedString => Some (S_ "Unclosed string")
      | Some UnclosedComment => Some (S_ "Unclosed comment")
      end
  | IPunct c :: r =>
      if c =? 0x5B then
        if bracket then Some (S_ "Already in attribute selector") else item_problem depth true r e
      else if c =? 0x5D then
        if bracket then item_problem depth false r e else Some (S_ "Unexpected ']'")
      else if c =? 0x7B then item_problem (S depth) bracket r e
      else if c =? 0x7D then
        match depth with
        | O => Some (S_ "Too much '}'")
        | S d => item_problem d bracket r e
        end
      else item_problem depth bracket r e
  | _ :: r => item_problem depth bracket r e
  end.

Lemma problem_items : forall ps w depth bracket e,
  problem depth bracket ps e = item_problem depth bracket (items_from w ps) e.
Proof.
  assert (F : forall w l d b e, item_problem d b (flush w l) e = item_problem d b l e) by (intros [|c w] l; reflexivity).
  induction ps as [|p ps IH]; intros w depth bracket e; cbn [items_from problem].
  - rewrite F. reflexivity.
  - destruct p; rewrite ?F; cbn [item_problem]; try apply IH.
    destruct (c =? 91). { destruct bracket; [reflexivity|apply IH]. }
    destruct (c =? 93). { destruct bracket; [apply IH|reflexivity]. }
    destruct (c =? 123); [apply IH|].
    destruct (c =? 125). { destruct depth; [reflexivity|apply IH]. }
    apply IH.
Qed.

Lemma no_comment_tps : forall out, Forall (fun t => is_comment t = false) out ->
  flat_map (fun p => match p with PCom b => [b] | _ => [] end) (tps out) = [].
Proof.
  induction out as [|t out IH]; intro H; [reflexivity|]. inversion H; subst.
  rewrite tps_cons, flat_map_app, IH by assumption. rewrite app_nil_r.
  assert (W : forall s, flat_map (fun p => match p with PCom b => [b] | _ => [] end) (wordp s) = []).
  { intros [|c s]; [reflexivity|]. unfold wordp. generalize (c :: s) as l. induction l; [reflexivity|exact IHl]. }
  destruct t as [| |k|s|e|s|o|o]; try discriminate; cbn [tp]; try reflexivity; try apply W.
  - destruct k; reflexivity.
  - destruct e as [s|s|s|s|s]; cbn [flat_map app]; try apply W. rewrite flat_map_app, W. reflexivity.
Qed.

Section Alpha.
Variable alpha : N -> bool.

Lemma css_ok_no_problem : forall s o, css_minify alpha s = Ok o -> css_problem s = None.
Proof.
  intros s o H. pose proof (css_minify_cases alpha s) as Hc. destruct (css_problem s); [congruence|reflexivity].
Qed.

Lemma css_main : forall s o, css_minify alpha s = Ok o -> regular s ->
  items o = items s /\ snd (lex o) = None /\ licences o = licences s /\ comments o = [] /\
  regular o /\ css_problem o = None.
Proof.
  intros s o H Hreg. destruct (css_output_lexes alpha s o H Hreg) as (out & y & Hl & Hc & Hx & Hi).
  assert (E : items o = items s).
  { unfold items. rewrite Hl. cbn [fst]. rewrite <- (xrun_items _ _ Hx). exact Hi. }
  split; [exact E|]. rewrite Hl. split; [reflexivity|]. split.
  { rewrite !licences_items, E. reflexivity. }
  split. { unfold comments. rewrite Hl. cbn [fst]. apply no_comment_tps. exact Hc. }
  split.
  { unfold regular. rewrite Hl. cbn [fst]. apply xrun_fst in Hx. eapply hrun_regular. exact Hx. }
  unfold css_problem. rewrite Hl. cbn [snd fst]. rewrite (problem_items _ []).
  change (items_from [] (tps out)) with (items_from [] (fst (tps out, @None lexerr))). rewrite <- Hl.
  fold (items o). rewrite E. apply css_ok_no_problem in H. unfold css_problem in H.
  rewrite (problem_items _ []) in H. fold (items s) in H.
  destruct (snd (lex s)) as [e|]; [|exact H].
  clear -H. exfalso. revert H. generalize 0%nat false. induction (items s) as [|i l IH]; intros d b H; cbn in H.
  - destruct e; discriminate.
  - destruct i; try (eapply IH; exact H).
    destruct (c =? 91). { destruct b; [discriminate|eapply IH; exact H]. }
    destruct (c =? 93). { destruct b; [eapply IH; exact H|discriminate]. }
    destruct (c =? 123); [eapply IH; exact H|].
    destruct (c =? 125). { destruct d; [discriminate|eapply IH; exact H]. }
    eapply IH; exact H.
Qed.

Lemma css_again : forall s o, css_minify alpha s = Ok o -> regular s ->
  exists o', css_minify alpha o = Ok o' /\ items o' = items o /\ regular o'.
Proof.
  intros s o H Hreg. destruct (css_main s o H Hreg) as (_ & _ & _ & _ & Hro & Hp).
  pose proof (css_minify_cases alpha o) as Hc. rewrite Hp in Hc. destruct Hc as (v & _ & Hm).
  eexists. split; [exact Hm|]. destruct (css_main o _ Hm Hro) as (A & _ & _ & _ & B & _). auto.
Qed.

(** ** Length *)

Definition psz (p : piece) : nat :=
  match p with
  | PChar _ | PBs | PBlank | PPunct _ => 1
  | PStr t => length t
  | PCom b => 4 + length b
  | PLic b => 5 + length b
  end.

Definition pextra (p : piece) : nat :=
  match p with PChar c => if c =? 0x40 then 1 else 0 | PLic _ => 1 | _ => 0 end.

Definition psize (ps : list piece) : nat := list_sum (map psz ps).
Definition pextras (ps : list piece) : nat := list_sum (map pextra ps).

Definition tlen (t : token) : nat :=
  match t with TComment b => 4 + length b | _ => length (token_show t) end.
Definition tlens (l : list token) : nat := list_sum (map tlen l).

Definition ats (s : str) : nat := length (filter (N.eqb 0x40) s).

Lemma selement_len : forall c e, selement_of alpha c = Some e ->
  (tlen (TSelectorElement e) <= length c + ats c)%nat.
Proof.
  intros [|c v] e H; cbn [selement_of] in H; [discriminate|].
  assert (Hne : forall k, match v with [] => None | _ => Some (k v) end = Some e -> e = k v).
  { intros k E. destruct v; congruence. }
  unfold tlen, token_show. unfold ats. cbn [filter].
  destruct (c =? 0x2E). { rewrite (Hne _ H). cbn. rewrite app_nil_r. lia. }
  destruct (c =? 0x23). { rewrite (Hne _ H). cbn. rewrite app_nil_r. lia. }
  destruct (N.eqb_spec c 0x40).
  { rewrite (Hne _ H). subst c. cbn. rewrite ?app_length. cbn. lia. }
  destruct (c =? 0x3A). { rewrite (Hne _ H). cbn. rewrite app_nil_r. lia. }
  destruct (is_alphabetic alpha c); [|discriminate]. injection H as <-. cbn. rewrite app_nil_r. lia.
Qed.

Lemma tlens_cons : forall t v, tlens (t :: v) = (tlen t + tlens v)%nat.
Proof. reflexivity. Qed.

Lemma tlen_other : forall s, tlen (TOther s) = length s.
Proof. intro s. unfold tlen, token_show. cbn. rewrite app_nil_r. reflexivity. Qed.

Lemma fillp_len : forall st, (tlens (fillp alpha st) <= tlens (mv st) + length (mseg st) + ats (mseg st))%nat.
Proof.
  intro st. unfold fillp. destruct (mseg st) as [|c s] eqn:Em; [lia|]. rewrite <- Em.
  assert (Ho : (tlens (TOther (mseg st) :: mv st) <= tlens (mv st) + length (mseg st) + ats (mseg st))%nat).
  { rewrite tlens_cons, tlen_other. lia. }
  destruct (selector_context _ _ _); [|exact Ho].
  destruct (some_and (is_the_char Colon) (hd_error (mv st))) eqn:Ec.
  - destruct (mcol st); [|exact Ho].
    destruct (selement_of alpha (58 :: mseg st)) as [e|] eqn:Ee; [|exact Ho].
    pose proof (selement_len _ _ Ee) as L. cbn [length ats filter] in L.
    destruct (mv st) as [|t v]; [discriminate|]. cbn [hd_error some_and] in Ec.
    destruct t; try discriminate. cbn [tl]. rewrite !tlens_cons.
    change (tlen (TChar c0)) with 1%nat. unfold ats in *. cbn [filter] in L.
    change (64 =? 58) with false in L. cbn iota in L. lia.
  - destruct (selement_of alpha (mseg st)) as [e|] eqn:Ee; [|exact Ho].
    pose proof (selement_len _ _ Ee) as L. rewrite tlens_cons. lia.
Qed.

Definition mlen (st : pst) : nat := (tlens (mv st) + length (mseg st) + ats (mseg st))%nat.

Lemma pstep_len : forall st p st', pstep alpha st p = Ok st' -> (mlen st' <= mlen st + psz p + pextra p)%nat.
Proof.
  intros st p st' H.
  pose proof (fillp_len st) as L. fold (mlen st) in L.
  assert (Hmk : forall v c b m a e, mlen (mk v c b m a e) = tlens v).
  { intros. unfold mlen. cbn [mv mseg mk length]. change (ats []) with 0%nat. lia. }
  assert (Hc : forall t v, tlens (t :: v) = (tlen t + tlens v)%nat) by reflexivity.
  destruct p as [c| | |t|b|b|c]; cbn [pstep] in H.
  - destruct (mesc st); injection H as <-.
    + rewrite Hmk, Hc. unfold mlen. cbn [tlen token_show]. unfold token_show. cbn [token_chunks concat app length psz]. lia.
    + unfold mlen. cbn [mv mseg]. unfold ats. rewrite filter_app, !app_length. cbn [filter length psz pextra].
      rewrite (N.eqb_sym 64 c). destruct (c =? 64); cbn [length]; lia.
  - injection H as <-. rewrite Hmk, Hc. cbn. lia.
  - injection H as <-. rewrite Hmk. destruct (push_blank _); [rewrite Hc|]; cbn [psz pextra]; [change (tlen (TChar Space)) with 1%nat|]; lia.
  - injection H as <-. rewrite Hmk, Hc. unfold tlen, token_show. cbn. rewrite app_nil_r. lia.
  - injection H as <-. rewrite Hmk, Hc. cbn [tlen psz pextra]. lia.
  - injection H as <-. rewrite Hmk, Hc. unfold tlen, token_show. cbn. rewrite !app_length. cbn. lia.
  - destruct (rchar_of c) as [k|]; [|discriminate].
    assert (Hk : forall col bl m a, (mlen (mk (TChar k :: fillp alpha st) col bl m a false) <= mlen st + psz (PPunct c) + pextra (PPunct c))%nat).
    { intros. rewrite Hmk, Hc. change (tlen (TChar k)) with 1%nat. cbn [psz pextra]. lia. }
    destruct k; try (injection H as <-; apply Hk).
    + destruct (Z.ltb _ _); [discriminate|]. injection H as <-. apply Hk.
    + destruct (mattr st); [discriminate|]. injection H as <-. apply Hk.
    + destruct (mattr st); [|discriminate]. injection H as <-. apply Hk.
    + destruct (equal_operator (fillp alpha st)) as [o|] eqn:Eo; injection H as <-; [|apply Hk].
      rewrite Hmk, Hc. revert L Eo. destruct (fillp alpha st) as [|t v]; [discriminate|].
      rewrite Hc. cbn [tl equal_operator hd_error]. intros L Eo.
      destruct t as [| |k| | | | |]; try discriminate. change (tlen (TChar k)) with 1%nat in L.
      destruct k; try discriminate; injection Eo as <-; cbn [tlen token_show psz pextra]; unfold token_show; cbn; lia.
Qed.

Lemma prun_len : forall ps st v, prun alpha st ps None = Ok v -> (tlens v <= mlen st + psize ps + pextras ps)%nat.
Proof.
  induction ps as [|p ps IH]; intros st v H; cbn [prun] in H.
  - injection H as <-. pose proof (fillp_len st) as L. fold (mlen st) in L.
    assert (R : forall l, tlens (rev l) = tlens l).
    { induction l as [|t l IHl]; [reflexivity|]. cbn [rev]. unfold tlens in *. rewrite map_app, list_sum_app, IHl.
      unfold list_sum. cbn [map fold_right]. lia. }
    rewrite R. cbn. lia.
  - destruct (pstep alpha st p) as [st1| | |] eqn:E; cbn [obind] in H; try discriminate.
    apply IH in H. apply pstep_len in E. unfold psize, pextras, list_sum in *. cbn [map fold_right]. lia.
Qed.

Lemma cz_len : forall l prev calc paren,
  (list_sum (map (fun t => length (token_show t)) (cz prev calc paren l)) <= tlens l)%nat.
Proof.
  unfold tlens, list_sum.
  induction l as [|t l IH]; intros prev calc paren; cbn [cz]; [cbn; lia|].
  destruct (calc_step t calc paren) as [calc' paren'].
  destruct (blankish t) eqn:E.
  - destruct (match prev with Some p => _ | None => true end).
    + cbn [map fold_right]. specialize (IH (Some (if is_comment t then TChar Space else t)) calc' paren').
      assert (length (token_show (if is_comment t then TChar Space else t)) <= tlen t)%nat.
      { destruct t; try discriminate; cbn; lia. }
      lia.
    + cbn [map fold_right]. specialize (IH prev calc' paren'). lia.
  - cbn [map fold_right]. specialize (IH (Some t) calc' paren').
    assert (length (token_show t) <= tlen t)%nat by (destruct t; try discriminate; reflexivity). lia.
Qed.

Lemma ats_app : forall a b, ats (a ++ b) = (ats a + ats b)%nat.
Proof. intros. unfold ats. rewrite filter_app, app_length. reflexivity. Qed.

Lemma ats_cons : forall c s, ats (c :: s) = ((if (c =? 64)%N then 1 else 0) + ats s)%nat.
Proof. intros. unfold ats. cbn [filter]. rewrite (N.eqb_sym 64 c). destruct (c =? 64); reflexivity. Qed.

Definition nlic (ps : list piece) : nat := length (flat_map (fun p => match p with PLic b => [b] | _ => [] end) ps).

Lemma lexf_size : forall n s, (psize (fst (lexf n s)) <= length s)%nat /\
  (pextras (fst (lexf n s)) <= ats s + nlic (fst (lexf n s)))%nat.
Proof.
  induction n as [|n IH]; intro s; [cbn; lia|]. destruct s as [|c r]; [cbn; lia|]. cbn [lexf].
  assert (Hp : forall p x, psize (fst (pcons p x)) = (psz p + psize (fst x))%nat) by reflexivity.
  assert (He : forall p x, pextras (fst (pcons p x)) = (pextra p + pextras (fst x))%nat) by reflexivity.
  assert (Hn : forall p x, nlic (fst (pcons p x)) = (match p with PLic _ => 1 | _ => 0 end + nlic (fst x))%nat).
  { intros p x. unfold nlic. cbn [pcons fst flat_map]. rewrite app_length. destruct p; reflexivity. }
  rewrite ats_cons.
  destruct (c =? 0x5C).
  { destruct r as [|d r]; [cbn; lia|]. rewrite !Hp, !He, !Hn, ats_cons. destruct (IH r). cbn [psz pextra length].
    destruct (d =? 64); lia. }
  destruct ((c =? 0x27) || (c =? 0x22)).
  { destruct (str_body c r) as [[t r']|] eqn:Eb; [|cbn; lia]. rewrite Hp, He, Hn. destruct (IH r').
    apply (str_body_app (length r)) in Eb; [|lia]. subst r. rewrite ats_app. cbn [psz pextra length]. rewrite app_length. lia. }
  destruct ((c =? 0x2F) && match r with d :: _ => d =? 0x2A | [] => false end) eqn:E3.
  { destruct (comment_at (tl r)) as [[p r']|] eqn:Ec; [|cbn; lia]. rewrite Hp, He, Hn. destruct (IH r').
    destruct r as [|d r]; [rewrite andb_false_r in E3; discriminate|]. cbn [tl] in Ec. rewrite ats_cons.
    unfold comment_at in Ec. destruct r as [|x r]; [discriminate|].
    destruct ((x =? 33) || _).
    - destruct (com_body r) as [[b r'']|] eqn:Eb; [|discriminate]. injection Ec as <- <-.
      apply com_body_app in Eb. subst r. rewrite ats_cons, !ats_app. cbn [psz pextra length]. rewrite !app_length.
      cbn [length]. lia.
    - destruct (com_body (x :: r)) as [[b r'']|] eqn:Eb; [|discriminate]. injection Ec as <- <-.
      apply com_body_app in Eb. rewrite Eb. rewrite !ats_app. cbn [psz pextra length]. rewrite !app_length. cbn [length]. lia. }
  destruct (blank_char c). { rewrite Hp, He, Hn. destruct (IH r). cbn [psz pextra length]. destruct (c =? 64); lia. }
  destruct (punct_char c). { rewrite Hp, He, Hn. destruct (IH r). cbn [psz pextra length]. destruct (c =? 64); lia. }
  rewrite Hp, He, Hn. destruct (IH r). cbn [psz pextra length]. destruct (c =? 64); lia.
Qed.

Lemma css_length : forall s o, css_minify alpha s = Ok o ->
  (length o <= length s + ats s + length (licences s))%nat.
Proof.
  intros s o H. pose proof (css_minify_cases alpha s) as Hc. destruct (css_problem s); [congruence|].
  destruct Hc as (v & Hv & Ho). rewrite Ho in H. injection H as <-.
  assert (L : forall l : list token, length (concat (map token_show l)) = list_sum (map (fun t => length (token_show t)) l)).
  { induction l as [|t l IH]; [reflexivity|]. cbn [map concat list_sum fold_right]. rewrite app_length, IH. reflexivity. }
  rewrite L. pose proof (cz_len v None false 0) as L1. pose proof (prun_len _ _ _ Hv) as L2.
  change (mlen pinit) with 0%nat in L2.
  destruct (lexf_size (length s) s) as [L3 L4]. fold (lex s) in L3, L4. unfold nlic in L4. fold (licences s) in L4. lia.
Qed.

(** ** Writing *)

Lemma concat_filter_nonempty : forall l : list str,
  concat (map encode (filter (fun c => match c with [] => false | _ => true end) l)) = encode (concat l).
Proof.
  induction l as [|[|c s] l IH]; [reflexivity|exact IH|].
  cbn [filter map concat]. rewrite IH. rewrite encode_app. reflexivity.
Qed.

Lemma concat_chunks : forall ts, concat (concat (map token_chunks ts)) = concat (map token_show ts).
Proof.
  induction ts as [|t ts IH]; [reflexivity|]. cbn [map concat]. rewrite concat_app, IH. reflexivity.
Qed.

Lemma css_write_spec : forall s w o, css_minify alpha s = Ok o ->
  exists b out, css_write alpha s w = Ok (out, b) /\
  (b = true -> out = encode o) /\ (exists rest, encode o = out ++ rest) /\
  (Forall (fun x => x = None) w -> b = true).
Proof.
  intros s w o H. unfold css_minify in H. unfold css_write.
  destruct (tokenize alpha s) as [ts| | |]; cbn [obind] in *; try discriminate. injection H as <-.
  destruct (write_chunks _ w) as [out b] eqn:E. exists b, out. split; [reflexivity|].
  rewrite <- concat_chunks, <- concat_filter_nonempty. split; [|split].
  - intros ->. eapply write_chunks_ok. exact E.
  - eapply write_chunks_prefix. exact E.
  - intro F. rewrite (write_chunks_all_accept _ _ _ F) in E. congruence.
Qed.

End Alpha.
