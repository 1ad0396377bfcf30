(** The positional tokenizer computes, without panic, a machine that runs over the pieces of
    the specification lexer. *)
From Coq Require Import String Arith List NArith ZArith Bool Lia.
From Verif Require Import Base CssModel CssSpec.
Import ListNotations.
Open Scope N_scope.

Section Alpha.
Variable alpha : N -> bool.

Notation selement_of := (selement_of alpha).
Notation fill_other := (fill_other alpha).
Notation tokenize_loop := (tokenize_loop alpha).

(** ** Reserved characters *)

Lemma rchar_of_inv : forall c k, rchar_of c = Some k ->
  c = rchar_show k \/ (k = Backline /\ c = 0xD).
Proof.
  intros c k H. unfold rchar_of in H.
  repeat match type of H with
  | context [if ?x =? ?y then _ else _] => destruct (N.eqb_spec x y); [injection H as <-; subst; auto|]
  | context [if ?b || ?d then _ else _] =>
      destruct (N.eqb_spec c 0xA); [injection H as <-; subst; auto|];
      destruct (N.eqb_spec c 0xD); [injection H as <-; subst; auto|]; cbn [orb] in H
  end; discriminate.
Qed.

Lemma rchar_of_show : forall k, rchar_of (rchar_show k) = Some k.
Proof. destruct k; reflexivity. Qed.

Lemma rchar_eqb_eq : forall a b, rchar_eqb a b = true <-> a = b.
Proof. intros a b. unfold rchar_eqb. destruct (rchar_eq_dec a b); split; congruence. Qed.

Lemma rchar_eqb_refl : forall a, rchar_eqb a a = true.
Proof. intro a. apply rchar_eqb_eq. reflexivity. Qed.

(** Equality of scanner results up to arithmetic on the positions. *)
Lemma scan_eq : forall (a : token) (b b' c c' : nat) (d : str), b = b' -> c = c' ->
  Ok (Some (a, b, c, d)) = Ok (Some (a, b', c', d)).
Proof. intros. subst. reflexivity. Qed.

Ltac pos_eq := apply scan_eq; lia.

(** ** Comments and strings *)

Definition ends_star (prev : rchar) : str := if rchar_eqb prev Star then [0x2A] else [].

Lemma comment_loop_spec : forall rest source builder cs prev pos pre b0,
  source = pre ++ (b0 ++ ends_star prev) ++ rest ->
  cs = blen pre -> pos = blen (pre ++ (b0 ++ ends_star prev)) ->
  comment_loop source builder cs prev pos rest =
  match com_body (ends_star prev ++ rest) with
  | Some (b, r) =>
      Ok (Some (builder (b0 ++ b), (blen pre + blen b0 + blen b + 1)%nat,
                (blen pre + blen b0 + blen b + 2)%nat, r))
  | None => Ok None
  end.
Proof.
  induction rest as [|c r IH]; intros source builder cs prev pos pre b0 Hs Hcs Hpos.
  - cbn [comment_loop]. rewrite app_nil_r. unfold ends_star.
    destruct (rchar_eqb prev Star); reflexivity.
  - cbn [comment_loop].
    destruct (rchar_of c) as [k|] eqn:Hk.
    + destruct (rchar_eqb k Slash && rchar_eqb prev Star) eqn:E.
      * apply andb_true_iff in E. destruct E as [E1 E2].
        apply rchar_eqb_eq in E1. subst k.
        apply rchar_of_inv in Hk. destruct Hk as [->|[? _]]; [|discriminate].
        unfold ends_star in *. rewrite E2 in *. cbn [app com_body].
        change (0x2A =? 0x2A) with true. change (rchar_show Slash =? 0x2F) with true. cbn [andb].
        cbn [tl]. rewrite !app_nil_r.
        assert (Hp : pos = (blen pre + blen b0 + 1)%nat).
        { rewrite Hpos, !blen_app. cbn. lia. }
        unfold usub. replace (Nat.leb 1 pos) with true by (symmetry; apply Nat.leb_le; lia).
        cbn [obind].
        rewrite (slice_mid_eq source pre b0 ([0x2A] ++ [0x2F] ++ r) cs (pos - 1)).
        -- cbn [oslice obind]. rewrite Hp. cbn [blen].
           replace (len_utf8 (rchar_show Slash)) with 1%nat by reflexivity. pos_eq.
        -- rewrite Hs. rewrite <- !app_assoc. reflexivity.
        -- exact Hcs.
        -- lia.
      * rewrite (IH source builder cs k (pos + len_utf8 c)%nat pre
                  (b0 ++ ends_star prev ++ (if rchar_eqb k Star then [] else [c]))).
        -- destruct (rchar_eqb k Star) eqn:Ek.
           ++ apply rchar_eqb_eq in Ek. subst k.
              apply rchar_of_inv in Hk. destruct Hk as [->|[? _]]; [|discriminate].
              change (rchar_show Star) with 0x2A. change (ends_star Star) with [0x2A].
              rewrite app_nil_r. cbn [app].
              assert (Hp : ends_star prev = [0x2A] \/ ends_star prev = [])
                by (unfold ends_star; destruct (rchar_eqb prev Star); auto).
              destruct Hp as [-> | ->]; cbn [app].
              ** change (com_body (0x2A :: 0x2A :: r)) with
                   (option_map (fun x => (0x2A :: fst x, snd x)) (com_body (0x2A :: r))).
                 destruct (com_body (0x2A :: r)) as [[b r']|]; cbn [option_map fst snd]; [|reflexivity].
                 rewrite <- app_assoc. cbn [app]. rewrite !blen_app. cbn [blen].
                 change (len_utf8 0x2A) with 1%nat. pos_eq.
              ** rewrite app_nil_r.
                 destruct (com_body (0x2A :: r)) as [[b r']|]; reflexivity.
           ++ assert (He : ends_star k = []) by (unfold ends_star; rewrite Ek; reflexivity).
              rewrite He. cbn [app].
              assert (Hstar : (c =? 0x2A) = false).
              { apply N.eqb_neq. intros ->. cbn in Hk. injection Hk as <-. discriminate. }
              unfold ends_star in *. destruct (rchar_eqb prev Star) eqn:Ep; cbn [app].
              ** rewrite andb_true_r in E.
                 assert (Hsl : (c =? 0x2F) = false).
                 { apply N.eqb_neq. intros ->. cbn in Hk. injection Hk as <-. discriminate. }
                 cbn [com_body]. rewrite Hsl, Hstar, andb_false_r. cbn [andb].
                 destruct (com_body r) as [[b r']|]; cbn [option_map fst snd]; [|reflexivity].
                 rewrite <- app_assoc. cbn [app]. rewrite !blen_app. cbn [blen].
                 pos_eq.
              ** cbn [com_body]. rewrite Hstar. cbn [andb].
                 destruct (com_body r) as [[b r']|]; cbn [option_map fst snd]; [|reflexivity].
                 rewrite <- app_assoc. cbn [app]. rewrite !blen_app. cbn [blen].
                 pos_eq.
        -- rewrite Hs. unfold ends_star. destruct (rchar_eqb k Star) eqn:Ek.
           ++ apply rchar_eqb_eq in Ek. subst k.
              apply rchar_of_inv in Hk. destruct Hk as [->|[? _]]; [|discriminate].
              rewrite app_nil_r, <- !app_assoc. reflexivity.
           ++ rewrite app_nil_r, <- !app_assoc. reflexivity.
        -- exact Hcs.
        -- rewrite Hpos. unfold ends_star. destruct (rchar_eqb k Star) eqn:Ek.
           ++ apply rchar_eqb_eq in Ek. subst k.
              apply rchar_of_inv in Hk. destruct Hk as [->|[? _]]; [|discriminate].
              rewrite app_nil_r, !blen_app. cbn. lia.
           ++ rewrite app_nil_r, !blen_app. cbn [blen]. lia.
    + rewrite (IH source builder cs Space (pos + len_utf8 c)%nat pre (b0 ++ ends_star prev ++ [c])).
      * change (ends_star Space) with (@nil N). cbn [app].
        assert (Hstar : (c =? 0x2A) = false).
        { apply N.eqb_neq. intros ->. cbn in Hk. discriminate. }
        assert (Hsl : (c =? 0x2F) = false).
        { apply N.eqb_neq. intros ->. cbn in Hk. discriminate. }
        unfold ends_star. destruct (rchar_eqb prev Star); cbn [app com_body]; rewrite ?Hsl, Hstar, ?andb_false_r; cbn [andb];
          (destruct (com_body r) as [[b r']|]; cbn [option_map fst snd]; [|reflexivity]);
          rewrite <- app_assoc; cbn [app]; rewrite !blen_app; cbn [blen]; pos_eq.
      * rewrite Hs. change (ends_star Space) with (@nil N). rewrite app_nil_r, <- !app_assoc. reflexivity.
      * exact Hcs.
      * rewrite Hpos. change (ends_star Space) with (@nil N). rewrite app_nil_r, !blen_app. cbn [blen]. lia.
Qed.

Lemma com_body_app : forall s b r, com_body s = Some (b, r) -> s = b ++ [0x2A; 0x2F] ++ r.
Proof.
  induction s as [|c s IH]; intros b r H; cbn [com_body] in H; [discriminate|].
  destruct ((c =? 0x2A) && match s with d :: _ => d =? 0x2F | [] => false end) eqn:E.
  - injection H as <- <-. apply andb_true_iff in E. destruct E as [E1 E2].
    apply N.eqb_eq in E1. subst c. destruct s as [|d s]; [discriminate|].
    apply N.eqb_eq in E2. subst d. reflexivity.
  - destruct (com_body s) as [[b' r']|]; cbn [option_map fst snd] in H; [|discriminate].
    injection H as <- <-. cbn [app]. f_equal. apply IH. reflexivity.
Qed.

Definition piece_token (p : piece) : token :=
  match p with
  | PCom b => TComment b
  | PLic b => TLicense b
  | PStr t => TString t
  | PChar c => TOther [c]
  | PBs => TChar Backslash
  | PBlank => TChar Space
  | PPunct c => match rchar_of c with Some k => TChar k | None => TOther [c] end
  end.

(** get_comment in terms of [comment_at]; [pre] ends with the opening slash star. *)
Lemma get_comment_spec : forall source pre0 rest,
  source = (pre0 ++ [0x2F; 0x2A]) ++ rest ->
  match comment_at rest with
  | Some (p, r) =>
      exists mid,
        rest = mid ++ [0x2F] ++ r /\
        get_comment source (blen pre0 + 2) rest (blen pre0 + 1) =
          Ok (Some (piece_token p, (blen pre0 + 2 + blen mid)%nat, (blen pre0 + 2 + blen mid + 1)%nat, r))
  | None => get_comment source (blen pre0 + 2) rest (blen pre0 + 1) = Ok None
  end.
Proof.
  intros source pre0 rest Hs. unfold comment_at, get_comment.
  destruct rest as [|c r0]; [reflexivity|].
  replace (match r0 with [] => false | d :: _ => d =? 47 end)
    with (some_and (fun d => d =? 0x2F) (hd_error r0)) by (destruct r0; reflexivity).
  destruct ((c =? 0x21) || (c =? 0x2A) && negb (some_and (fun d => d =? 0x2F) (hd_error r0))) eqn:E.
  - assert (Hc : len_utf8 c = 1%nat).
    { apply orb_true_iff in E. destruct E as [E|E].
      - apply N.eqb_eq in E. subst. reflexivity.
      - apply andb_true_iff in E. destruct E as [E _]. apply N.eqb_eq in E. subst. reflexivity. }
    rewrite (comment_loop_spec r0 source TLicense _ Quote _ (pre0 ++ [0x2F; 0x2A; c]) []).
    + change (ends_star Quote) with (@nil N). cbn [app].
      destruct (com_body r0) as [[b r]|] eqn:Eb; cbn [option_map fst snd]; [|reflexivity].
      exists (c :: b ++ [0x2A]). split.
      * apply com_body_app in Eb. subst r0. cbn [app]. rewrite <- app_assoc. reflexivity.
      * cbn [piece_token]. rewrite !blen_app. cbn [blen]. rewrite !blen_app. cbn [blen]. rewrite Hc.
        change (len_utf8 0x2F) with 1%nat. change (len_utf8 0x2A) with 1%nat. pos_eq.
    + rewrite Hs. change (ends_star Quote) with (@nil N). cbn [app]. rewrite <- !app_assoc. reflexivity.
    + rewrite blen_app. cbn [blen]. rewrite Hc. change (len_utf8 0x2F) with 1%nat.
      change (len_utf8 0x2A) with 1%nat. lia.
    + change (ends_star Quote) with (@nil N). rewrite !blen_app. cbn [blen]. rewrite Hc.
      change (len_utf8 0x2F) with 1%nat. change (len_utf8 0x2A) with 1%nat. lia.
  - set (prev := match rchar_of c with Some k => k | None => Quote end).
    assert (Hprev : [c] = (if rchar_eqb prev Star then [] else [c]) ++ ends_star prev).
    { unfold ends_star. destruct (rchar_eqb prev Star) eqn:Ep; [|reflexivity].
      apply rchar_eqb_eq in Ep. unfold prev in Ep. destruct (rchar_of c) eqn:Ec; [|discriminate].
      subst. apply rchar_of_inv in Ec. destruct Ec as [->|[? _]]; [reflexivity|discriminate]. }
    rewrite (comment_loop_spec r0 source TComment _ prev _ (pre0 ++ [0x2F; 0x2A])
               (if rchar_eqb prev Star then [] else [c])).
    + assert (Hcb : com_body (c :: r0) =
        match com_body (ends_star prev ++ r0) with
        | Some (b, r) => Some ((if rchar_eqb prev Star then [] else [c]) ++ b, r)
        | None => None end).
      { unfold ends_star. destruct (rchar_eqb prev Star) eqn:Ep; cbn [app].
        - unfold ends_star in Hprev. rewrite Ep in Hprev. injection Hprev as ->.
          destruct (com_body (42 :: r0)) as [[b r]|]; reflexivity.
        - cbn [com_body]. assert (Hstar : (c =? 0x2A) = false).
          { apply N.eqb_neq. intros ->. discriminate Ep. }
          rewrite Hstar. cbn [andb]. destruct (com_body r0) as [[b r]|]; reflexivity. }
      destruct (com_body (ends_star prev ++ r0)) as [[b r]|] eqn:Eb.
      * rewrite Hcb. cbn [option_map fst snd].
        exists (((if rchar_eqb prev Star then [] else [c]) ++ b) ++ [0x2A]). split.
        -- apply com_body_app in Hcb. rewrite Hcb. rewrite <- !app_assoc. reflexivity.
        -- cbn [piece_token]. rewrite !blen_app. cbn [blen].
           change (len_utf8 0x2F) with 1%nat. change (len_utf8 0x2A) with 1%nat. pos_eq.
      * rewrite Hcb. reflexivity.
    + rewrite <- Hprev. rewrite Hs. rewrite <- !app_assoc. reflexivity.
    + rewrite blen_app. cbn. lia.
    + rewrite <- Hprev. rewrite !blen_app. cbn [blen]. change (len_utf8 0x2F) with 1%nat.
      change (len_utf8 0x2A) with 1%nat. lia.
Qed.

Lemma rchar_quote : forall c q k, (q = 0x27 /\ k = Quote) \/ (q = 0x22 /\ k = DoubleQuote) ->
  match rchar_of c with Some k' => rchar_eqb k' k | None => false end = (c =? q).
Proof.
  intros c q k H. destruct (N.eqb_spec c q) as [->|Hn].
  - destruct H as [[-> ->]|[-> ->]]; reflexivity.
  - destruct (rchar_of c) as [k'|] eqn:E; [|reflexivity].
    destruct (rchar_eqb k' k) eqn:E2; [|reflexivity].
    apply rchar_eqb_eq in E2. subst k'. apply rchar_of_inv in E.
    destruct E as [->|[-> _]]; destruct H as [[-> H]|[-> H]]; subst; cbn in Hn; congruence.
Qed.

Lemma str_body_app : forall n s q b r, (length s <= n)%nat -> str_body q s = Some (b, r) -> s = b ++ r.
Proof.
  induction n as [|n IH]; intros s q b r Hl H.
  - destruct s; [discriminate|cbn in Hl; lia].
  - destruct s as [|c s]; [discriminate|]. cbn [str_body] in H.
    destruct (c =? 0x5C).
    + destruct s as [|d s]; [discriminate|].
      destruct (str_body q s) as [[b' r']|] eqn:E; cbn [option_map fst snd] in H; [|discriminate].
      injection H as <- <-. cbn [app]. do 2 f_equal. apply (IH s q); [cbn in Hl; lia|exact E].
    + destruct (c =? q).
      * injection H as <- <-. reflexivity.
      * destruct (str_body q s) as [[b' r']|] eqn:E; cbn [option_map fst snd] in H; [|discriminate].
        injection H as <- <-. cbn [app]. f_equal. apply (IH s q); [cbn in Hl; lia|exact E].
Qed.

(** The last character of a complete string literal is its quote. *)
Lemma str_body_last : forall n s q b r, (length s <= n)%nat -> str_body q s = Some (b, r) ->
  exists b', b = b' ++ [q].
Proof.
  induction n as [|n IH]; intros s q b r Hl H.
  - destruct s; [discriminate|cbn in Hl; lia].
  - destruct s as [|c s]; [discriminate|]. cbn [str_body] in H.
    destruct (c =? 0x5C).
    + destruct s as [|d s]; [discriminate|].
      destruct (str_body q s) as [[b' r']|] eqn:E; cbn [option_map fst snd] in H; [|discriminate].
      injection H as <- <-. destruct (IH s q b' r') as [b0 ->]; [cbn in Hl; lia|exact E|].
      exists (c :: d :: b0). reflexivity.
    + destruct (N.eqb_spec c q).
      * injection H as <- <-. subst. exists []. reflexivity.
      * destruct (str_body q s) as [[b' r']|] eqn:E; cbn [option_map fst snd] in H; [|discriminate].
        injection H as <- <-. destruct (IH s q b' r') as [b0 ->]; [cbn in Hl; lia|exact E|].
        exists (c :: b0). reflexivity.
Qed.

Lemma get_string_spec : forall n rest source pre acc q k pos,
  (length rest <= n)%nat ->
  (q = 0x27 /\ k = Quote) \/ (q = 0x22 /\ k = DoubleQuote) ->
  source = pre ++ (q :: acc) ++ rest ->
  pos = blen (pre ++ q :: acc) ->
  get_string source pos rest (blen pre) k =
  match str_body q rest with
  | Some (b, r) =>
      Ok (Some (TString (q :: acc ++ b), (blen (pre ++ (q :: acc) ++ b) - 1)%nat,
                blen (pre ++ (q :: acc) ++ b), r))
  | None => Ok None
  end.
Proof.
  induction n as [|n IH]; intros rest source pre acc q k pos Hl Hq Hs Hpos.
  - destruct rest; [reflexivity|cbn in Hl; lia].
  - destruct rest as [|c r]; [reflexivity|]. cbn [get_string str_body].
    destruct (c =? 0x5C) eqn:Ebs.
    + destruct r as [|d r]; [reflexivity|].
      rewrite (IH r source pre (acc ++ [c; d]) q k).
      * destruct (str_body q r) as [[b r']|]; cbn [option_map fst snd]; [|reflexivity].
        rewrite <- !app_assoc. cbn [app]. rewrite <- !app_assoc. reflexivity.
      * cbn in Hl. lia.
      * exact Hq.
      * rewrite Hs. cbn [app]. rewrite <- !app_assoc. reflexivity.
      * rewrite Hpos. rewrite !blen_app. cbn [blen]. rewrite blen_app. cbn [blen]. lia.
    + pose proof (rchar_quote c q k Hq) as Hqc.
      destruct (c =? q) eqn:Eq.
      * destruct (rchar_of c) as [k'|]; [|discriminate]. rewrite Hqc.
        apply N.eqb_eq in Eq. subst c.
        assert (Hl1 : len_utf8 q = 1%nat) by (destruct Hq as [[-> _]|[-> _]]; reflexivity).
        rewrite (slice_mid_eq source pre (q :: acc ++ [q]) r).
        -- cbn [oslice obind]. rewrite Hpos.
           replace (pre ++ (q :: acc) ++ [q]) with ((pre ++ q :: acc) ++ [q])
             by (rewrite <- !app_assoc; reflexivity).
           rewrite (blen_app _ [q]). cbn [blen]. rewrite Hl1. pos_eq.
        -- rewrite Hs. cbn [app]. rewrite <- !app_assoc. reflexivity.
        -- reflexivity.
        -- rewrite Hpos. rewrite !blen_app. cbn [blen]. rewrite blen_app. cbn [blen]. rewrite Hl1. lia.
      * assert (Hgo : get_string source (pos + len_utf8 c) r (blen pre) k =
          match option_map (fun x => (c :: fst x, snd x)) (str_body q r) with
          | Some (b, r0) =>
              Ok (Some (TString (q :: acc ++ b), (blen (pre ++ (q :: acc) ++ b) - 1)%nat,
                   blen (pre ++ (q :: acc) ++ b), r0))
          | None => Ok None
          end).
        { rewrite (IH r source pre (acc ++ [c]) q k).
          - destruct (str_body q r) as [[b r']|]; cbn [option_map fst snd]; [|reflexivity].
            rewrite <- !app_assoc. cbn [app]. rewrite <- !app_assoc. reflexivity.
          - cbn in Hl. lia.
          - exact Hq.
          - rewrite Hs. cbn [app]. rewrite <- !app_assoc. reflexivity.
          - rewrite Hpos. rewrite !blen_app. cbn [blen]. rewrite blen_app. cbn [blen]. lia. }
        destruct (rchar_of c) as [k'|].
        -- rewrite Hqc. exact Hgo.
        -- exact Hgo.
Qed.

(** ** The machine over pieces *)

(** [mv]: the tokens, last one first; [mseg]: the characters of the current run; [mcol]: the
    run is directly preceded by a colon; [mesc]: a backslash was just read. *)
Record pst := {
  mv : list token; mseg : str; mcol : bool; mblock : Z; mmedia : bool; mattr : bool; mesc : bool
}.

Definition selector_context (block : Z) (media attr : bool) : bool :=
  negb attr && ((Z.eqb block 0 && negb media) || (media && Z.eqb block 1)).

Definition fillp (st : pst) : list token :=
  match mseg st with
  | [] => mv st
  | _ =>
      if selector_context (mblock st) (mmedia st) (mattr st) then
        if some_and (is_the_char Colon) (hd_error (mv st)) then
          match (if mcol st then selement_of (0x3A :: mseg st) else None) with
          | Some e => TSelectorElement e :: tl (mv st)
          | None => TOther (mseg st) :: mv st
          end
        else
          match selement_of (mseg st) with
          | Some e => TSelectorElement e :: mv st
          | None => TOther (mseg st) :: mv st
          end
      else TOther (mseg st) :: mv st
  end.

Definition mk (v : list token) (col : bool) (block : Z) (media attr esc : bool) : pst :=
  {| mv := v; mseg := []; mcol := col; mblock := block; mmedia := media; mattr := attr; mesc := esc |}.

Definition pstep (st : pst) (p : piece) : outcome pst :=
  match p with
  | PChar c =>
      if mesc st
      then Ok (mk (TOther [c] :: mv st) false (mblock st) (mmedia st) (mattr st) false)
      else Ok {| mv := mv st; mseg := mseg st ++ [c]; mcol := mcol st; mblock := mblock st;
                 mmedia := mmedia st; mattr := mattr st; mesc := false |}
  | _ =>
      let v := fillp st in
      let media := mmedia st || some_and is_a_media (hd_error v) in
      let block := mblock st in
      let attr := mattr st in
      match p with
      | PChar _ => Panic
      | PBs => Ok (mk (TChar Backslash :: v) false block media attr true)
      | PStr t => Ok (mk (TString t :: v) false block media attr false)
      | PCom b => Ok (mk (TComment b :: v) false block media attr false)
      | PLic b => Ok (mk (TLicense b :: v) false block media attr false)
      | PBlank => Ok (mk (if push_blank v then TChar Space :: v else v) false block media attr false)
      | PPunct c =>
          match rchar_of c with
          | None => Panic
          | Some k =>
              let push := mk (TChar k :: v) (c =? 0x3A) in
              match k with
              | OpenBracket =>
                  if attr then Err (S_ "Already in attribute selector") else Ok (push block media true false)
              | CloseBracket =>
                  if attr then Ok (push block media false false) else Err (S_ "Unexpected ']'")
              | OpenCurlyBrace => Ok (push (block + 1)%Z media attr false)
              | CloseCurlyBrace =>
                  if Z.ltb (block - 1) 0 then Err (S_ "Too much '}'")
                  else Ok (push (block - 1)%Z (if Z.eqb (block - 1) 0 then false else media) attr false)
              | EqualSign =>
                  match equal_operator v with
                  | Some o => Ok (mk (TSelectorOperator o :: tl v) false block media attr false)
                  | None => Ok (push block media attr false)
                  end
              | SemiColon => Ok (push block (if Z.eqb block 0 then false else media) attr false)
              | _ => Ok (push block media attr false)
              end
          end
      end
  end.

Fixpoint prun (st : pst) (ps : list piece) (e : option lexerr) : outcome (list token) :=
  match ps with
  | [] =>
      match e with
      | None => Ok (rev (fillp st))
      | Some UnclosedString => Err (S_ "Unclosed string")
      | Some UnclosedComment => Err (S_ "Unclosed comment")
      end
  | p :: r => let! st' := pstep st p in prun st' r e
  end.

Definition pinit : pst := mk [] false 0 false false false.

(** ** The lexer *)

Lemma lexf_fuel : forall n m s, (length s <= n)%nat -> (length s <= m)%nat -> lexf n s = lexf m s.
Proof.
  induction n as [|n IH]; intros m s Hn Hm.
  - destruct s; [|cbn in Hn; lia]. destruct m; reflexivity.
  - destruct m as [|m]; [destruct s; [reflexivity|cbn in Hm; lia]|].
    destruct s as [|c r]; [reflexivity|]. cbn [lexf]. cbn in Hn, Hm.
    destruct (c =? 0x5C).
    { destruct r as [|d r]; [reflexivity|]. cbn in Hn, Hm. rewrite (IH m r); [reflexivity|lia|lia]. }
    destruct ((c =? 0x27) || (c =? 0x22)).
    { destruct (str_body c r) as [[t r']|] eqn:E; [|reflexivity].
      apply (str_body_app (length r)) in E; [|lia]. subst r. rewrite app_length in Hn, Hm.
      rewrite (IH m r'); [reflexivity|lia|lia]. }
    destruct ((c =? 0x2F) && match r with d :: _ => d =? 0x2A | [] => false end) eqn:E1.
    { destruct (comment_at (tl r)) as [[p r']|] eqn:E; [|reflexivity].
      assert (Hr : (length r' < length r)%nat).
      { destruct r as [|d r]; [rewrite andb_false_r in E1; discriminate|]. cbn [tl] in E.
        cbn [length]. apply le_n_S. unfold comment_at in E. destruct r as [|x r]; [discriminate|].
        destruct ((x =? 33) || _).
        - destruct (com_body r) as [[b r'']|] eqn:Eb; [|discriminate]. injection E as <- <-.
          apply com_body_app in Eb. subst r. cbn [length]. rewrite !app_length. lia.
        - destruct (com_body (x :: r)) as [[b r'']|] eqn:Eb; [|discriminate]. injection E as <- <-.
          apply com_body_app in Eb. rewrite Eb. rewrite !app_length. lia. }
      rewrite (IH m r'); [reflexivity|lia|lia]. }
    rewrite (IH m r); [reflexivity|lia|lia].
Qed.

Lemma comment_at_length : forall s p r, comment_at s = Some (p, r) -> (length r < length s)%nat.
Proof.
  intros s p r E. unfold comment_at in E. destruct s as [|x s]; [discriminate|].
  destruct ((x =? 33) || _).
  - destruct (com_body s) as [[b r'']|] eqn:Eb; [|discriminate]. injection E as <- <-.
    apply com_body_app in Eb. subst s. cbn [length]. rewrite !app_length. cbn. lia.
  - destruct (com_body (x :: s)) as [[b r'']|] eqn:Eb; [|discriminate]. injection E as <- <-.
    apply com_body_app in Eb. rewrite Eb. rewrite !app_length. cbn. lia.
Qed.

(** Classification of characters: the specification's classes against the model's. *)
Lemma class_word : forall c, rchar_of c = None ->
  (c =? 0x5C) = false /\ (c =? 0x27) || (c =? 0x22) = false /\ (c =? 0x2F) = false /\
  blank_char c = false /\ punct_char c = false.
Proof.
  intros c H. unfold rchar_of in H.
  repeat match type of H with
  | context [if ?x =? ?y then _ else _] => destruct (x =? y) eqn:?; [discriminate|]
  | context [if (?x =? ?y) || _ then _ else _] => destruct (x =? y) eqn:?; [discriminate|]; cbn [orb] in H
  end.
  repeat split; try assumption.
  - unfold blank_char. repeat (apply orb_false_iff; split); assumption.
  - unfold punct_char. cbn [S_ Ascii.N_of_ascii existsb]. cbn.
    repeat (apply orb_false_iff; split); try reflexivity; assumption.
Qed.

End Alpha.
