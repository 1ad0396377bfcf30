(** Plain style sheets, second part: their tokens, and the text that is printed. *)
From Coq Require Import String Arith List NArith ZArith Bool Lia.
From Verif Require Import Base CssModel CssSpec CssProofs1 CssProofs2 CssProofs3 CssProofs7 CssPlainSpec CssPlainProofs1.
Import ListNotations.
Open Scope N_scope.

Definition rc (c : N) : rchar := match rchar_of c with Some k => k | None => Space end.

Definition mo (c : N) : soperator :=
  if c =? 0x7E then OneAttributeEquals
  else if c =? 0x7C then EqualsOrStartsWithFollowedByDash
  else if c =? 0x24 then EndsWith
  else if c =? 0x5E then FirstStartsWith
  else Contains.

Section Plain.
Variable letter_u : N -> bool.
Notation kind_of := (kind_of letter_u).
Notation step := (step letter_u).
Notation fillp := (fillp letter_u).
Notation pstep := (pstep letter_u).
Notation pmulti := (pmulti letter_u).
Notation prun := (prun letter_u).
Notation selement_of := (selement_of letter_u).

Definition word_tok (x : place) (w : str) : token :=
  match kind_of x (Word w), selement_of w with
  | KElement, Some e => TSelectorElement e
  | _, _ => TOther w
  end.

Definition tok (x : place) (p : part) : token :=
  match p with
  | Word w => word_tok x w
  | Pseudo w => TSelectorElement (PseudoClass w)
  | At w => TSelectorElement (Media w)
  | Quoted t => TString t
  | Sign c => TChar (rc c)
  | Match c => TSelectorOperator (mo c)
  | Licence _ b => TLicense b
  | Escape c => TOther [c]
  end.

(** An escape is two tokens. *)
Definition lead_toks (p : part) : list token := match p with Escape _ => [TChar Backslash] | _ => [] end.

(** [push]: the token before takes a blank. *)
Fixpoint gtoks (push : bool) (g : list filler) : list token :=
  match g with
  | [] => []
  | Blank _ :: r => (if push then [TChar Space] else []) ++ gtoks false r
  | Comment b :: r => TComment b :: gtoks true r
  end.

Definition pushes (k : option kind) : bool :=
  match k with
  | None => false
  | Some (KSign d) => among (S_ ")]+*/") d
  | _ => true
  end.

Fixpoint toks (x : place) (l : list item) : list token :=
  match l with
  | [] => []
  | Between g :: r => gtoks (pushes (last x)) g ++ toks x r
  | Piece p :: r => lead_toks p ++ tok x p :: toks (step x p) r
  end.

(** ** Words *)

Lemma letter_alphabetic : forall c, letter letter_u c = is_alphabetic letter_u c.
Proof. reflexivity. Qed.

Lemma word_elements : forall w, a_word w = true -> negb (begins (N.eqb 0x40) w && Nat.ltb 1 (length w)) = true ->
  if names letter_u w then exists e, selement_of w = Some e /\ is_a_media (TSelectorElement e) = false /\ token_show (TSelectorElement e) = w
  else selement_of w = None.
Proof.
  intros w H K. apply a_word_chars in H. destruct H as [H1 H2]. destruct w as [|c r]; [congruence|].
  cbn [forallb] in H2. apply andb_true_iff in H2. destruct H2 as [Hc _].
  cbn [names CssModel.selement_of begins length] in *. rewrite letter_alphabetic.
  destruct (N.eqb_spec c 0x2E) as [->|N1].
  { cbn. destruct r; [reflexivity|]. eexists. split; [reflexivity|]. split; [reflexivity|]. unfold token_show. cbn. rewrite app_nil_r. reflexivity. }
  destruct (N.eqb_spec c 0x23) as [->|N2].
  { cbn. destruct r; [reflexivity|]. eexists. split; [reflexivity|]. split; [reflexivity|]. unfold token_show. cbn. rewrite app_nil_r. reflexivity. }
  assert (A : among (S_ ".#") c = false) by (cbn; rewrite (proj2 (N.eqb_neq _ _) N1), (proj2 (N.eqb_neq _ _) N2); reflexivity).
  rewrite A. cbn [andb]. rewrite orb_false_r.
  destruct (N.eqb_spec c 0x40) as [->|N3].
  { destruct r as [|d r]; [reflexivity|]. discriminate K. }
  destruct (N.eqb_spec c 0x3A) as [->|N4]; [discriminate Hc|].
  destruct (is_alphabetic letter_u c); [|reflexivity]. eexists. split; [reflexivity|]. split; [reflexivity|]. unfold token_show. cbn. rewrite app_nil_r. reflexivity.
Qed.

(** ** Kinds of tokens *)

Definition tk (k : kind) (t : token) : Prop :=
  match k with
  | KWord | KEscape => exists s, t = TOther s
  | KElement => exists e, t = TSelectorElement e /\ is_a_media t = false
  | KAt => exists s, t = TSelectorElement (Media s)
  | KText => (exists s, t = TString s) \/ (exists o, t = TSelectorOperator o)
  | KLicence => exists b, t = TLicense b
  | KSign c => among signs c = true /\ t = TChar (rc c)
  end.

Lemma word_tok_spec : forall x w, part_ok x (Word w) = true ->
  tk (kind_of x (Word w)) (word_tok x w) /\ token_show (word_tok x w) = w.
Proof.
  intros x w H. unfold part_ok in H. apply andb_true_iff in H. destruct H as [_ H]. apply andb_true_iff in H. destruct H as [Hw H].
  unfold word_tok. cbn [CssPlainSpec.kind_of].
  assert (O : tk KWord (TOther w) /\ token_show (TOther w) = w) by (split; [exists w; reflexivity | unfold token_show; cbn; apply app_nil_r]).
  destruct (selects x && negb (after 0x3A x)) eqn:E; cbn [andb] in *; [|exact O].
  pose proof (word_elements w Hw H) as K. destruct (names letter_u w); [|exact O].
  destruct K as (e & -> & Km & Ks). split; [exists e; auto | exact Ks].
Qed.

Lemma match_chars : forall c, among (S_ "~|$^*") c = true -> c = 0x7E \/ c = 0x7C \/ c = 0x24 \/ c = 0x5E \/ c = 0x2A.
Proof. intros c H. apply among_in in H. cbn in H. intuition. Qed.

Lemma sign_chars : forall c, among signs c = true -> rchar_of c = Some (rc c) /\ rchar_show (rc c) = c /\ rchar_useless (rc c) = false.
Proof.
  intros c H. destruct (punct_char_rchar c H) as (k & Hk & E & Hu & _). unfold rc. rewrite Hk. auto.
Qed.

Lemma tok_kind : forall x p, part_ok x p = true -> tk (kind_of x p) (tok x p).
Proof.
  intros x p H. destruct p as [w|w|w|t|c|c|c b|c].
  - apply word_tok_spec, H.
  - eexists. split; reflexivity.
  - eexists. reflexivity.
  - left. eexists. reflexivity.
  - unfold part_ok in H. apply andb_true_iff in H. destruct H as [_ H]. apply andb_true_iff in H. destruct H as [H _]. split; [exact H | reflexivity].
  - right. eexists. reflexivity.
  - eexists. reflexivity.
  - eexists. reflexivity.
Qed.

Lemma tok_shown : forall x p, part_ok x p = true -> flat_map token_show (lead_toks p) ++ token_show (tok x p) = shown p.
Proof.
  intros x p H. destruct p as [w|w|w|t|c|c|c b|c]; cbn [tok shown part_text lead_toks flat_map app].
  - apply word_tok_spec, H.
  - unfold token_show. cbn. rewrite app_nil_r. reflexivity.
  - unfold token_show. cbn. reflexivity.
  - unfold token_show. cbn. apply app_nil_r.
  - unfold part_ok in H. apply andb_true_iff in H. destruct H as [_ H]. apply andb_true_iff in H. destruct H as [H _].
    destruct (sign_chars c H) as (_ & E & _). unfold token_show. cbn. rewrite E. reflexivity.
  - unfold part_ok in H. apply andb_true_iff in H. destruct H as [_ H]. destruct (match_chars c H) as [->|[->|[->|[->| ->]]]]; reflexivity.
  - unfold token_show, comment_text. cbn. rewrite <- app_assoc. reflexivity.
  - unfold token_show. cbn. reflexivity.
Qed.

Lemma tok_solid : forall x p, part_ok x p = true -> blankish (tok x p) = false.
Proof.
  intros x p H. pose proof (tok_kind x p H) as K. destruct (kind_of x p); cbn [tk] in K.
  - destruct K as [s ->]. reflexivity.
  - destruct K as (e & -> & _). reflexivity.
  - destruct K as [s ->]. reflexivity.
  - destruct K as [[s ->]|[o ->]]; reflexivity.
  - destruct K as [b ->]. reflexivity.
  - destruct K as [s ->]. reflexivity.
  - destruct K as [K ->]. destruct (sign_chars c K) as (_ & _ & E). unfold blankish. cbn. rewrite E. reflexivity.
Qed.

(** ** Reading *)

Definition media_of (st : pst) : bool := mmedia st || some_and is_a_media (hd_error (fillp st)).

Record inv (x : place) (st : pst) (v : list token) : Prop := {
  i_esc : mesc st = false;
  i_block : mblock st = Z.of_nat (depth x);
  i_attr : mattr st = bracket x;
  i_media : media_of st = at_rule x;
  i_here : mseg st = [] -> mmedia st = at_rule x;
  i_v : fillp st = v
}.

Definition norm (x : place) (v : list token) : pst := mk v false (Z.of_nat (depth x)) (at_rule x) (bracket x) false.

Definition not_char (p : piece) : Prop := match p with PChar _ => False | _ => True end.

Lemma pstep_norm : forall x st v p, inv x st v -> not_char p -> pstep st p = pstep (norm x v) p.
Proof.
  intros x st v p [E B A M H V] N. unfold media_of in M. rewrite V in M.
  assert (M2 : at_rule x || some_and is_a_media (hd_error v) = at_rule x) by (rewrite <- M, <- orb_assoc, orb_diag; reflexivity).
  destruct p; [contradiction|..]; unfold CssProofs1.pstep; change (fillp (norm x v)) with v;
    cbn [mmedia mblock mattr mk norm]; rewrite V, B, A, M, M2; reflexivity.
Qed.

Lemma selector_selects : forall x, selector_context (Z.of_nat (depth x)) (at_rule x) (bracket x) = selects x.
Proof.
  intro x. unfold selector_context, selects. f_equal. destruct (at_rule x); cbn [negb andb orb].
  - rewrite andb_false_r. cbn [orb]. destruct (Nat.eqb_spec (depth x) 1); destruct (Z.eqb_spec (Z.of_nat (depth x)) 1); auto; lia.
  - rewrite andb_true_r, orb_false_r. destruct (Nat.eqb_spec (depth x) 0); destruct (Z.eqb_spec (Z.of_nat (depth x)) 0); auto; lia.
Qed.

(** Reading a run of characters after [st]. *)
Lemma chars_inv : forall x st v w, inv x st v -> mseg st = [] -> w <> [] ->
  exists st', pmulti st (map PChar w) = Ok st' /\ mesc st' = false /\ mblock st' = mblock st /\ mattr st' = mattr st /\
    mmedia st' = mmedia st /\ mseg st' = w /\ mcol st' = mcol st /\ mv st' = v.
Proof.
  intros x st v w [E B A M H V] S W. rewrite pmulti_chars by exact E. eexists. split; [reflexivity|].
  cbn [mesc mblock mattr mmedia mseg mcol mv]. rewrite S. unfold CssProofs1.fillp in V. rewrite S in V. auto 10.
Qed.

Definition colon_hd (v : list token) : bool := some_and (is_the_char Colon) (hd_error v).

Lemma fillp_run : forall x st v w, inv x st v -> mseg st = [] -> w <> [] -> forall st', mesc st' = false ->
  mblock st' = mblock st -> mattr st' = mattr st -> mmedia st' = mmedia st -> mseg st' = w -> mcol st' = mcol st -> mv st' = v ->
  fillp st' = if selects x then
      if colon_hd v then
        match (if mcol st then selement_of (0x3A :: w) else None) with
        | Some e => TSelectorElement e :: tl v
        | None => TOther w :: v
        end
      else match selement_of w with Some e => TSelectorElement e :: v | None => TOther w :: v end
    else TOther w :: v.
Proof.
  intros x st v w I S W st' E B A M S' C V. unfold CssProofs1.fillp. rewrite S'. destruct w as [|c w]; [congruence|].
  rewrite B, A, M, C, V. rewrite (i_block _ _ _ I), (i_attr _ _ _ I), (i_here _ _ _ I S), selector_selects. reflexivity.
Qed.

(** What stands on top, before a part. *)
Definition top (x : place) (g : option (list filler)) (st : pst) (v : list token) : Prop :=
  match g with
  | None =>
      match last x with
      | None => v = [] /\ mseg st = [] /\ mcol st = false
      | Some k => exists t r, v = t :: r /\ tk k t /\ (mseg st = [] \/ k = KWord \/ k = KElement \/ k = KAt)
                              /\ (mseg st = [] -> mcol st = (match k with KSign d => d =? 0x3A | _ => false end))
      end
  | Some g =>
      mseg st = [] /\ mcol st = false /\
      exists v0, v = rev (gtoks (pushes (last x)) g) ++ v0 /\
        match last x with None => v0 = [] | Some k => exists t r, v0 = t :: r /\ tk k t end
  end.

Lemma gtoks_blankish : forall g b, Forall (fun t => t = TChar Space \/ exists c, t = TComment c) (gtoks b g).
Proof.
  induction g as [|[c|c] g IH]; intro b; cbn [gtoks].
  - constructor.
  - destruct b; cbn [app]; [constructor; [auto|apply IH] | apply IH].
  - constructor; [eauto | apply IH].
Qed.

Lemma gtoks_blank : forall g, existsb is_comment g = false -> gtoks false g = [].
Proof.
  induction g as [|[c|c] g IH]; intro H; [reflexivity|..]; [|discriminate H]. cbn in *. auto.
Qed.

Lemma gtoks_push : forall g, existsb is_comment g = false -> g <> [] -> gtoks true g = [TChar Space].
Proof.
  intros [|[c|c] g] H Hn; [congruence|..]; [|discriminate H]. cbn in *. now rewrite gtoks_blank.
Qed.

(** The top of [v]: a blank, a comment, or the token of [last x]. *)
Lemma top_hd : forall x g st v, top x g st v ->
  v = [] \/ (exists r, v = TChar Space :: r) \/ (exists b r, v = TComment b :: r) \/ exists k t r, last x = Some k /\ tk k t /\ v = t :: r.
Proof.
  intros x g st v H. destruct g as [g|]; cbn [top] in H.
  - destruct H as (_ & _ & v0 & -> & H). destruct (rev (gtoks (pushes (last x)) g)) as [|t r] eqn:E.
    + cbn [app]. destruct (last x) as [k|]; [|auto]. destruct H as (t & r & -> & K). right. right. right. eauto 10.
    + assert (K : In t (gtoks (pushes (last x)) g)) by (apply in_rev; rewrite E; left; reflexivity).
      pose proof (gtoks_blankish g (pushes (last x))) as F. rewrite Forall_forall in F. destruct (F t K) as [->|[b ->]]; [right; left|right; right; left]; cbn [app]; eauto.
  - destruct (last x) as [k|]; [|tauto]. destruct H as (t & r & -> & K & _). right. right. right. eauto 10.
Qed.

Lemma sign_rc_inj : forall c d, among signs c = true -> among signs d = true -> rc c = rc d -> c = d.
Proof. intros c d H K E. destruct (sign_chars c H) as (_ & <- & _), (sign_chars d K) as (_ & <- & _). now rewrite E. Qed.

Lemma top_colon : forall x g st v, top x g st v -> after 0x3A x = false -> colon_hd v = false.
Proof.
  intros x g st v H A. destruct (top_hd _ _ _ _ H) as [->|[[r ->]|[(b & r & ->)|(k & t & r & L & K & ->)]]]; try reflexivity.
  unfold after in A. rewrite L in A. unfold colon_hd. cbn [hd_error some_and]. destruct k; cbn [tk] in K.
  - destruct K as [s ->]. reflexivity.
  - destruct K as (e & -> & _). reflexivity.
  - destruct K as [s ->]. reflexivity.
  - destruct K as [[s ->]|[o ->]]; reflexivity.
  - destruct K as [b ->]. reflexivity.
  - destruct K as [s ->]. reflexivity.
  - destruct K as [K ->]. cbn [is_the_char]. unfold rchar_eqb. destruct (rchar_eq_dec (rc c) Colon) as [E|]; [|reflexivity].
    assert (c = 0x3A) by (apply sign_rc_inj; [exact K | reflexivity | exact E]). subst. discriminate A.
Qed.

Lemma top_equal : forall x g st v, top x g st v -> would_match x (Sign 0x3D) = false -> equal_operator v = None.
Proof.
  intros x g st v H A. destruct (top_hd _ _ _ _ H) as [->|[[r ->]|[(b & r & ->)|(k & t & r & L & K & ->)]]]; try reflexivity.
  unfold would_match in A. rewrite L in A. cbn [is_sign] in A. change (0x3D =? 0x3D) with true in A. cbn [andb] in A. unfold equal_operator. cbn [hd_error]. destruct k; cbn [tk] in K.
  - destruct K as [s ->]. reflexivity.
  - destruct K as (e & -> & _). reflexivity.
  - destruct K as [s ->]. reflexivity.
  - destruct K as [[s ->]|[o ->]]; reflexivity.
  - destruct K as [b ->]. reflexivity.
  - destruct K as [s ->]. reflexivity.
  - destruct K as [K ->]. destruct (sign_chars c K) as (_ & E & _).
    destruct (rc c) eqn:R; try reflexivity; cbn in E; subst c; discriminate A.
Qed.

(** The part [p] may come after [g]. *)
Definition comes (x : place) (g : option (list filler)) (p : part) : bool :=
  match g with Some g => gap_ok letter_u x g (Some p) | None => direct_ok x p end.

Lemma comes_match : forall x g p, comes x g p = true -> would_match x p = false.
Proof.
  intros x [g|] p H; cbn [comes] in H.
  - unfold gap_ok in H. repeat (apply andb_true_iff in H; destruct H as [H ?]). now apply negb_true_iff.
  - unfold direct_ok in H. repeat (apply andb_true_iff in H; destruct H as [H ?]). now apply negb_true_iff.
Qed.

Lemma comes_seg : forall x g p st v, comes x g p = true -> wordy p = true -> top x g st v -> mseg st = [].
Proof.
  intros x [g|] p st v H W T; cbn [comes top] in *; [tauto|].
  unfold direct_ok in H. apply andb_true_iff in H. destruct H as [_ H]. rewrite W in H. cbn [andb] in H. apply negb_true_iff in H.
  destruct (last x) as [k|]; [|tauto]. destruct T as (t & r & _ & _ & [S|[->|[->| ->]]] & _); [exact S|discriminate..].
Qed.

(** In a selector after a colon: there is a gap of blanks, so that the colon is still on top. *)
Lemma comes_colon : forall x g p st v, comes x g p = true -> wordy p = true -> top x g st v -> selects x = true -> after 0x3A x = true ->
  mcol st = false /\ colon_hd v = true.
Proof.
  intros x [g|] p st v H W T S A; cbn [comes top] in *.
  - destruct T as (_ & C & v0 & -> & T). split; [exact C|]. unfold gap_ok in H.
    apply andb_true_iff in H. destruct H as [H _]. apply andb_true_iff in H. destruct H as [H _]. apply andb_true_iff in H. destruct H as [_ H].
    rewrite W, A, S in H. cbn [andb] in H. apply negb_true_iff in H. unfold after in A. destruct (last x) as [k|]; [|discriminate].
    destruct k; try discriminate. apply N.eqb_eq in A. subst c. change (pushes (Some (KSign 0x3A))) with false.
    rewrite gtoks_blank by exact H. destruct T as (t & r & -> & _ & ->). reflexivity.
  - exfalso. unfold direct_ok in H. apply andb_true_iff in H. destruct H as [_ H]. rewrite W in H. cbn [andb] in H. apply negb_true_iff in H.
    unfold after in A. destruct (last x) as [k|]; [|discriminate]. destruct k; try discriminate. rewrite A, S in H. discriminate H.
Qed.

Definition done (x : place) (p : part) (v : list token) (st' : pst) : Prop :=
  inv (step x p) st' (tok x p :: rev (lead_toks p) ++ v) /\ top (step x p) None st' (tok x p :: rev (lead_toks p) ++ v).

Lemma inv_mk : forall x v c, (some_and is_a_media (hd_error v) = true -> at_rule x = true) ->
  inv x (mk v c (Z.of_nat (depth x)) (at_rule x) (bracket x) false) v.
Proof.
  intros x v c H. constructor; try reflexivity. unfold media_of. cbn [mmedia mk]. change (fillp (mk v c (Z.of_nat (depth x)) (at_rule x) (bracket x) false)) with v.
  destruct (some_and is_a_media (hd_error v)); [rewrite H by reflexivity|]; now rewrite ?orb_false_r, ?orb_true_r.
Qed.

Lemma not_media : forall x p v, part_ok x p = true -> some_and is_a_media (hd_error (tok x p :: v)) = true -> at_rule (step x p) = true.
Proof.
  intros x p v H M. cbn [hd_error some_and] in M. pose proof (tok_kind x p H) as K. unfold CssPlainSpec.step. cbn [at_rule].
  destruct (kind_of x p); cbn [tk] in K; try reflexivity; exfalso.
  - destruct K as [s E]. rewrite E in M. discriminate.
  - destruct K as (e & E & N). congruence.
  - destruct K as [[s E]|[o E]]; rewrite E in M; discriminate.
  - destruct K as [b E]. rewrite E in M. discriminate.
  - destruct K as [s E]. rewrite E in M. discriminate.
  - destruct K as [_ E]. rewrite E in M. discriminate.
Qed.

Lemma done_mk : forall x p v c, part_ok x p = true ->
  c = (match kind_of x p with KSign d => d =? 0x3A | _ => false end) ->
  done x p v (mk (tok x p :: rev (lead_toks p) ++ v) c (Z.of_nat (depth (step x p))) (at_rule (step x p)) (bracket (step x p)) false).
Proof.
  intros x p v c H E. split.
  - apply inv_mk. apply not_media, H.
  - cbn [top]. rewrite last_step. exists (tok x p), (rev (lead_toks p) ++ v). split; [reflexivity|]. split; [apply tok_kind, H|]. split; [left; reflexivity|]. intros _. exact E.
Qed.

Lemma read_part : forall x g p st v, inv x st v -> top x g st v -> part_ok x p = true -> comes x g p = true ->
  exists st', pmulti st (part_pieces p) = Ok st' /\ done x p v st'.
Proof.
  intros x g p st v I T P C.
  assert (Q : part_ok x p = true) by exact P. unfold part_ok in P. apply andb_true_iff in P. destruct P as [_ P].
  destruct p as [w|w|w|t|c|c|c b|c]; cbn [part_pieces].
  - (* a word *)
    apply andb_true_iff in P. destruct P as [P1 P2]. pose proof (a_word_chars w P1) as [Wn Wc].
    pose proof (comes_seg _ _ _ _ _ C eq_refl T) as S.
    destruct (chars_inv x st v w I S Wn) as (st' & R & E' & B' & A' & M' & S' & C' & V'). exists st'. split; [exact R|].
    assert (F : fillp st' = word_tok x w :: v).
    { rewrite (fillp_run x st v w I S Wn st' E' B' A' M' S' C' V'). unfold word_tok. cbn [CssPlainSpec.kind_of].
      destruct (selects x) eqn:Es; cbn [andb]; [|reflexivity]. destruct (after 0x3A x) eqn:Ea; cbn [negb andb] in *.
      - destruct (comes_colon _ _ _ _ _ C eq_refl T Es Ea) as [Cc Ch]. rewrite Ch, Cc. reflexivity.
      - rewrite (top_colon _ _ _ _ T Ea). pose proof (word_elements w P1 P2) as K. destruct (names letter_u w).
        + destruct K as (e & -> & _). reflexivity.
        + rewrite K. reflexivity. }
    assert (Nm : is_a_media (word_tok x w) = false).
    { pose proof (word_tok_spec x w Q) as [K _]. cbn [CssPlainSpec.kind_of] in K. destruct (selects x && negb (after 0x3A x) && names letter_u w); cbn [tk] in K.
      - destruct K as (e & _ & K). exact K.
      - destruct K as [s ->]. reflexivity. }
    assert (D : depth (step x (Word w)) = depth x /\ bracket (step x (Word w)) = bracket x /\ at_rule (step x (Word w)) = at_rule x).
    { unfold CssPlainSpec.step. cbn [is_sign depth bracket at_rule andb orb]. repeat split. cbn [CssPlainSpec.kind_of]. destruct (selects x && negb (after 58 x) && names letter_u w); reflexivity. }
    destruct D as (D1 & D2 & D3). split.
    + constructor.
      * exact E'.
      * rewrite D1, B'. apply (i_block _ _ _ I).
      * rewrite D2, A'. apply (i_attr _ _ _ I).
      * rewrite D3. unfold media_of. rewrite F. cbn [hd_error some_and]. rewrite Nm, orb_false_r, M'. apply (i_here _ _ _ I S).
      * rewrite S'. congruence.
      * exact F.
    + cbn [top]. rewrite last_step. exists (word_tok x w), v. split; [reflexivity|]. split; [apply word_tok_spec, Q|]. split.
      * right. cbn [CssPlainSpec.kind_of]. destruct (selects x && negb (after 58 x) && names letter_u w); auto.
      * rewrite S'. congruence.
  - (* a pseudo class *)
    apply andb_true_iff in P. destruct P as [P1 P2]. pose proof (a_word_chars w P2) as [Wn Wc].
    cbn [CssProofs7.pmulti]. rewrite (pstep_norm x st v _ I) by exact Logic.I.
    set (s1 := mk (TChar Colon :: v) true (Z.of_nat (depth x)) (at_rule x) (bracket x) false).
    assert (R1 : pstep (norm x v) (PPunct 0x3A) = Ok s1).
    { unfold CssProofs1.pstep, norm. cbn [mmedia mblock mattr mk]. change (fillp (mk v false (Z.of_nat (depth x)) (at_rule x) (bracket x) false)) with v.
      pose proof (i_media _ _ _ I) as M. unfold media_of in M. rewrite (i_v _ _ _ I) in M.
      assert (M2 : at_rule x || some_and is_a_media (hd_error v) = at_rule x) by (rewrite <- M, <- orb_assoc, orb_diag; reflexivity). rewrite M2. reflexivity. }
    rewrite R1. cbn [obind].
    assert (I1 : inv x s1 (TChar Colon :: v)) by (apply inv_mk; discriminate).
    destruct (chars_inv x s1 _ w I1 eq_refl Wn) as (st' & R & E' & B' & A' & M' & S' & C' & V'). exists st'. split; [exact R|].
    assert (F : fillp st' = TSelectorElement (PseudoClass w) :: v).
    { rewrite (fillp_run x s1 _ w I1 eq_refl Wn st' E' B' A' M' S' C' V'). rewrite P1. cbn [colon_hd hd_error some_and mcol mk s1].
      cbn [CssModel.selement_of]. change (is_the_char Colon (TChar Colon)) with true. cbn. destruct w; [congruence|]. reflexivity. }
    split.
    + constructor.
      * exact E'.
      * rewrite B'. reflexivity.
      * rewrite A'. reflexivity.
      * unfold media_of. rewrite F, M'. cbn. apply orb_false_r.
      * rewrite S'. congruence.
      * exact F.
    + cbn [top]. rewrite last_step. eexists _, v. split; [reflexivity|]. split; [apply (tok_kind x (Pseudo w)), Q|]. split; [right; auto|]. rewrite S'. congruence.
  - (* an at-keyword *)
    apply andb_true_iff in P. destruct P as [P1 P2]. apply andb_true_iff in P1. destruct P1 as [P1 P3]. apply andb_true_iff in P1. destruct P1 as [P1 P4]. apply negb_true_iff in P4.
    pose proof (a_word_chars w P2) as [Wn Wc].
    pose proof (comes_seg _ _ _ _ _ C eq_refl T) as S. change (PChar 0x40 :: map PChar w) with (map PChar (0x40 :: w)).
    assert (Wn' : 0x40 :: w <> []) by discriminate.
    destruct (chars_inv x st v (0x40 :: w) I S Wn') as (st' & R & E' & B' & A' & M' & S' & C' & V'). exists st'. split; [exact R|].
    assert (F : fillp st' = TSelectorElement (Media w) :: v).
    { rewrite (fillp_run x st v _ I S Wn' st' E' B' A' M' S' C' V'). rewrite P1, (top_colon _ _ _ _ T P4).
      cbn [CssModel.selement_of]. cbn. destruct w; [congruence|]. reflexivity. }
    split.
    + constructor.
      * exact E'.
      * rewrite B'. apply (i_block _ _ _ I).
      * rewrite A'. apply (i_attr _ _ _ I).
      * unfold media_of. rewrite F. cbn. apply orb_true_r.
      * rewrite S'. congruence.
      * exact F.
    + cbn [top]. rewrite last_step. eexists _, v. split; [reflexivity|]. split; [apply (tok_kind x (At w)), Q|]. split; [right; auto|]. rewrite S'. congruence.
  - (* a string *)
    cbn [CssProofs7.pmulti]. rewrite (pstep_norm x st v _ I) by exact Logic.I. eexists. split.
    { unfold CssProofs1.pstep, norm. cbn [mmedia mblock mattr mk]. change (fillp (mk v false (Z.of_nat (depth x)) (at_rule x) (bracket x) false)) with v.
      pose proof (i_media _ _ _ I) as M. unfold media_of in M. rewrite (i_v _ _ _ I) in M.
      assert (M2 : at_rule x || some_and is_a_media (hd_error v) = at_rule x) by (rewrite <- M, <- orb_assoc, orb_diag; reflexivity). rewrite M2. reflexivity. }
    exact (done_mk x (Quoted t) v false Q eq_refl).
  - (* a sign *)
    apply andb_true_iff in P. destruct P as [P1 P2].
    cbn [CssProofs7.pmulti]. rewrite (pstep_norm x st v _ I) by exact Logic.I.
    exists (mk (tok x (Sign c) :: v) (c =? 0x3A) (Z.of_nat (depth (step x (Sign c)))) (at_rule (step x (Sign c))) (bracket (step x (Sign c))) false). split.
    2: { apply done_mk; [exact Q|reflexivity]. }
    unfold CssProofs1.pstep, norm. cbn [mmedia mblock mattr mk]. change (fillp (mk v false (Z.of_nat (depth x)) (at_rule x) (bracket x) false)) with v.
    pose proof (i_media _ _ _ I) as M. unfold media_of in M. rewrite (i_v _ _ _ I) in M.
    assert (M2 : at_rule x || some_and is_a_media (hd_error v) = at_rule x) by (rewrite <- M, <- orb_assoc, orb_diag; reflexivity). rewrite M2.
    destruct (sign_chars c P1) as (E1 & E2 & _). rewrite E1. unfold CssPlainSpec.step. cbn [tok is_sign CssPlainSpec.kind_of depth at_rule bracket].
    pose proof (comes_match _ _ _ C) as W.
    destruct (rc c) eqn:R; cbn [rchar_show] in E2; subst c; try discriminate P1; cbn [N.eqb Pos.eqb andb orb negb] in *;
      try reflexivity.
    + (* { *) cbn [obind]. replace (Z.of_nat (depth x) + 1)%Z with (Z.of_nat (S (depth x))) by lia. reflexivity.
    + (* } *) apply negb_true_iff in P2. apply Nat.eqb_neq in P2. destruct (Z.ltb_spec (Z.of_nat (depth x) - 1) 0); [lia|]. cbn [obind].
      f_equal. replace (Z.of_nat (depth x) - 1)%Z with (Z.of_nat (pred (depth x))) by lia. f_equal.
      rewrite orb_false_r. destruct (Z.eqb_spec (Z.of_nat (pred (depth x))) 0); destruct (Nat.leb_spec (depth x) 1); try lia; reflexivity.
    + (* [ *) apply negb_true_iff in P2. rewrite P2. reflexivity.
    + (* ] *) rewrite P2. reflexivity.
    + (* ; *) cbn [obind]. repeat f_equal. destruct (Z.eqb_spec (Z.of_nat (depth x)) 0); destruct (Nat.eqb_spec (depth x) 0); try lia; reflexivity.
    + (* = *) rewrite (top_equal _ _ _ _ T W). reflexivity.
  - (* an operator *)
    cbn [CssProofs7.pmulti]. rewrite (pstep_norm x st v _ I) by exact Logic.I.
    pose proof (i_media _ _ _ I) as M. unfold media_of in M. rewrite (i_v _ _ _ I) in M.
    assert (M2 : at_rule x || some_and is_a_media (hd_error v) = at_rule x) by (rewrite <- M, <- orb_assoc, orb_diag; reflexivity).
    exists (mk (tok x (Match c) :: v) false (Z.of_nat (depth x)) (at_rule x) (bracket x) false). split.
    2: { exact (done_mk x (Match c) v false Q eq_refl). }
    assert (R1 : pstep (norm x v) (PPunct c) = Ok (mk (TChar (rc c) :: v) false (Z.of_nat (depth x)) (at_rule x) (bracket x) false)).
    { unfold CssProofs1.pstep, norm. cbn [mmedia mblock mattr mk]. change (fillp (mk v false (Z.of_nat (depth x)) (at_rule x) (bracket x) false)) with v. rewrite M2.
      destruct (match_chars c P) as [->|[->|[->|[->| ->]]]]; reflexivity. }
    rewrite R1. cbn [obind].
    assert (R2 : pstep (mk (TChar (rc c) :: v) false (Z.of_nat (depth x)) (at_rule x) (bracket x) false) (PPunct 0x3D)
      = Ok (mk (tok x (Match c) :: v) false (Z.of_nat (depth x)) (at_rule x) (bracket x) false)).
    { unfold CssProofs1.pstep.
      match goal with |- context [CssProofs1.fillp _ (mk ?a ?b ?d ?e ?f ?h)] => change (fillp (mk a b d e f h)) with a end.
      cbn [mmedia mblock mattr mk hd_error some_and is_a_media]. rewrite orb_false_r.
      destruct (match_chars c P) as [->|[->|[->|[->| ->]]]]; reflexivity. }
    rewrite R2. reflexivity.
  - (* a licence *)
    cbn [CssProofs7.pmulti]. rewrite (pstep_norm x st v _ I) by exact Logic.I. eexists. split.
    { unfold CssProofs1.pstep, norm. cbn [mmedia mblock mattr mk]. change (fillp (mk v false (Z.of_nat (depth x)) (at_rule x) (bracket x) false)) with v.
      pose proof (i_media _ _ _ I) as M. unfold media_of in M. rewrite (i_v _ _ _ I) in M.
      assert (M2 : at_rule x || some_and is_a_media (hd_error v) = at_rule x) by (rewrite <- M, <- orb_assoc, orb_diag; reflexivity). rewrite M2. reflexivity. }
    exact (done_mk x (Licence c b) v false Q eq_refl).
  - (* an escape *)
    cbn [CssProofs7.pmulti]. rewrite (pstep_norm x st v _ I) by exact Logic.I. eexists. split.
    { unfold CssProofs1.pstep at 1. unfold norm. cbn [mmedia mblock mattr mk]. change (fillp (mk v false (Z.of_nat (depth x)) (at_rule x) (bracket x) false)) with v.
      pose proof (i_media _ _ _ I) as M. unfold media_of in M. rewrite (i_v _ _ _ I) in M.
      assert (M2 : at_rule x || some_and is_a_media (hd_error v) = at_rule x) by (rewrite <- M, <- orb_assoc, orb_diag; reflexivity). rewrite M2. reflexivity. }
    exact (done_mk x (Escape c) v false Q eq_refl).
Qed.

End Plain.
