(** The tokenizer follows the lexical specification. *)
From Coq Require Import String List NArith ZArith Bool Lia ZifyBool ZifyN Arith.
From Verif Require Import Base JsModel JsUtilModel JsUtilSpec JsUtilProofs JsUtilProofs2 JsLexSpec JsLexProofs1.
Import ListNotations.
Open Scope N_scope.

(** Characters after which the tokenizer does not look ahead. *)
Definition quiet (c : N) : bool := negb (mem_char c [0x2F; 0x2E; 0x60]).

Fixpoint numbered (pos : nat) (s : str) : list (nat * N) :=
  match s with
  | [] => []
  | c :: r => (pos, c) :: numbered (pos + len_utf8 c) r
  end.

Lemma numbered_length : forall s pos, length (numbered pos s) = length s.
Proof. induction s as [|c s IH]; intro pos; cbn [numbered length]; [reflexivity|]. rewrite IH. reflexivity. Qed.

(** The iterator stands at the end of [pre], with [s] to come.  What comes first may have been
    saved before (when a regular expression was tried); nothing is saved if [k]. *)
Definition at_b (k : bool) (it : peekable) (pre s : str) : Prop :=
  is_saving it = false /\
  exists sv r, s = sv ++ r /\ saved it = numbered (blen pre) sv /\ (k = true -> sv = [])
  /\ Forall (fun c => quiet c = true) sv
  /\ ((peeked it = None /\ ipos it = blen (pre ++ sv) /\ irest it = r)
      \/ (exists c r', sv = [] /\ peeked it = Some (blen pre, c) /\ r = c :: r'
          /\ ipos it = (blen pre + len_utf8 c)%nat /\ irest it = r')).

Notation at_ := (at_b true).
Notation near := (at_b false).

Lemma at_near : forall k it pre s, at_b k it pre s -> near it pre s.
Proof.
  intros k it pre s (A & sv & r & B & C & D & E). split; [exact A|]. exists sv, r.
  split; [exact B|]. split; [exact C|]. split; [discriminate|exact E].
Qed.

Lemma at_idle : forall k it pre s, at_b k it pre s -> idle it.
Proof. intros k it pre s (H & _). exact H. Qed.

Lemma at_left : forall k it pre s, at_b k it pre s -> left_over it = length s.
Proof.
  intros k it pre s (A & sv & r & -> & B & _ & _ & [(C & D & E)|(c & r' & -> & C & -> & D & E)]); unfold left_over;
    rewrite B, C, E, numbered_length, app_length; cbn; lia.
Qed.

Lemma blen_snoc : forall pre c, blen (pre ++ [c]) = (blen pre + len_utf8 c)%nat.
Proof. intros. rewrite blen_app. cbn. lia. Qed.

(** The next character; if it is not quiet nothing is saved any more. *)
Lemma next_loud : forall k it pre c s, at_b k it pre (c :: s) ->
  exists it', next it = (Some (blen pre, c), it') /\ at_b (k || negb (quiet c)) it' (pre ++ [c]) s.
Proof.
  intros k [ip ir sd pk sa] pre c s (A & sv & r & X & B & K & Q & H); cbn in A, B, H; subst sa sd.
  destruct H as [(C & D & E)|(d & r' & -> & C & -> & D & E)]; subst pk ip ir.
  - destruct sv as [|a sv].
    + cbn [app] in X. subst r. rewrite app_nil_r. unfold next. cbn. eexists. split; [reflexivity|].
      split; [reflexivity|]. exists [], s. cbn. rewrite !app_nil_r, blen_snoc. auto 8.
    + cbn [app] in X. injection X as <- ->. unfold next. cbn [peeked is_saving saved numbered negb]. eexists. split; [reflexivity|].
      split; [reflexivity|]. exists sv, r. split; [reflexivity|]. cbn [saved set_saved ipos irest peeked].
      inversion Q as [|? ? Qa Q']; subst. rewrite Qa. split; [rewrite blen_snoc; reflexivity|].
      split.
      * intro H. rewrite orb_false_r in H. specialize (K H). discriminate.
      * split; [exact Q'|]. left. rewrite <- app_assoc. auto.
  - cbn [app] in X. injection X as <- <-. unfold next. cbn. eexists. split; [reflexivity|].
    split; [reflexivity|]. exists [], s. cbn. rewrite !app_nil_r, blen_snoc. auto 8.
Qed.

Lemma next_at : forall k it pre c s, at_b k it pre (c :: s) ->
  exists it', next it = (Some (blen pre, c), it') /\ at_b k it' (pre ++ [c]) s.
Proof.
  intros k it pre c s H. destruct (next_loud _ _ _ _ _ H) as (it' & E & H'). exists it'. split; [exact E|].
  destruct k; [exact H'|]. exact (at_near _ _ _ _ H').
Qed.

Lemma next_at_nil : forall k it pre, at_b k it pre [] -> next it = (None, it).
Proof.
  intros k it pre (A & sv & r & X & B & _ & _ & H). symmetry in X. apply app_eq_nil in X. destruct X as [-> ->].
  destruct H as [(C & D & E)|(d & r' & _ & C & X & D & E)]; [|discriminate].
  unfold next. rewrite C, B, A. cbn [negb numbered]. unfold inner_next. rewrite E. reflexivity.
Qed.

(** Nothing saved. *)
Lemma at_iff : forall it pre s, at_ it pre s <->
  saved it = [] /\ is_saving it = false /\
  ((peeked it = None /\ ipos it = blen pre /\ irest it = s)
   \/ (exists c r, peeked it = Some (blen pre, c) /\ s = c :: r
       /\ ipos it = (blen pre + len_utf8 c)%nat /\ irest it = r)).
Proof.
  intros it pre s. split.
  - intros (A & sv & r & X & B & K & _ & H). specialize (K eq_refl). subst sv. cbn [app numbered] in *. subst r.
    rewrite app_nil_r in H. split; [exact B|]. split; [exact A|].
    destruct H as [H|(c & r & _ & H)]; [left; exact H|right; eauto].
  - intros (A & B & H). split; [exact B|]. exists [], s. cbn [app numbered]. rewrite app_nil_r.
    split; [reflexivity|]. split; [exact A|]. split; [reflexivity|]. split; [constructor|].
    destruct H as [H|(c & r & H)]; [left; exact H|right; exists c, r; auto].
Qed.

Lemma peek_at : forall it pre s, at_ it pre s ->
  exists it', peek it = (match s with c :: _ => Some (blen pre, c) | [] => None end, it')
  /\ at_ it' pre s.
Proof.
  intros it pre s H. apply at_iff in H. destruct it as [ip ir sv pk sa].
  destruct H as (A & B & [(C & D & E)|(d & r & C & -> & D & E)]); cbn in A, B, C, D, E; subst.
  - unfold peek. cbn [peeked]. unfold inner_next. cbn [irest]. destruct s as [|c r]; eexists;
      (split; [reflexivity|]); apply at_iff; cbn.
    + split; [reflexivity|]. split; [reflexivity|]. left. auto.
    + split; [reflexivity|]. split; [reflexivity|]. right. exists c, r. auto.
  - unfold peek. cbn [peeked]. eexists. split; [reflexivity|]. apply at_iff. cbn. split; [reflexivity|].
    split; [reflexivity|]. right. exists d, r. auto.
Qed.

Lemma at_new : forall s, at_ (peekable_new s) [] s.
Proof. intro s. apply at_iff. unfold peekable_new. cbn. split; [reflexivity|]. split; [reflexivity|]. left. auto. Qed.

Ltac chars c :=
  repeat match goal with
  | |- context [c =? ?x] =>
      let E := fresh "E" in
      destruct (c =? x) eqn:E; [apply N.eqb_eq in E; subst c | clear E]
  end.

Lemma rchar_of_punct : forall c, rchar_of c = None <-> word_char c = true.
Proof.
  intro c. unfold word_char, mem_char, rchar_of.
  let p := eval vm_compute in punctuation in change punctuation with p.
  cbn [existsb]. chars c; cbn; split; congruence.
Qed.

Lemma word_char_none : forall c, word_char c = true -> rchar_of c = None.
Proof. intros c H. now apply rchar_of_punct. Qed.

Definition quote_of (q : N) : rchar := if q =? 0x22 then DoubleQuote else Quote.

Lemma rchar_quote : forall q c, (q = 0x22 \/ q = 0x27) -> c <> q ->
  match rchar_of c with Some k => rchar_eqb k (quote_of q) = false | None => True end.
Proof.
  intros q c H N. destruct (rchar_of c) as [k|] eqn:E; [|exact I].
  apply rchar_of_sound in E. destruct (rchar_eqb k (quote_of q)) eqn:Q; [|reflexivity].
  apply rchar_eqb_eq in Q. subst k. exfalso. destruct E as [E|[_ E]].
  - apply N. rewrite <- E. destruct H; subst q; reflexivity.
  - destruct H; subst q; discriminate E.
Qed.

(** ** Literals *)

Ltac norm := repeat first [rewrite <- app_assoc | progress cbn [app]].
Tactic Notation "norm_in" hyp(H) := repeat first [rewrite <- app_assoc in H | progress cbn [app] in H].

Lemma slice_of : forall source a b c, source = a ++ b ++ c ->
  oslice (slice source (blen a) (blen a + blen b)) = Ok b.
Proof. intros. subst. rewrite slice_mid. reflexivity. Qed.

Lemma string_loop_spec : forall q, (q = 0x22 \/ q = 0x27) ->
  forall b, string_body q b ->
  forall k n source p0 mid s it,
  source = p0 ++ (q :: mid) ++ (b ++ q :: s) ->
  at_b k it (p0 ++ q :: mid) (b ++ q :: s) -> (length (b ++ q :: s) < n)%nat ->
  exists it', string_loop n source it (blen p0) (quote_of q)
    = Ok (Some (TString (q :: mid ++ b ++ [q])), blen (p0 ++ q :: mid ++ b), it')
    /\ at_b k it' (p0 ++ q :: mid ++ b ++ [q]) s.
Proof.
  intros q Hq b Hb. induction Hb as [|c b C1 C2 Hb IH|c b Hb IH]; intros k n source p0 mid s it Hs Ha Hn.
  - destruct n as [|n]; [lia|]. cbn [app] in *. cbn [string_loop].
    destruct (next_at _ _ _ _ _ Ha) as (it' & -> & Ha').
    replace (q =? 0x5C) with false by (destruct Hq; subst q; reflexivity).
    replace (rchar_of q) with (Some (quote_of q)) by (destruct Hq; subst q; reflexivity).
    replace (rchar_eqb (quote_of q) (quote_of q)) with true by (symmetry; now apply rchar_eqb_eq).
    assert (L : (blen (p0 ++ q :: mid) + 1 = blen p0 + blen (q :: mid ++ [q]))%nat).
    { rewrite !blen_app. cbn [blen]. rewrite blen_app. cbn [blen].
      replace (len_utf8 q) with 1%nat by (destruct Hq; subst q; reflexivity). lia. }
    rewrite L. rewrite (slice_of source p0 (q :: mid ++ [q]) s).
    2:{ subst source. cbn [app]. rewrite <- !app_assoc. reflexivity. }
    cbn [obind]. exists it'. rewrite app_nil_r. split; [reflexivity|].
    replace (p0 ++ q :: mid ++ [q]) with ((p0 ++ q :: mid) ++ [q]); [exact Ha'|].
    rewrite <- app_assoc. reflexivity.
  - destruct n as [|n]; [lia|]. cbn [app] in *. cbn [string_loop].
    destruct (next_at _ _ _ _ _ Ha) as (it' & -> & Ha').
    replace (c =? 0x5C) with false by (symmetry; now apply N.eqb_neq).
    pose proof (rchar_quote q c Hq C1) as R.
    assert (X : exists it'', string_loop n source it' (blen p0) (quote_of q)
      = Ok (Some (TString (q :: mid ++ (c :: b) ++ [q])), blen (p0 ++ q :: mid ++ c :: b), it'')
      /\ at_b k it'' (p0 ++ q :: mid ++ (c :: b) ++ [q]) s).
    { destruct (IH k n source p0 (mid ++ [c]) s it') as (it2 & E1 & E2).
      - subst source. cbn [app]. rewrite <- !app_assoc. reflexivity.
      - replace (p0 ++ q :: mid ++ [c]) with ((p0 ++ q :: mid) ++ [c]); [exact Ha'|].
        rewrite <- app_assoc. reflexivity.
      - cbn [length] in Hn. lia.
      - rewrite <- !app_assoc in *. cbn [app] in *. exists it2. split; [exact E1|exact E2]. }
    destruct (rchar_of c) as [k0|]; [rewrite R|]; exact X.
  - destruct n as [|n]; [lia|]. cbn [app] in *. cbn [string_loop].
    destruct (next_at _ _ _ _ _ Ha) as (it1 & -> & Ha1).
    change (0x5C =? 0x5C) with true. cbv iota.
    destruct (next_at _ _ _ _ _ Ha1) as (it2 & E & Ha2). rewrite E. cbn [snd].
    destruct (IH k n source p0 (mid ++ [0x5C; c]) s it2) as (it3 & E1 & E2).
    + subst source. cbn [app]. rewrite <- !app_assoc. reflexivity.
    + replace (p0 ++ q :: mid ++ [0x5C; c]) with (((p0 ++ q :: mid) ++ [0x5C]) ++ [c]); [exact Ha2|].
      rewrite <- !app_assoc. reflexivity.
    + cbn [length] in Hn. lia.
    + rewrite <- !app_assoc in *. cbn [app] in *. exists it3. split; [exact E1|exact E2].
Qed.

Scheme template_ind2 := Induction for template_body Sort Prop
with interpolation_ind2 := Induction for interpolation Sort Prop.
Combined Scheme template_interpolation_ind from template_ind2, interpolation_ind2.

Lemma template_loops :
  (forall d b, template_body d b ->
   forall n source p0 mid s it,
   source = p0 ++ (0x60 :: mid) ++ (b ++ 0x60 :: s) ->
   at_ it (p0 ++ 0x60 :: mid) (b ++ 0x60 :: s) -> (lt (length (b ++ 0x60 :: s)) n) ->
   exists it', backtick_loop n source it (blen p0) d
     = Ok (Some (TString (0x60 :: mid ++ b ++ [0x60])), blen (p0 ++ 0x60 :: mid ++ b), it')
     /\ at_ it' (p0 ++ 0x60 :: mid ++ b ++ [0x60]) s)
  /\ (forall d k i, interpolation d k i ->
   forall n source pre s it,
   source = pre ++ i ++ s ->
   at_ it pre (i ++ s) -> (length (i ++ s) < n)%nat ->
   exists it', interp_loop n source it d (Z.of_nat k) = Ok (true, it')
     /\ at_ it' (pre ++ i) s).
Proof.
  apply template_interpolation_ind.
  - (* end of a template *)
    intros d n source p0 mid s it Hs Ha Hn. destruct n as [|n]; [lia|]. cbn [app] in *. cbn [backtick_loop].
    destruct (next_at _ _ _ _ _ Ha) as (it' & -> & Ha').
    change (0x60 =? 0x5C) with false. change (0x60 =? 0x24) with false. change (0x60 =? 0x60) with true.
    cbv iota.
    assert (L : Nat.add (blen (p0 ++ 0x60 :: mid)) 1 = Nat.add (blen p0) (blen (0x60 :: mid ++ [0x60]))).
    { rewrite !blen_app. cbn [blen]. rewrite blen_app. cbn [blen].
      change (len_utf8 0x60) with 1%nat. lia. }
    rewrite L. rewrite (slice_of source p0 (0x60 :: mid ++ [0x60]) s).
    2:{ subst source. norm. reflexivity. }
    cbn [obind]. exists it'. rewrite app_nil_r. split; [reflexivity|].
    replace (p0 ++ 0x60 :: mid ++ [0x60]) with ((p0 ++ 0x60 :: mid) ++ [0x60]); [exact Ha'|].
    norm. reflexivity.
  - (* plain character *)
    intros d c b C1 C2 C3 Hb IH n source p0 mid s it Hs Ha Hn.
    destruct n as [|n]; [lia|]. cbn [app] in *. cbn [backtick_loop].
    destruct (next_at _ _ _ _ _ Ha) as (it' & -> & Ha').
    replace (c =? 0x5C) with false by (symmetry; now apply N.eqb_neq).
    replace (c =? 0x24) with false by (symmetry; now apply N.eqb_neq).
    replace (c =? 0x60) with false by (symmetry; now apply N.eqb_neq).
    destruct (IH n source p0 (mid ++ [c]) s it') as (it2 & E1 & E2).
    + subst source. norm. reflexivity.
    + replace (p0 ++ 0x60 :: mid ++ [c]) with ((p0 ++ 0x60 :: mid) ++ [c]); [exact Ha'|].
      norm. reflexivity.
    + cbn [length] in Hn. lia.
    + rewrite <- !app_assoc in *. cbn [app] in *. exists it2. split; [exact E1|exact E2].
  - (* escape *)
    intros d c b Hb IH n source p0 mid s it Hs Ha Hn.
    destruct n as [|n]; [lia|]. cbn [app] in *. cbn [backtick_loop].
    destruct (next_at _ _ _ _ _ Ha) as (it1 & -> & Ha1).
    change (0x5C =? 0x5C) with true. cbv iota.
    destruct (next_at _ _ _ _ _ Ha1) as (it2 & E & Ha2). rewrite E. cbn [snd].
    destruct (IH n source p0 (mid ++ [0x5C; c]) s it2) as (it3 & E1 & E2).
    + subst source. norm. reflexivity.
    + replace (p0 ++ 0x60 :: mid ++ [0x5C; c]) with (((p0 ++ 0x60 :: mid) ++ [0x5C]) ++ [c]); [exact Ha2|].
      norm. reflexivity.
    + cbn [length] in Hn. lia.
    + rewrite <- !app_assoc in *. cbn [app] in *. exists it3. split; [exact E1|exact E2].
  - (* dollar *)
    intros d b Hd Hb IH n source p0 mid s it Hs Ha Hn.
    destruct n as [|n]; [lia|]. cbn [app] in *. cbn [backtick_loop].
    destruct (next_at _ _ _ _ _ Ha) as (it1 & -> & Ha1).
    change (0x24 =? 0x5C) with false. change (0x24 =? 0x24) with true. cbv iota.
    destruct (peek_at _ _ _ Ha1) as (it2 & -> & Ha2).
    replace (match match b ++ 0x60 :: s with [] => None | c :: _ => Some (blen ((p0 ++ 0x60 :: mid) ++ [0x24]), c) end with
             | Some (_, d0) => d0 =? 0x7B | None => false end) with false.
    2:{ destruct b as [|c b]; cbn [app]; [reflexivity|]. symmetry. apply N.eqb_neq. intros ->. apply Hd. reflexivity. }
    destruct (IH n source p0 (mid ++ [0x24]) s it2) as (it3 & E1 & E2).
    + subst source. norm. reflexivity.
    + replace (p0 ++ 0x60 :: mid ++ [0x24]) with ((p0 ++ 0x60 :: mid) ++ [0x24]); [exact Ha2|].
      norm. reflexivity.
    + cbn [length] in Hn. lia.
    + rewrite <- !app_assoc in *. cbn [app] in *. exists it3. split; [exact E1|exact E2].
  - (* interpolation *)
    intros d i b Hi IHi Hb IHb n source p0 mid s it Hs Ha Hn.
    destruct n as [|n]; [lia|]. cbn [app] in *. cbn [backtick_loop].
    destruct (next_at _ _ _ _ _ Ha) as (it1 & -> & Ha1).
    change (0x24 =? 0x5C) with false. change (0x24 =? 0x24) with true. cbv iota.
    destruct (peek_at _ _ _ Ha1) as (it2 & -> & Ha2).
    change (0x7B =? 0x7B) with true. cbv iota.
    assert (OPEN : exists it3, interp_loop n source it2 d 0%Z = Ok (true, it3)
              /\ at_ it3 (p0 ++ 0x60 :: (mid ++ 0x24 :: 0x7B :: i)) (b ++ 0x60 :: s)).
    { destruct n as [|n]; [cbn in Hn; lia|]. cbn [interp_loop].
      destruct (next_at _ _ _ _ _ Ha2) as (it3 & -> & Ha3).
      change (0x7B =? 0x5C) with false. change ((0x7B =? 0x22) || (0x7B =? 0x27)) with false.
      change (0x7B =? 0x60) with false. change (0x7B =? 0x7B) with true. cbv iota.
      rewrite <- (app_assoc i b) in Ha3.
      destruct (IHi n source (((p0 ++ 0x60 :: mid) ++ [0x24]) ++ [0x7B]) (b ++ 0x60 :: s) it3) as (it4 & E1 & E2).
      - subst source. norm. reflexivity.
      - exact Ha3.
      - rewrite <- (app_assoc i b) in Hn. cbn [length] in Hn. lia.
      - exists it4. change (0 + 1)%Z with (Z.of_nat 1). split; [exact E1|].
        replace (p0 ++ 0x60 :: mid ++ 0x24 :: 0x7B :: i) with ((((p0 ++ 0x60 :: mid) ++ [0x24]) ++ [0x7B]) ++ i); [exact E2|].
        norm. reflexivity. }
    destruct OPEN as (it3 & -> & Ha3). cbn [obind].
    destruct (IHb n source p0 (mid ++ 0x24 :: 0x7B :: i) s it3) as (it4 & E1 & E2).
    + subst source. norm. reflexivity.
    + exact Ha3.
    + rewrite <- app_assoc in Hn. cbn [length] in Hn. rewrite app_length in Hn. lia.
    + norm_in E1. norm_in E2. norm. exists it4. split; [exact E1|exact E2].
  - (* end of an interpolation *)
    intros d n source pre s it Hs Ha Hn. destruct n as [|n]; [cbn in Hn; lia|]. cbn [app] in *. cbn [interp_loop].
    destruct (next_at _ _ _ _ _ Ha) as (it1 & -> & Ha1). cbn. eauto.
  - (* inner closing brace *)
    intros d k i Hi IH n source pre s it Hs Ha Hn. destruct n as [|n]; [cbn in Hn; lia|]. cbn [app] in *. cbn [interp_loop].
    destruct (next_at _ _ _ _ _ Ha) as (it1 & -> & Ha1).
    change (0x7D =? 0x5C) with false. change ((0x7D =? 0x22) || (0x7D =? 0x27)) with false.
    change (0x7D =? 0x60) with false. change (0x7D =? 0x7B) with false. change (0x7D =? 0x7D) with true. cbv iota.
    replace (Z.eqb (Z.of_nat (S (S k)) - 1) 0) with false by (symmetry; apply Z.eqb_neq; lia).
    replace (Z.of_nat (S (S k)) - 1)%Z with (Z.of_nat (S k)) by lia.
    destruct (IH n source (pre ++ [0x7D]) s it1) as (it2 & E1 & E2); auto.
    + subst. norm. reflexivity.
    + cbn [length] in Hn. lia.
    + exists it2. rewrite <- app_assoc in E2. auto.
  - (* opening brace *)
    intros d k i Hi IH n source pre s it Hs Ha Hn. destruct n as [|n]; [cbn in Hn; lia|]. cbn [app] in *. cbn [interp_loop].
    destruct (next_at _ _ _ _ _ Ha) as (it1 & -> & Ha1).
    change (0x7B =? 0x5C) with false. change ((0x7B =? 0x22) || (0x7B =? 0x27)) with false.
    change (0x7B =? 0x60) with false. change (0x7B =? 0x7B) with true. cbv iota.
    replace (Z.of_nat k + 1)%Z with (Z.of_nat (S k)) by lia.
    destruct (IH n source (pre ++ [0x7B]) s it1) as (it2 & E1 & E2); auto.
    + subst. norm. reflexivity.
    + cbn [length] in Hn. lia.
    + exists it2. rewrite <- app_assoc in E2. auto.
  - (* plain character *)
    intros d k c i Hc Hi IH n source pre s it Hs Ha Hn. destruct n as [|n]; [cbn in Hn; lia|]. cbn [app] in *. cbn [interp_loop].
    destruct (next_at _ _ _ _ _ Ha) as (it1 & -> & Ha1).
    unfold mem_char in Hc. cbn [existsb] in Hc.
    repeat (apply orb_false_iff in Hc; destruct Hc as [?Hc Hc]).
    replace (c =? 0x5C) with false by congruence. replace (c =? 0x22) with false by congruence.
    replace (c =? 0x27) with false by congruence. replace (c =? 0x60) with false by congruence.
    replace (c =? 0x7B) with false by congruence. replace (c =? 0x7D) with false by congruence. cbn [orb].
    destruct (IH n source (pre ++ [c]) s it1) as (it2 & E1 & E2); auto.
    + subst. norm. reflexivity.
    + cbn [length] in Hn. lia.
    + exists it2. rewrite <- app_assoc in E2. auto.
  - (* escape *)
    intros d k c i Hi IH n source pre s it Hs Ha Hn. destruct n as [|n]; [cbn in Hn; lia|]. cbn [app] in *. cbn [interp_loop].
    destruct (next_at _ _ _ _ _ Ha) as (it1 & -> & Ha1).
    change (0x5C =? 0x5C) with true. cbv iota.
    destruct (next_at _ _ _ _ _ Ha1) as (it2 & E & Ha2). rewrite E. cbn [snd].
    destruct (IH n source ((pre ++ [0x5C]) ++ [c]) s it2) as (it3 & E1 & E2); auto.
    + subst. norm. reflexivity.
    + cbn [length] in Hn. lia.
    + exists it3. rewrite <- !app_assoc in E2. auto.
  - (* string *)
    intros d k q b i Hq Hb Hi IH n source pre s it Hs Ha Hn. destruct n as [|n]; [cbn in Hn; lia|].
    cbn [app] in *. rewrite <- app_assoc in *. cbn [app] in *. cbn [interp_loop].
    destruct (next_at _ _ _ _ _ Ha) as (it1 & -> & Ha1).
    replace (q =? 0x5C) with false by (destruct Hq; subst q; reflexivity).
    replace ((q =? 0x22) || (q =? 0x27)) with true by (destruct Hq; subst q; reflexivity).
    fold (quote_of q).
    destruct (string_loop_spec q Hq b Hb true n source pre [] (i ++ s) it1) as (it2 & -> & Ha2).
    + subst. reflexivity.
    + exact Ha1.
    + cbn [length] in Hn. lia.
    + cbn [obind]. cbn [app] in Ha2.
      destruct (IH n source (pre ++ q :: b ++ [q]) s it2) as (it3 & E1 & E2); auto.
      * subst. norm. reflexivity.
      * cbn [length] in Hn. rewrite app_length in Hn. cbn [length] in Hn. lia.
      * exists it3. norm_in E2. norm. auto.
  - (* nested template *)
    intros d k b i Hd Hb IHb Hi IH n source pre s it Hs Ha Hn. destruct n as [|n]; [cbn in Hn; lia|].
    cbn [app] in *. rewrite <- app_assoc in *. cbn [app] in *. cbn [interp_loop].
    destruct (next_at _ _ _ _ _ Ha) as (it1 & -> & Ha1).
    change (0x60 =? 0x5C) with false. change ((0x60 =? 0x22) || (0x60 =? 0x27)) with false.
    change (0x60 =? 0x60) with true. cbv iota.
    replace (max_backtick_nesting <=? d) with false by (symmetry; apply N.leb_gt; exact Hd).
    destruct (IHb n source pre [] (i ++ s) it1) as (it2 & -> & Ha2).
    + subst. reflexivity.
    + exact Ha1.
    + cbn [length] in Hn. lia.
    + cbn [obind]. cbn [app] in Ha2.
      destruct (IH n source (pre ++ 0x60 :: b ++ [0x60]) s it2) as (it3 & E1 & E2); auto.
      * subst. norm. reflexivity.
      * cbn [length] in Hn. rewrite app_length in Hn. cbn [length] in Hn. lia.
      * exists it3. norm_in E2. norm. auto.
Qed.
