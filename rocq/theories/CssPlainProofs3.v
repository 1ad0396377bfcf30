(** Plain style sheets, third part: all their tokens, and the text that is printed. *)
From Coq Require Import String Arith List NArith ZArith Bool Lia.
From Verif Require Import Base CssModel CssSpec CssProofs1 CssProofs2 CssProofs3 CssProofs7 CssPlainSpec CssPlainProofs1 CssPlainProofs2.
Import ListNotations.
Open Scope N_scope.

Ltac signs K := apply among_in in K; cbn in K; repeat (destruct K as [<-|K]); [..|contradiction].

Section Plain.
Variable letter_u : N -> bool.
Notation kind_of := (kind_of letter_u).
Notation step := (step letter_u).
Notation fillp := (fillp letter_u).
Notation pstep := (pstep letter_u).
Notation pmulti := (pmulti letter_u).
Notation prun := (prun letter_u).
Notation tok := (tok letter_u).
Notation toks := (toks letter_u).
Notation inv := (inv letter_u).

Lemma kind_pushes : forall k t r, tk k t -> push_blank (t :: r) = pushes (Some k).
Proof.
  intros k t r K. destruct k; cbn [tk] in K.
  - destruct K as [s ->]. reflexivity.
  - destruct K as (e & -> & _). reflexivity.
  - destruct K as [s ->]. reflexivity.
  - destruct K as [[s ->]|[o ->]]; reflexivity.
  - destruct K as [b ->]. reflexivity.
  - destruct K as [s ->]. reflexivity.
  - destruct K as [K ->]. signs K; reflexivity.
Qed.

Lemma push_space : forall v, push_blank (TChar Space :: v) = false.
Proof. reflexivity. Qed.

Lemma read_gap_mk : forall x g v c, (some_and is_a_media (hd_error v) = true -> at_rule x = true) ->
  pmulti (mk v c (Z.of_nat (depth x)) (at_rule x) (bracket x) false) (map filler_piece g)
  = Ok (mk (rev (gtoks (push_blank v) g) ++ v) (match g with [] => c | _ => false end) (Z.of_nat (depth x)) (at_rule x) (bracket x) false).
Proof.
  intros x. induction g as [|f g IH]; intros v c H; [reflexivity|]. cbn [map CssProofs7.pmulti].
  assert (M : at_rule x || some_and is_a_media (hd_error v) = at_rule x).
  { destruct (some_and is_a_media (hd_error v)); [rewrite H by reflexivity|]; now rewrite ?orb_false_r, ?orb_true_r. }
  assert (E : forall b : bool, (match g with [] => false | _ => false end) = false) by (destruct g; reflexivity).
  destruct f as [d|b]; cbn [filler_piece].
  - assert (R : pstep (mk v c (Z.of_nat (depth x)) (at_rule x) (bracket x) false) PBlank
      = Ok (mk (if push_blank v then TChar Space :: v else v) false (Z.of_nat (depth x)) (at_rule x) (bracket x) false)).
    { unfold CssProofs1.pstep. change (fillp (mk v c (Z.of_nat (depth x)) (at_rule x) (bracket x) false)) with v. cbn [mmedia mblock mattr mk]. rewrite M. reflexivity. }
    rewrite R. cbn [obind gtoks]. destruct (push_blank v) eqn:P.
    + rewrite IH by discriminate. rewrite (E true), push_space. cbn [app]. cbn [rev]. rewrite <- app_assoc. reflexivity.
    + rewrite IH by exact H. rewrite (E true), P. reflexivity.
  - assert (R : pstep (mk v c (Z.of_nat (depth x)) (at_rule x) (bracket x) false) (PCom b)
      = Ok (mk (TComment b :: v) false (Z.of_nat (depth x)) (at_rule x) (bracket x) false)).
    { unfold CssProofs1.pstep. change (fillp (mk v c (Z.of_nat (depth x)) (at_rule x) (bracket x) false)) with v. cbn [mmedia mblock mattr mk]. rewrite M. reflexivity. }
    rewrite R. cbn [obind gtoks]. rewrite IH by discriminate. rewrite (E true). cbn [rev]. rewrite <- app_assoc. reflexivity.
Qed.

Lemma top_push : forall x st v, top x None st v -> push_blank v = pushes (last x).
Proof.
  intros x st v H. cbn [top] in H. destruct (last x) as [k|].
  - destruct H as (t & r & -> & K & _). apply kind_pushes, K.
  - destruct H as (-> & _). reflexivity.
Qed.

Lemma read_gap : forall x g st v, inv x st v -> top x None st v -> g <> [] ->
  exists st', pmulti st (map filler_piece g) = Ok st' /\
    inv x st' (rev (gtoks (pushes (last x)) g) ++ v) /\ top x (Some g) st' (rev (gtoks (pushes (last x)) g) ++ v).
Proof.
  intros x g st v I T G.
  assert (M : some_and is_a_media (hd_error v) = true -> at_rule x = true).
  { intro M. rewrite <- (i_media _ _ _ _ I). unfold media_of. rewrite (i_v _ _ _ _ I), M. apply orb_true_r. }
  eexists. split.
  { destruct g as [|f g]; [congruence|]. cbn [map CssProofs7.pmulti].
    rewrite (pstep_norm letter_u x st v _ I) by (destruct f; exact Logic.I).
    apply (read_gap_mk x (f :: g) v false M). }
  rewrite (top_push _ _ _ T). split.
  - apply inv_mk. intro N. destruct (rev (gtoks (pushes (last x)) g)) as [|t r] eqn:E; [apply M, N|].
    assert (K : In t (gtoks (pushes (last x)) g)) by (apply in_rev; rewrite E; left; reflexivity).
    pose proof (gtoks_blankish g (pushes (last x))) as F. rewrite Forall_forall in F. destruct (F t K) as [->|[b ->]]; discriminate N.
  - cbn [top]. split; [reflexivity|]. split; [destruct g; reflexivity|]. exists v. split; [reflexivity|].
    cbn [top] in T. destruct (last x); [|tauto]. destruct T as (t & r & -> & K & _). eauto.
Qed.

Lemma read_all : forall l x g st v, inv x st v -> top x g st v -> plain letter_u x g l = true ->
  prun st (all_pieces l) None = Ok (rev v ++ toks x l).
Proof.
  induction l as [|i l IH]; intros x g st v I T P.
  - cbn [all_pieces flat_map CssProofs1.prun CssPlainProofs2.toks]. rewrite (i_v _ _ _ _ I), app_nil_r. reflexivity.
  - cbn [all_pieces flat_map]. fold (all_pieces l). rewrite prun_app. destruct i as [g'|p]; cbn [plain item_pieces CssPlainProofs2.toks] in *.
    + destruct g; [discriminate|]. apply andb_true_iff in P. destruct P as [P Q]. apply andb_true_iff in P. destruct P as [P _].
      destruct (read_gap x g' st v I T) as (st' & R & I' & T'); [destruct g'; congruence|]. rewrite R. cbn [obind].
      rewrite (IH x (Some g') st' _ I' T' Q). rewrite rev_app_distr, rev_involutive, <- app_assoc. reflexivity.
    + apply andb_true_iff in P. destruct P as [P Q]. apply andb_true_iff in P. destruct P as [P D].
      destruct (read_part letter_u x g p st v I T P D) as (st' & R & I' & T'). rewrite R. cbn [obind].
      rewrite (IH _ None st' _ I' T' Q). cbn [rev]. rewrite rev_app_distr, rev_involutive, <- !app_assoc. reflexivity.
Qed.

(** ** Cleaning *)

Definition Bl (t : token) : Prop := t = TChar Space \/ exists c, t = TComment c.

Lemma bl_blankish : forall t, Bl t -> blankish t = true.
Proof. intros t [->|[c ->]]; reflexivity. Qed.

Lemma bl_space : forall t, Bl t -> (if CssModel.is_comment t then TChar Space else t) = TChar Space.
Proof. intros t [->|[c ->]]; reflexivity. Qed.

Lemma bl_calc : forall t c n, Bl t -> calc_step t c n = (c, n).
Proof. intros t c n [->|[b ->]]; destruct c; reflexivity. Qed.

Lemma retain_space : forall n c, retain_blank (TChar Space) n c = false.
Proof. intros n c. destruct c; unfold retain_blank; cbn; reflexivity. Qed.

Lemma cz_after_space : forall G o c n, Forall Bl G -> cz (Some (TChar Space)) c n (G ++ o) = cz (Some (TChar Space)) c n o.
Proof.
  induction G as [|t G IH]; intros o c n H; [reflexivity|]. inversion H; subst. cbn [app cz].
  rewrite bl_calc, bl_blankish, retain_space by assumption. apply IH. assumption.
Qed.

Lemma cz_keep : forall G o t c n, Forall Bl G -> G <> [] -> retain_blank t (hd_error o) c = true ->
  cz (Some t) c n (G ++ o) = TChar Space :: cz (Some (TChar Space)) c n o.
Proof.
  induction G as [|u G IH]; intros o t c n H N R; [congruence|]. inversion H; subst. cbn [app cz].
  rewrite bl_calc, bl_blankish, bl_space by assumption. destruct (retain_blank t (hd_error (G ++ o)) c) eqn:E.
  - now rewrite cz_after_space.
  - apply IH; [assumption| |exact R]. intros ->. cbn [app] in E. congruence.
Qed.

Lemma cz_drop : forall G o t c n, Forall Bl G -> (forall u, In u (tl G) -> retain_blank t (Some u) c = false) ->
  retain_blank t (hd_error o) c = false -> cz (Some t) c n (G ++ o) = cz (Some t) c n o.
Proof.
  induction G as [|u G IH]; intros o t c n H N R; [reflexivity|]. inversion H; subst. cbn [app cz tl] in *.
  rewrite bl_calc, bl_blankish by assumption.
  assert (E : retain_blank t (hd_error (G ++ o)) c = false).
  { destruct G as [|w G]; [exact R|]. apply N. left. reflexivity. }
  rewrite E. apply IH; [assumption| |exact R]. intros w Hw. apply N. destruct G; [contradiction|]. right. exact Hw.
Qed.

Definition solid (o : list token) : Prop := match o with [] => True | t :: _ => blankish t = false end.

Lemma cz_prev : forall o p p' c n, solid o -> cz p c n o = cz p' c n o.
Proof. intros [|t o] p p' c n H; [reflexivity|]. cbn [cz solid] in *. rewrite H. reflexivity. Qed.

Definition okn (n : option token) (b : option kind) : Prop :=
  match b with None => n = None | Some k => exists t, n = Some t /\ tk k t end.

Lemma retain_table : forall a t n b c, tk a t -> okn n b ->
  pushes (Some a) = true \/ c = false -> b <> Some KEscape ->
  (a = KAt -> c = false /\ is_k 0x2A b = false) ->
  (match a with KSign d => among (S_ "~|$^*") d | _ => false end && is_k 0x3D b = false) ->
  retain_blank t n c = keeps c a b.
Proof.
  intros a t n b c A B P NE Q W.
  assert (N : b = None /\ n = None \/ b = Some KWord /\ (exists s, n = Some (TOther s)) \/
    b = Some KElement /\ (exists e, n = Some (TSelectorElement e)) \/ b = Some KAt /\ (exists s, n = Some (TSelectorElement (Media s))) \/
    b = Some KText /\ ((exists s, n = Some (TString s)) \/ exists o, n = Some (TSelectorOperator o)) \/
    b = Some KLicence /\ (exists s, n = Some (TLicense s)) \/ exists d, among signs d = true /\ b = Some (KSign d) /\ n = Some (TChar (rc d))).
  { destruct b as [k|]; cbn [okn] in B; [|auto]. destruct B as (u & -> & U). right. destruct k; cbn [tk] in U.
    - destruct U as [s ->]. left. eauto.
    - destruct U as (e & -> & _). right. left. eauto.
    - destruct U as [s ->]. do 2 right. left. eauto.
    - do 3 right. left. destruct U as [[s ->]|[o ->]]; eauto.
    - destruct U as [s ->]. do 4 right. left. eauto.
    - congruence.
    - destruct U as [U ->]. do 5 right. eauto. }
  clear B. destruct a; cbn [tk] in A.
  - destruct A as [s ->]. destruct N as [[-> ->]|[[-> [u ->]]|[[-> [u ->]]|[[-> [u ->]]|[[-> [[u ->]|[u ->]]]|[[-> [u ->]]|(d & D & -> & ->)]]]]]];
      destruct c; try reflexivity; signs D; reflexivity.
  - destruct A as (e & -> & M). assert (Me : forall n' , retain_blank (TSelectorElement e) n' c = retain_blank (TSelectorElement (Tag [])) n' c).
    { intro n'. unfold retain_blank. destruct e; try reflexivity. discriminate M. }
    rewrite Me. destruct N as [[-> ->]|[[-> [u ->]]|[[-> [u ->]]|[[-> [u ->]]|[[-> [[u ->]|[u ->]]]|[[-> [u ->]]|(d & D & -> & ->)]]]]]];
      destruct c; try reflexivity; signs D; reflexivity.
  - destruct A as [s ->]. destruct (Q eq_refl) as [-> Q'].
    destruct N as [[-> ->]|[[-> [u ->]]|[[-> [u ->]]|[[-> [u ->]]|[[-> [[u ->]|[u ->]]]|[[-> [u ->]]|(d & D & -> & ->)]]]]]];
      try reflexivity; signs D; try reflexivity; discriminate Q'.
  - assert (Me : forall n' , retain_blank t n' c = retain_blank (TString []) n' c) by (intro n'; destruct A as [[s ->]|[o ->]]; reflexivity).
    rewrite Me. destruct N as [[-> ->]|[[-> [u ->]]|[[-> [u ->]]|[[-> [u ->]]|[[-> [[u ->]|[u ->]]]|[[-> [u ->]]|(d & D & -> & ->)]]]]]];
      destruct c; try reflexivity; signs D; reflexivity.
  - destruct A as [s ->]. destruct N as [[-> ->]|[[-> [u ->]]|[[-> [u ->]]|[[-> [u ->]]|[[-> [[u ->]|[u ->]]]|[[-> [u ->]]|(d & D & -> & ->)]]]]]];
      destruct c; try reflexivity; signs D; reflexivity.
  - destruct A as [s ->]. destruct N as [[-> ->]|[[-> [u ->]]|[[-> [u ->]]|[[-> [u ->]]|[[-> [[u ->]|[u ->]]]|[[-> [u ->]]|(d & D & -> & ->)]]]]]];
      destruct c; try reflexivity; signs D; reflexivity.
  - destruct A as [A ->].
    destruct N as [[-> ->]|[[-> [u ->]]|[[-> [u ->]]|[[-> [u ->]]|[[-> [[u ->]|[u ->]]]|[[-> [u ->]]|(d & D & -> & ->)]]]]]];
      destruct P as [P|P]; destruct c; try discriminate P; signs A; try discriminate P; try reflexivity;
      signs D; try reflexivity; discriminate W.
Qed.

Lemma keeps_pushes : forall c a b t, tk a t -> keeps c a b = true -> pushes (Some a) = true.
Proof.
  intros c a b t T K. destruct a; try reflexivity. destruct T as [T _].
  destruct c; signs T; try reflexivity; exfalso; cbn in K; discriminate K.
Qed.

Lemma gtoks_nonempty : forall g, g <> [] -> gtoks true g <> [].
Proof. intros [|[c|c] g] H; [congruence|discriminate..]. Qed.

Lemma leads_tl : forall g b u, leads g = true -> In u (tl (gtoks b g)) -> u = TChar Space.
Proof.
  assert (A : forall g b, existsb CssPlainSpec.is_comment g = false -> gtoks b g = [] \/ gtoks b g = [TChar Space]).
  { intros g [|] H; [|left; apply gtoks_blank, H]. destruct g as [|f g]; [left; reflexivity|]. right. apply gtoks_push; [exact H|discriminate]. }
  intros g b u L H. assert (B : existsb CssPlainSpec.is_comment g = false -> u = TChar Space).
  { intro K. destruct (A g b K) as [E|E]; rewrite E in H; contradiction. }
  destruct g as [|[c|c] g]; [contradiction|..]; cbn [leads] in L; apply negb_true_iff in L.
  - apply B, L.
  - cbn [gtoks tl] in H. destruct (A g true L) as [E|E]; rewrite E in H; [contradiction|]. destruct H as [<-|[]]. reflexivity.
Qed.

Lemma retain_space_next : forall t, retain_blank t (Some (TChar Space)) false = false.
Proof.
  intros t. unfold retain_blank. cbn [some_and is_other is_the_char is_a_selector_element is_useless rchar_useless is_char].
  change (rchar_eqb Space OpenParenthese) with false. change (rchar_eqb Space Star) with false. change (rchar_eqb Space EqualSign) with false.
  change (rchar_eqb Space OpenBracket) with false. change (rchar_eqb Space OpenCurlyBrace) with false. cbn [orb andb negb].
  rewrite !andb_false_r, !orb_true_r. destruct (is_the_char CloseBracket t); reflexivity.
Qed.

Lemma gap_text : forall x g a t p o n, last x = Some a -> tk a t ->
  okn (hd_error o) (match p with Some p => Some (kind_of x p) | None => None end) ->
  gap_ok letter_u x g p = true -> g <> [] -> (a = KAt -> calc x = false) ->
  cz (Some t) (calc x) n (gtoks (pushes (last x)) g ++ o)
  = if keeps (calc x) a (match p with Some p => Some (kind_of x p) | None => None end)
    then TChar Space :: cz (Some (TChar Space)) (calc x) n o else cz (Some t) (calc x) n o.
Proof.
  intros x g a t p o n L A O G N C. rewrite L. unfold gap_ok in G. rewrite L in G.
  apply andb_true_iff in G. destruct G as [G G3]. apply andb_true_iff in G. destruct G as [G1 G2].
  set (b := match p with Some p => Some (kind_of x p) | None => None end) in *.
  assert (W : match a with KSign d => among (S_ "~|$^*") d | _ => false end && is_k 0x3D b = false /\ (a = KAt -> is_k 0x2A b = false)).
  { subst b. destruct p as [p|]; [|split; [apply andb_false_r|reflexivity]].
    apply andb_true_iff in G1. destruct G1 as [G1 _]. apply andb_true_iff in G1. destruct G1 as [G1 _]. apply andb_true_iff in G1. destruct G1 as [G1 G4].
    assert (IS : forall c, is_k c (Some (kind_of x p)) = is_sign c p).
    { intro c. destruct p; try reflexivity. cbn. destruct (selects x && negb (after 58 x) && names letter_u w); reflexivity. }
    unfold would_match in G1. rewrite L in G1. split.
    - rewrite andb_comm, IS. apply negb_true_iff in G1. exact G1.
    - intros ->. rewrite IS. apply negb_true_iff in G4. exact G4. }
  destruct W as [W1 W2].
  assert (T : pushes (Some a) = true \/ calc x = false -> retain_blank t (hd_error o) (calc x) = keeps (calc x) a b).
  { intro P. apply retain_table; auto.
    subst b. destruct p as [p|]; [|discriminate]. rewrite !andb_true_iff in G1. destruct G1 as [[_ [_ G1]] _]. destruct p; try discriminate.
    cbn [CssPlainSpec.kind_of]. now destruct (selects x && negb (after 58 x) && names letter_u w). }
  destruct (keeps (calc x) a b) eqn:K.
  - pose proof (keeps_pushes _ _ _ _ A K) as P. rewrite P. apply cz_keep; [apply gtoks_blankish | apply gtoks_nonempty, N | auto].
  - destruct (calc x) eqn:Ec.
    + apply negb_true_iff in G2. destruct (pushes (Some a)) eqn:P.
      * apply cz_drop; [apply gtoks_blankish | | auto]. rewrite gtoks_push by assumption. intros u [].
      * rewrite gtoks_blank by exact G2. reflexivity.
    + apply cz_drop; [apply gtoks_blankish | | auto].
      assert (D : leads g = true \/ forall s, retain_blank t (Some (TComment s)) false = false).
      { cbn [orb] in G3. destruct a; cbn [tk] in A; auto.
        - destruct A as [s ->]. right. reflexivity.
        - destruct A as [s ->]. right. reflexivity.
        - destruct A as [A ->]. destruct ((c =? 0x29) || (c =? 0x5D)) eqn:E; [auto|]. right. signs A; try discriminate E; reflexivity. }
      intros u U. destruct D as [D|D].
      * rewrite (leads_tl _ _ _ D U). apply retain_space_next.
      * assert (U' : In u (gtoks (pushes (Some a)) g)) by (destruct (gtoks (pushes (Some a)) g); [contradiction | right; exact U]).
        pose proof (gtoks_blankish g (pushes (Some a))) as F. rewrite Forall_forall in F. destruct (F u U') as [->|[s ->]]; [apply retain_space_next | apply D].
Qed.

Lemma gap_first : forall g o c n, solid o ->
  cz None c n (gtoks false g ++ o) = (if existsb CssPlainSpec.is_comment g then [TChar Space] else []) ++ cz None c n o.
Proof.
  induction g as [|[d|b] g IH]; intros o c n H; [reflexivity|..].
  - cbn [gtoks app existsb CssPlainSpec.is_comment orb]. apply IH, H.
  - cbn [gtoks app existsb CssPlainSpec.is_comment orb cz]. rewrite bl_calc by (right; eauto).
    change (blankish (TComment b)) with true. cbn [CssModel.is_comment]. f_equal. rewrite cz_after_space by apply gtoks_blankish. apply cz_prev, H.
Qed.

Lemma calc_tok : forall x p, part_ok x p = true ->
  calc_step (tok x p) (calc x) (Z.of_nat (parens x)) = (calc (step x p), Z.of_nat (parens (step x p))).
Proof.
  intros x p H. pose proof (tok_kind letter_u x p H) as K.
  assert (S : forall c, is_sign c p = true -> p = Sign c) by (intros c E; destruct p; try discriminate; cbn in E; apply N.eqb_eq in E; now subst).
  destruct p as [w|w|w|t|c|c|c b|c].
  - cbn [CssPlainProofs2.tok] in *. unfold word_tok in *. unfold CssPlainSpec.step. cbn [is_sign calc parens]. rewrite !andb_false_r. cbn [andb].
    destruct (kind_of x (Word w)) eqn:E; cbn [tk] in K.
    + unfold calc_step. cbn [is_calc is_the_char]. destruct (str_eqb w (S_ "calc")); [now rewrite orb_true_r|]. rewrite orb_false_r. destruct (calc x); reflexivity.
    + destruct K as (e & K & _). rewrite K. unfold calc_step. cbn [is_calc is_the_char]. cbn [negb]. rewrite andb_true_r. destruct (calc x); reflexivity.
    + exfalso. cbn [CssPlainSpec.kind_of] in E. destruct (selects x && negb (after 58 x) && names letter_u w); discriminate.
    + exfalso. cbn [CssPlainSpec.kind_of] in E. destruct (selects x && negb (after 58 x) && names letter_u w); discriminate.
    + exfalso. cbn [CssPlainSpec.kind_of] in E. destruct (selects x && negb (after 58 x) && names letter_u w); discriminate.
    + exfalso. cbn [CssPlainSpec.kind_of] in E. destruct (selects x && negb (after 58 x) && names letter_u w); discriminate.
    + exfalso. cbn [CssPlainSpec.kind_of] in E. destruct (selects x && negb (after 58 x) && names letter_u w); discriminate.
  - unfold CssPlainSpec.step, calc_step. cbn. rewrite !andb_false_r. cbn. rewrite andb_true_r. destruct (calc x); reflexivity.
  - unfold CssPlainSpec.step, calc_step. cbn. rewrite !andb_false_r. cbn. rewrite andb_true_r. destruct (calc x); reflexivity.
  - unfold CssPlainSpec.step, calc_step. cbn. rewrite !andb_false_r. cbn. rewrite andb_true_r. destruct (calc x); reflexivity.
  - destruct K as [K _]. cbn [CssPlainProofs2.tok]. unfold part_ok in H. apply andb_true_iff in H. destruct H as [H _].
    unfold CssPlainSpec.step, calc_step. cbn [is_calc CssPlainSpec.kind_of is_sign calc parens is_the_char] in *.
    destruct (calc x) eqn:Ec; cbn [andb] in *; [|reflexivity].
    destruct (N.eqb_spec c 0x28) as [->|N1]; [cbn; f_equal; lia|].
    destruct (N.eqb_spec c 0x29) as [->|N2].
    + change (rchar_eqb (rc 0x29) CloseParenthese) with true. cbv iota. cbn [andb].
      destruct (Nat.eqb_spec (parens x) 0) as [E|E]; [discriminate H|]. f_equal; [|lia]. f_equal.
      destruct (Z.eqb_spec (Z.of_nat (parens x) - 1) 0); destruct (Nat.eqb_spec (pred (parens x)) 0); try lia; reflexivity.
    + cbn [andb negb]. signs K; try congruence; reflexivity.
  - unfold CssPlainSpec.step, calc_step. cbn. rewrite !andb_false_r. cbn. rewrite andb_true_r. destruct (calc x); reflexivity.
  - unfold CssPlainSpec.step, calc_step. cbn. rewrite !andb_false_r. cbn. rewrite andb_true_r. destruct (calc x); reflexivity.
  - cbn [CssPlainProofs2.tok]. unfold CssPlainSpec.step, calc_step. cbn [is_calc CssPlainSpec.kind_of is_sign calc parens is_the_char].
    assert (E : str_eqb [c] (S_ "calc") = false) by (cbn; apply andb_false_r). rewrite E. rewrite !andb_false_r. cbn [andb negb]. rewrite andb_true_r. destruct (calc x); reflexivity.
Qed.

Lemma cz_lead : forall p o prev c n, solid o -> cz prev c n (lead_toks p ++ o) = lead_toks p ++ cz prev c n o.
Proof.
  intros p o prev c n H. destruct p; try reflexivity. cbn [lead_toks app cz].
  assert (E : calc_step (TChar Backslash) c n = (c, n)) by (destruct c; reflexivity). rewrite E. change (blankish (TChar Backslash)) with false. cbv iota. f_equal. apply cz_prev, H.
Qed.

Definition text_of (l : list token) : str := concat (map token_show l).

Lemma toks_solid : forall x g l, plain letter_u x (Some g) l = true ->
  exists p, solid (toks x l) /\ okn (hd_error (toks x l)) (match p with Some p => Some (kind_of x p) | None => None end)
    /\ gap_ok letter_u x g p = true /\ next_kind letter_u x l = match p with Some p => Some (kind_of x p) | None => None end.
Proof.
  intros x g [|[g'|p] l] H; cbn [plain] in H.
  - exists None. cbn. auto.
  - discriminate.
  - apply andb_true_iff in H. destruct H as [H _]. apply andb_true_iff in H. destruct H as [H G]. exists (Some p).
    assert (E : lead_toks p = []).
    { unfold gap_ok in G. apply andb_true_iff in G. destruct G as [G _]. apply andb_true_iff in G. destruct G as [G _]. rewrite !andb_true_iff in G. destruct G as [[_ [_ G]] _]. now destruct p. }
    cbn [CssPlainProofs2.toks]. rewrite E. cbn [app solid hd_error okn next_kind]. split; [apply tok_solid, H|]. split; [|auto]. exists (tok x p). split; [reflexivity | apply tok_kind, H].
Qed.

Lemma show_all : forall l x g prev, plain letter_u x g l = true ->
  (g = None -> match last x with None => prev = None | Some k => exists t, prev = Some t /\ tk k t end) ->
  (last x = Some KAt -> calc x = false) ->
  text_of (cz prev (calc x) (Z.of_nat (parens x)) (toks x l)) = compact letter_u x l.
Proof.
  induction l as [|i l IH]; intros x g prev P T C; [reflexivity|]. destruct i as [g'|p]; cbn [plain] in P.
  - destruct g; [discriminate|]. specialize (T eq_refl). apply andb_true_iff in P. destruct P as [P Q]. apply andb_true_iff in P. destruct P as [P _].
    assert (G : g' <> []) by (destruct g'; congruence).
    destruct (toks_solid x g' l Q) as (p & Sd & O & Gp & Nk). cbn [CssPlainProofs2.toks compact]. unfold stays. rewrite Nk.
    destruct (last x) as [a|] eqn:L.
    + destruct T as (t & -> & A). rewrite <- L.
      rewrite (gap_text x g' a t p _ _ L A O Gp G) by (intros ->; apply C; reflexivity).
      destruct (keeps (calc x) a _).
      * unfold text_of. cbn [map concat]. fold (text_of (cz (Some (TChar Space)) (calc x) (Z.of_nat (parens x)) (toks x l))).
        rewrite (IH x (Some g')); [reflexivity | exact Q | discriminate | rewrite L; exact C].
      * apply (IH x (Some g')); [exact Q | discriminate | rewrite L; exact C].
    + subst prev. cbn [pushes]. rewrite gap_first by exact Sd. unfold text_of. rewrite map_app, concat_app.
      fold (text_of (cz None (calc x) (Z.of_nat (parens x)) (toks x l))). rewrite (IH x (Some g')); [|exact Q|discriminate|rewrite L; exact C].
      destruct (existsb CssPlainSpec.is_comment g'); reflexivity.
  - apply andb_true_iff in P. destruct P as [P Q]. apply andb_true_iff in P. destruct P as [P D].
    cbn [CssPlainProofs2.toks compact]. rewrite cz_lead by (cbn [solid]; apply tok_solid, P). cbn [cz].
    rewrite (calc_tok x p P), (tok_solid letter_u x p P). unfold text_of. rewrite map_app, concat_app, <- flat_map_concat_map. cbn [map concat].
    fold (text_of (cz (Some (tok x p)) (calc (step x p)) (Z.of_nat (parens (step x p))) (toks (step x p) l))).
    rewrite app_assoc, (tok_shown letter_u x p P). f_equal. apply (IH _ None); [exact Q| |].
    + intros _. rewrite last_step. eexists. split; [reflexivity | apply tok_kind, P].
    + rewrite last_step. intro E. unfold part_ok in P. apply andb_true_iff in P. destruct P as [_ P].
      destruct p; cbn [CssPlainSpec.kind_of] in E; try discriminate.
      * destruct (selects x && negb (after 58 x) && names letter_u w); discriminate.
      * unfold CssPlainSpec.step. cbn [CssPlainSpec.kind_of calc is_sign]. apply andb_true_iff in P. destruct P as [P _]. apply andb_true_iff in P. destruct P as [_ P].
        apply negb_true_iff in P. rewrite P. reflexivity.
Qed.

Theorem css_plain : forall l, plain letter_u start None l = true -> css_minify letter_u (text l) = Ok (compact letter_u start l).
Proof.
  intros l H. unfold css_minify, tokenize. fold (raw_tokens letter_u (text l)). rewrite raw_tokens_run, (lex_text letter_u l start None H).
  cbn [fst snd].
  assert (R : prun pinit (all_pieces l) None = Ok (rev [] ++ toks start l)).
  { apply (read_all l start None pinit []); [constructor; reflexivity | cbn; auto | exact H]. }
  rewrite R. cbn [obind rev app]. rewrite clean_tokens_cz. cbn [obind].
  rewrite <- (show_all l start None None H); [reflexivity | reflexivity | discriminate].
Qed.

End Plain.
