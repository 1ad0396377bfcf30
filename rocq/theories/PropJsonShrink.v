(** C69: what json::minify can do to a document at worst. *)
From Coq Require Import String List NArith ZArith Bool Lia.
From Verif Require Import Base JsonModel JsonSpec JsonProofs JsonUnique JsonCorrupt JsonShrink PropJson.
Import ListNotations.
Open Scope N_scope.

(** The output for a document, whatever its strings are, is a document of the same shape: numbers
    and words are the same, and strings at most lose white space and control characters. *)
Theorem C69_json_document : forall v s, json_document v s ->
  exists o v', json_minify s = Ok o /\ json_document v' o /\ same_shape (deletes faint) v v'.
Proof. exact json_shrinks. Qed.

(** Strings are intact up to and including the first one that is not safe. *)
Theorem C69_json_first_strings : forall v s a c b, json_document v s ->
  strings v = a ++ c :: b -> Forall safe_content a -> Forall (fun x => is_ascii_control x = false) c ->
  exists o v' b', json_minify s = Ok o /\ json_document v' o /\ same_shape (deletes faint) v v' /\
    strings v' = a ++ c :: b'.
Proof. exact first_strings. Qed.

(** So the value is kept when the strings behind that one have no white space. *)
Theorem C69_json_value_kept : forall v s a c b, json_document v s ->
  strings v = a ++ c :: b -> Forall safe_content a -> Forall (fun x => is_ascii_control x = false) c ->
  Forall (Forall (fun x => ~ faint x)) b ->
  exists o, json_minify s = Ok o /\ json_document v o.
Proof. exact value_kept. Qed.

(** It is kept, too, when no string has any. *)
Theorem C69_json_no_blanks : forall v s, json_document v s ->
  Forall (Forall (fun x => ~ faint x)) (strings v) ->
  exists o, json_minify s = Ok o /\ json_document v o.
Proof. exact solid_kept. Qed.

(** Conversely a document can come out of a text that is none. *)
Theorem C69_json_invalid_refuted :
  (forall v, ~ json_document v (S_ "1 2")) /\ json_minify (S_ "1 2") = Ok (S_ "12") /\
  json_document (JLit (S_ "12")) (S_ "12").
Proof.
  split; [|split; [vm_compute; reflexivity|]].
  - intros v H. unfold json_document in H. remember (S_ "1 2") as s eqn:E. destruct H as [v w1 t w2 H1 H2 H3].
    assert (W : w1 = []).
    { destruct w1 as [|x w1]; [reflexivity|]. injection E as -> _. inversion H1. discriminate. }
    subst w1. cbn [app] in E.
    assert (W : w2 = []).
    { destruct (snoc_cases w2) as [->|(p & x & ->)]; [reflexivity|]. rewrite app_assoc in E. change (S_ "1 2") with (S_ "1 " ++ [0x32]) in E.
      apply app_inj_tail in E. destruct E as [_ ->]. apply Forall_app in H3. destruct H3 as [_ H3]. inversion H3. discriminate. }
    subst w2. rewrite app_nil_r in E. rewrite E in H2. inversion H2 as [l Hl| | | | |]; subst.
    apply literal_litc in Hl. destruct Hl as [_ Hl]. inversion Hl as [|? ? _ Hl2]; subst. inversion Hl2. discriminate.
  - apply et_tight. constructor. left. exists [], (S_ "12"), [], []. split; [left; reflexivity|].
    split; [apply int_pos; [reflexivity | discriminate | repeat constructor]|]. split; [constructor|]. split; [constructor | reflexivity].
Qed.

(** The last string ends with an escaped quote, the first has a blank (the apostrophe stands for the
    double quote). *)
Example C69_ex :
  let v := JArr [JStr (S_ "a b"); JStr (J_ "x \'")] in let s := J_ "[ 'a b', 'x \'' ]" in
  json_document v s /\ strings v = [S_ "a b"] ++ J_ "x \'" :: [] /\ Forall safe_content [S_ "a b"] /\
  ~ safe_content (J_ "x \'") /\ Forall (fun x => is_ascii_control x = false) (J_ "x \'") /\
  json_minify s = Ok (J_ "['a b','x \'' ]").
Proof.
  cbv zeta. split; [|split; [reflexivity|split; [|split; [|split; [repeat constructor | vm_compute; reflexivity]]]]].
  - apply et_tight. apply (vt_arr _ (J_ " 'a b', 'x \'' ")). apply (est_cons _ (J_ " 'a b'") _ (J_ " 'x \'' ")).
    + apply (et _ (S_ " ") (J_ "'a b'") []); [repeat constructor| |constructor]. apply (vt_str (S_ "a b")). content_tac.
    + apply est_one. apply (et _ (S_ " ") (J_ "'x \''") (S_ " ")); [repeat constructor| |repeat constructor]. apply (vt_str (J_ "x \'")). content_tac.
  - constructor; [|constructor]. split; [repeat constructor|]. split.
    + intros p x E. change (S_ "a b") with (S_ "a " ++ [0x62]) in E. apply app_inj_tail in E. destruct E as [_ <-]. split; discriminate.
    + intros p x y E. change (p ++ [x; y]) with (p ++ [x] ++ [y]) in E. rewrite app_assoc in E.
      change (S_ "a b") with ((S_ "a" ++ [0x20]) ++ [0x62]) in E. apply app_inj_tail in E. destruct E as [E _]. apply app_inj_tail in E.
      destruct E as [_ <-]. discriminate.
  - intros (_ & H & _). specialize (H (J_ "x \") 0x22 eq_refl). destruct H as [_ H]. now apply H.
Qed.

(** The other strings are damaged only in their white space. *)
Example C69_ex_damage : json_minify (J_ "['\'', 'a b', 'c', 'd e']") = Ok (J_ "['\'', 'ab', 'c', 'de']").
Proof. vm_compute. reflexivity. Qed.

Print Assumptions C69_json_document.
Print Assumptions C69_json_first_strings.
Print Assumptions C69_json_value_kept.
Print Assumptions C69_json_no_blanks.
Print Assumptions C69_json_invalid_refuted.
