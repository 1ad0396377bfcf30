(** Properties of the JSON string API (C01-C06). *)
From Coq Require Import String List NArith Bool Lia.
From Verif Require Import Base JsonModel JsonSpec JsonProofs JsonUnique JsonCorrupt.
Import ListNotations.
Open Scope N_scope.

(** C01: any layout of a value whose strings are safe minifies to the compact text,
    which has this value and no other. *)
Theorem C01_json_value_preserved : forall v s,
  json_document v s -> all_strings safe_content v ->
  json_minify s = Ok (compact v) /\
  json_document v (compact v) /\
  (forall v', json_document v' (compact v) -> v' = v).
Proof.
  exact (fun v s H Hs =>
    conj (json_layout_minify v s H Hs)
      (conj (json_compact_document v s H)
         (fun v' H' => json_document_unique v' v (compact v) H' (json_compact_document v s H)))).
Qed.

(** The value of a text is unique, so that one can speak of the value of a document. *)
Theorem C01_json_value_unique : forall v v' s,
  json_document v s -> json_document v' s -> v = v'.
Proof. exact json_document_unique. Qed.

Ltac content_tac :=
  repeat first [ apply ct_nil
               | apply ct_plain; [cbv; discriminate | discriminate | discriminate | ]
               | apply ct_esc; [cbn; tauto | ] ].

(** A document meeting the hypotheses of C01 (the apostrophe stands for the quote). *)
Example C01_example_doc :
  let v := JObj [(J_ "a\'bc", JArr [JLit (S_ "-1.5e+3"); JStr (S_ "x y")]); ([], JObj [])] in
  let s := J_ "{ 'a\'bc' : [ -1.5e+3 , 'x y' ] , '' : {} } " in
  json_document v s /\ all_strings safe_content v /\
  json_minify s = Ok (J_ "{'a\'bc':[-1.5e+3,'x y'],'':{}}").
Proof.
  cbn zeta. split; [|split].
  - apply (et _ [] (J_ "{ 'a\'bc' : [ -1.5e+3 , 'x y' ] , '' : {} }") (S_ " "));
      [constructor| |repeat constructor].
    apply (vt_obj _ (J_ " 'a\'bc' : [ -1.5e+3 , 'x y' ] , '' : {} ")).
    apply (mst_cons _ (J_ " 'a\'bc' : [ -1.5e+3 , 'x y' ] ") _ (J_ " '' : {} ")).
    + apply (mt (J_ "a\'bc") _ (S_ " ") (S_ " ") (J_ " [ -1.5e+3 , 'x y' ] "));
        [repeat constructor|content_tac|repeat constructor|].
      apply (et _ (S_ " ") (J_ "[ -1.5e+3 , 'x y' ]") (S_ " ")); [repeat constructor| |repeat constructor].
      apply (vt_arr _ (J_ " -1.5e+3 , 'x y' ")).
      apply (est_cons _ (S_ " -1.5e+3 ") _ (J_ " 'x y' ")).
      * apply (et _ (S_ " ") (S_ "-1.5e+3") (S_ " ")); [repeat constructor| |repeat constructor].
        constructor. left. exists (S_ "-"), (S_ "1"), (S_ ".5"), (S_ "e+3").
        split; [cbn; auto|]. split; [apply int_pos; [reflexivity|discriminate|constructor]|].
        split; [apply (fr_some (S_ "5")); split; [discriminate|repeat constructor]|].
        split; [|reflexivity].
        apply (ex_some 0x65 (S_ "+") (S_ "3")); [cbn; auto|cbn; auto|].
        split; [discriminate|repeat constructor].
      * apply est_one. apply (et _ (S_ " ") (J_ "'x y'") (S_ " ")); [repeat constructor| |repeat constructor].
        apply (vt_str (S_ "x y")). content_tac.
    + apply mst_one. apply (mt [] _ (S_ " ") (S_ " ") (S_ " {} "));
        [repeat constructor|content_tac|repeat constructor|].
      apply (et _ (S_ " ") (S_ "{}") (S_ " ")); [repeat constructor| |repeat constructor].
      apply (vt_obj0 []). constructor.
  - constructor. constructor; [split|constructor; [split|constructor]]; cbn [fst snd].
    + split; [repeat constructor|]. split.
      * intros p x E. change (J_ "a\'bc") with (J_ "a\'b" ++ [0x63]) in E.
        apply app_inj_tail in E. destruct E as [_ <-]. split; discriminate.
      * intros p x y E. change (p ++ [x; y]) with (p ++ [x] ++ [y]) in E. rewrite app_assoc in E.
        change (J_ "a\'bc") with ((J_ "a\'" ++ [0x62]) ++ [0x63]) in E.
        apply app_inj_tail in E. destruct E as [E _]. apply app_inj_tail in E.
        destruct E as [_ <-]. discriminate.
    + constructor. constructor; [constructor|constructor; [|constructor]]. constructor.
      split; [repeat constructor|]. split.
      * intros p x E. change (S_ "x y") with (S_ "x " ++ [0x79]) in E.
        apply app_inj_tail in E. destruct E as [_ <-]. split; discriminate.
      * intros p x y E. change (p ++ [x; y]) with (p ++ [x] ++ [y]) in E. rewrite app_assoc in E.
        change (S_ "x y") with ((S_ "x" ++ [0x20]) ++ [0x79]) in E.
        apply app_inj_tail in E. destruct E as [E _]. apply app_inj_tail in E.
        destruct E as [_ <-]. discriminate.
    + split; [constructor|]. split; [intros [|? ?] *; discriminate|intros [|? ?] *; discriminate].
    + constructor. constructor.
  - vm_compute. reflexivity.
Qed.

(** C02: the conditions of C01 on strings are tight.  Every well-formed string content
    that violates the condition on its last two characters occurs in a document whose
    minified text is a document with a different value ... *)
Theorem C02_json_unsafe_tail_corrupts : forall c,
  content c -> Forall (fun x => is_ascii_control x = false) c ->
  ~ ((forall p x, c = p ++ [x] -> x <> bs /\ x <> q) /\
     (forall p x y, c = p ++ [x; y] -> x <> q)) ->
  exists s o, let v := JArr [JStr c; JStr (S_ "a b")] in let v' := JArr [JStr c; JStr (S_ "ab")] in
    json_document v s /\ json_minify s = Ok o /\ json_document v' o /\ v <> v'.
Proof. exact unsafe_tail_corrupts. Qed.

(** ... and a raw control character (DEL is allowed by RFC 8259) anywhere in a string of
    any document always changes the value. *)
Theorem C02_json_control_corrupts : forall v s c x,
  json_document v s -> string_of c v -> In x c -> is_ascii_control x = true ->
  exists o, json_minify s = Ok o /\ ~ json_document v o.
Proof. exact control_in_string_corrupts. Qed.

(** Unsafe contents: an escaped quote at the end, an escaped backslash at the end, an
    escaped quote before the last character. *)
Example C02_examples :
  json_minify (J_ "['\'','a b']") = Ok (J_ "['\'','ab']") /\
  json_minify (J_ "['\\', 'a b']") = Ok (J_ "['\\', 'ab']") /\
  json_minify (J_ "['\'x','a b']") = Ok (J_ "['\'x','ab']") /\
  json_minify [q; 0x61; 0x7F; q] = Ok (J_ "'a'") /\
  content (J_ "\'") /\ content (J_ "\\") /\ content (J_ "\'x") /\ content [0x61; 0x7F].
Proof. repeat split; try (vm_compute; reflexivity); content_tac. Qed.

(** C03: for every text, the output is the text with some characters deleted, all of them
    whitespace or ASCII control characters. *)
Theorem C03_json_only_deletes : forall s, exists o,
  json_minify s = Ok o /\
  deletes (fun c => is_whitespace c = true \/ is_ascii_control c = true) s o /\
  (length o <= length s)%nat /\
  (forall x, is_whitespace x = false -> is_ascii_control x = false ->
     count_occ N.eq_dec o x = count_occ N.eq_dec s x).
Proof.
  exact (fun s => match json_minify_deletes s with
    | ex_intro _ o (conj H D) =>
        ex_intro _ o (conj H (conj D (conj (deletes_length _ _ _ D)
          (fun x H1 H2 => deletes_count _ _ _ x D
             (fun K => match K with
                       | or_introl K1 => eq_ind false (fun b => if b then False else True) I true (eq_trans (eq_sym H1) K1)
                       | or_intror K2 => eq_ind false (fun b => if b then False else True) I true (eq_trans (eq_sym H2) K2)
                       end)))))
    end).
Qed.

(** C04: no control character is left; without backslashes no whitespace is left outside
    double-quoted strings. *)
Theorem C04_json_output_clean : forall s, exists o,
  json_minify s = Ok o /\
  Forall (fun c => is_ascii_control c = false) o /\
  (~ In bs s -> no_outer_ws false o).
Proof.
  exact (fun s => ex_intro _ (run new_minifier s)
    (conj (json_minify_run s) (conj (run_no_control s new_minifier) (run_no_outer_ws s false)))).
Qed.

Example C04_example :
  json_minify (J_ "{ 'a' :  'b c' } ") = Ok (J_ "{'a':'b c'}") /\ ~ In bs (J_ "{ 'a' :  'b c' } ").
Proof. split; [vm_compute; reflexivity|]. cbv. intuition discriminate. Qed.

(** C05: idempotence, whenever no backslash is directly followed by a control character. *)
Theorem C05_json_idempotent : forall s, no_bs_control s ->
  exists o, json_minify s = Ok o /\ json_minify o = Ok o.
Proof.
  exact (fun s H => ex_intro _ (run new_minifier s)
    (conj (json_minify_run s)
       (eq_trans (json_minify_run _) (f_equal Ok (run_idempotent s new_minifier H))))).
Qed.

(** The condition is needed: a tab after a backslash. *)
Theorem C05_json_not_idempotent_refuted : exists s o o',
  json_minify s = Ok o /\ json_minify o = Ok o' /\ o <> o'.
Proof.
  exists (q :: bs :: 9 :: J_ "'abc'x y'"), (J_ "'\'abc'x y'"), (J_ "'\'abc'xy'").
  split; [vm_compute; reflexivity|]. split; [vm_compute; reflexivity|]. discriminate.
Qed.

Example C05_example : no_bs_control (J_ "{ 'a\'bc' : 1 }") /\
  json_minify (J_ "{ 'a\'bc' : 1 }") = Ok (J_ "{'a\'bc':1}") /\
  json_minify (J_ "{'a\'bc':1}") = Ok (J_ "{'a\'bc':1}").
Proof.
  split; [apply no_bs_control_b_sound|]; vm_compute; auto.
Qed.

(** C06 (JSON): write gives the writer the bytes of the displayed text; on failure the
    writer holds a prefix of them. *)
Theorem C06_json_write_display : forall s w, exists o b out,
  json_minify s = Ok o /\ json_write s w = Ok (out, b) /\
  (b = true -> out = encode o) /\ (exists rest, encode o = out ++ rest) /\
  (Forall (fun x => x = None) w -> b = true).
Proof. exact json_write_spec. Qed.

Example C06_json_example :
  json_write (J_ "{ 'a' : 1 }") [None; None; Some 0%nat] = Ok (J_ "{'", false) /\
  json_write (J_ "{ 'a' : 1 }") [] = Ok (J_ "{'a':1}", true).
Proof. vm_compute. auto. Qed.

(** The unit tests of src/json/mod.rs. *)
Example json_unit_tests :
  json_minify [10] = Ok [] /\
  json_minify (J_ "
            {
              'test': '\' test2',
              'test2': '',
              'test3': ' '
            }
        ") = Ok (J_ "{'test':'\' test2','test2':'','test3':' '}").
Proof. vm_compute. auto. Qed.

Print Assumptions C01_json_value_preserved.
Print Assumptions C01_json_value_unique.
Print Assumptions C02_json_unsafe_tail_corrupts.
Print Assumptions C02_json_control_corrupts.
Print Assumptions C03_json_only_deletes.
Print Assumptions C04_json_output_clean.
Print Assumptions C05_json_idempotent.
Print Assumptions C05_json_not_idempotent_refuted.
Print Assumptions C06_json_write_display.
