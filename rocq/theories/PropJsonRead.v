(** Properties of the streaming JSON reader (C07-C12). *)
From Coq Require Import String Arith List NArith Bool Lia.
From Verif Require Import Base Utf8 JsonModel JsonSpec JsonReadModel JsonReadSpec JsonReadProofs JsonReadProofs2.
Import ListNotations.
Open Scope N_scope.

(** C07: a source that fills every buffer, ASCII output: every schedule of buffers
    (empty ones included) gets the bytes of the minified text cut at the buffer sizes. *)
Theorem C07_streaming_equals_batch_ascii : forall s sizes o,
  Forall (fun c => is_scalar c = true) s ->
  json_minify s = Ok o -> Forall (fun c => c < 0x80) o ->
  json_reads [PData (encode s)] sizes = map ROk (cut (encode o) sizes).
Proof. exact streaming_ascii. Qed.

Example C07_example :
  json_reads [PData (J_ "{ 'a' : 'b c' } ")] [3; 0; 2; 100; 5]%nat =
  [ROk (J_ "{'a"); ROk []; ROk (J_ "':"); ROk (J_ "'b c'}"); ROk []] /\
  json_minify (J_ "{ 'a' : 'b c' } ") = Ok (J_ "{'a':'b c'}").
Proof. vm_compute. auto. Qed.

(** C08: any document, any schedule: whole characters are packed into each buffer, the
    last one is cut at the end of the buffer and its remaining bytes are lost ([fill]). *)
Theorem C08_streaming_exact : forall s sizes o,
  Forall (fun c => is_scalar c = true) s ->
  json_minify s = Ok o ->
  json_reads [PData (encode s)] sizes = spec_reads o false sizes.
Proof. exact streaming_exact. Qed.

(** The same for every source that is complete for the size of the first non-empty buffer. *)
Theorem C08_streaming_exact_any_source : forall src z n sizes s o,
  (0 < n)%nat -> delivered n src = (encode s, None) -> Forall (fun c => is_scalar c = true) s ->
  json_minify s = Ok o ->
  json_reads src (repeat 0%nat z ++ n :: sizes) = spec_reads o false (repeat 0%nat z ++ n :: sizes).
Proof. exact complete_source_exact. Qed.

(** Nothing is lost when no kept character straddles the end of a buffer. *)
Theorem C08_streaming_equals_batch_aligned : forall s sizes o,
  Forall (fun c => is_scalar c = true) s ->
  json_minify s = Ok o -> aligned o sizes ->
  json_reads [PData (encode s)] sizes = map ROk (cut (encode o) sizes).
Proof.
  exact (fun s sizes o Hs Ho Ha => eq_trans (streaming_exact s sizes o Hs Ho) (spec_reads_aligned o sizes Ha)).
Qed.

(** ... and something is lost otherwise: the literal of U+00E9 read through a buffer of two bytes. *)
Theorem C08_straddling_character_lost_refuted : exists s o sizes,
  Forall (fun c => is_scalar c = true) s /\ json_minify s = Ok o /\
  (length (encode o) <= list_sum sizes)%nat /\
  collected (json_reads [PData (encode s)] sizes) <> encode o.
Proof.
  exists [q; 0xE9; q], [q; 0xE9; q], [2; 2; 2]%nat.
  split; [repeat constructor|]. split; [vm_compute; reflexivity|]. split; [vm_compute; lia|].
  vm_compute. discriminate.
Qed.

Example C08_example :
  json_reads [PData (encode [q; 0xE9; q])] [2; 2; 2]%nat = [ROk [0x22; 0xC3]; ROk [0x22]; ROk []] /\
  json_reads [PData (encode [q; 0xE9; q])] [3; 2; 2]%nat = [ROk [0x22; 0xC3; 0xA9]; ROk [0x22]; ROk []] /\
  aligned [q; 0xE9; q] [3; 2; 2]%nat.
Proof.
  split; [vm_compute; reflexivity|]. split; [vm_compute; reflexivity|].
  apply (al_fit [q; 0xE9] [q]); [reflexivity|]. apply al_last; [vm_compute; lia|].
  apply al_last; [vm_compute; lia|]. constructor.
Qed.

(** C09: for every segmentation of the data, what follows the first answer that does not
    fill the internal buffer has no influence on any history ... *)
Theorem C09_short_read_ends_stream : forall n pre bs rest rest' sizes, (0 < n)%nat ->
  Forall (fun p => match p with PData b => Nat.modulo (length b) n = 0%nat | PErr _ => False end) pre ->
  (bs = [] \/ Nat.modulo (length bs) n <> 0%nat) ->
  json_reads (pre ++ PData bs :: rest) (n :: sizes) = json_reads (pre ++ PData bs :: rest') (n :: sizes).
Proof. exact short_read_truncates. Qed.

(** ... and the data up to and including it is minified as a complete document. *)
Theorem C09_short_read_content : forall n pre bs rest sizes s o, (0 < n)%nat ->
  Forall (fun p => match p with PData b => b <> [] /\ Nat.modulo (length b) n = 0%nat | PErr _ => False end) pre ->
  (bs = [] \/ Nat.modulo (length bs) n <> 0%nat) ->
  concat (map (fun p => match p with PData b => b | PErr _ => [] end) pre) ++ bs = encode s ->
  Forall (fun c => is_scalar c = true) s -> json_minify s = Ok o ->
  json_reads (pre ++ PData bs :: rest) (n :: sizes) = spec_reads o false (n :: sizes).
Proof.
  exact (fun n pre bs rest sizes s o Hn Hp Hb E Hs Ho =>
    complete_source_exact (pre ++ PData bs :: rest) 0 n sizes s o Hn
      (eq_trans (delivered_full_then_short n pre bs rest Hp Hb) (f_equal (fun x => (x, None)) E)) Hs Ho).
Qed.

(** A valid document delivered in two pieces is truncated without an error. *)
Theorem C09_segmented_source_truncated_refuted : exists a b sizes o,
  json_minify (a ++ b) = Ok o /\ (length (encode o) <= list_sum sizes)%nat /\
  json_reads [PData (encode (a ++ b))] sizes = map ROk (cut (encode o) sizes) /\
  collected (json_reads [PData (encode a); PData (encode b)] sizes) <> encode o.
Proof.
  exists (S_ "[1,"), (S_ "2]"), [8; 8]%nat, (S_ "[1,2]").
  split; [vm_compute; reflexivity|]. split; [vm_compute; lia|]. split; [vm_compute; reflexivity|].
  vm_compute. discriminate.
Qed.

Example C09_example :
  json_reads [PData (S_ "[1,2"); PData (S_ ",3"); PData (S_ "]")] [4; 4; 4]%nat =
  [ROk (S_ "[1,2"); ROk (S_ ",3"); ROk []].
Proof. vm_compute. reflexivity. Qed.

(** C10: the decoder yields exactly the characters of the longest well-formed prefix, then
    ends if that is all and fails otherwise; every byte string has exactly one such prefix. *)
Theorem C10_decoding_exact : forall src n bs e cs rest, (0 < n)%nat ->
  (forall k r, src <> PErr k :: r) -> delivered n src = (bs, e) -> decodes bs cs rest ->
  exists it, ireader_new src n = inl it /\
    btc_all (S (length bs)) it = (cs, match rest, e with [], None => CEof | _, _ => CErr end).
Proof.
  intros src n bs e cs rest Hn Hs Hd Hdec.
  destruct (decoding_exact src n bs e cs rest Hn Hs Hd Hdec) as (it & A & B).
  exists it. split; [exact A|]. rewrite B. destruct rest, e; reflexivity.
Qed.

Theorem C10_decoding_total_unique : forall bs,
  exists cs rest, decodes bs cs rest /\
    forall cs' rest', decodes bs cs' rest' -> cs' = cs /\ rest' = rest.
Proof.
  intro bs. destruct (decodes_exists bs) as (cs & rest & H). exists cs, rest. split; [exact H|].
  intros cs' rest' H'. exact (decodes_unique bs cs' rest' cs rest H' H).
Qed.

(** Truncated, overlong and surrogate encodings are refused, the maximum is accepted. *)
Example C10_example :
  let all bs := match ireader_new [PData bs] 4 with inl it => btc_all 9 it | inr _ => ([], CFuel) end in
  all [0x61; 0xC3] = ([0x61], CErr) /\ all [0xC0; 0x80] = ([], CErr) /\
  all [0xE0; 0x80; 0x80] = ([], CErr) /\ all [0xED; 0xA0; 0x80] = ([], CErr) /\
  all [0xF4; 0x90; 0x80; 0x80] = ([], CErr) /\ all [0xF4; 0x8F; 0xBF; 0xBF] = ([0x10FFFF], CEof) /\
  all [0x61; 0xE2; 0x82; 0xAC; 0xF0; 0x9F; 0x98; 0x80] = ([0x61; 0x20AC; 0x1F600], CEof).
Proof. vm_compute. repeat split. Qed.

(** C11: reads with an empty buffer return 0 and change nothing, wherever they occur. *)
Theorem C11_empty_buffer_inert : forall src a b,
  json_reads src (a ++ 0%nat :: b) =
  firstn (length a) (json_reads src (a ++ b)) ++ ROk [] :: skipn (length a) (json_reads src (a ++ b)).
Proof. exact (fun src a b => jread_reads_zero a b (jread_new src)). Qed.

(** C11: once a read with a non-empty buffer returned 0, every later read returns 0. *)
Theorem C11_end_of_stream_sticky : forall src sizes i j n,
  nth_error sizes i = Some n -> (0 < n)%nat -> nth_error (json_reads src sizes) i = Some (ROk []) ->
  (i <= j < length sizes)%nat -> nth_error (json_reads src sizes) j = Some (ROk []).
Proof. exact json_reads_sticky. Qed.

Example C11_example :
  json_reads [PData (S_ "1"); PData (S_ "2")] [4; 4; 0; 4]%nat = [ROk (S_ "1"); ROk []; ROk []; ROk []].
Proof. vm_compute. reflexivity. Qed.

(** C12: a panic happens exactly when the stream fails before its first character: then the
    first effective call fails and all later ones panic; otherwise no call panics. *)
Theorem C12_panic_iff_first_char_fails : forall src z n sizes bs e cs rest, (0 < n)%nat ->
  delivered n src = (bs, e) -> decodes bs cs rest ->
  (cs = [] /\ (rest <> [] \/ e <> None) ->
   exists err, json_reads src (repeat 0%nat z ++ n :: sizes) =
     repeat (ROk []) z ++ RErr err :: map (fun n => if Nat.eqb n 0 then ROk [] else RPanic) sizes) /\
  (~ (cs = [] /\ (rest <> [] \/ e <> None)) ->
   Forall (fun r => r <> RPanic /\ r <> RFuel) (json_reads src (repeat 0%nat z ++ n :: sizes))).
Proof. exact no_panic_unless_first_char. Qed.

(** After a later failure every call returns 0. *)
Theorem C12_after_error_end : forall src n sizes bs e cs rest i j err, (0 < n)%nat ->
  delivered n src = (bs, e) -> decodes bs cs rest -> cs <> [] ->
  nth_error (json_reads src (n :: sizes)) i = Some (RErr err) -> (i < j < length (n :: sizes))%nat ->
  nth_error (json_reads src (n :: sizes)) j = Some (ROk []).
Proof. exact json_reads_after_error. Qed.

(** A source without errors and with well-formed data never makes a call fail. *)
Theorem C12_good_source_never_fails : forall s sizes,
  Forall (fun c => is_scalar c = true) s ->
  Forall (fun r => exists bs, r = ROk bs) (json_reads [PData (encode s)] sizes).
Proof.
  exact (fun s sizes Hs => eq_ind_r (fun l => Forall (fun r => exists bs, r = ROk bs) l)
    (spec_reads_unbroken sizes (kept new_minifier s None))
    (streaming_exact s sizes _ Hs (kept_minify s))).
Qed.

Example C12_example :
  json_reads [PErr 4; PData (S_ "[1]")] [8; 0; 8]%nat = [RErr (EIo 4); ROk []; RPanic] /\
  json_reads [PData [0xFF]] [8; 8]%nat = [RErr EInvalidData; RPanic] /\
  json_reads [PData (S_ "[1"); PErr 4; PData (S_ "2]")] [2; 2; 2]%nat =
    [RErr EInvalidData; ROk []; ROk []] /\
  json_reads [PData (S_ "[1,2"); PErr 4; PData (S_ "2]")] [2; 2; 2]%nat =
    [ROk (S_ "[1"); RErr EInvalidData; ROk []].
Proof. vm_compute. repeat split. Qed.

Print Assumptions C07_streaming_equals_batch_ascii.
Print Assumptions C08_streaming_exact.
Print Assumptions C08_streaming_exact_any_source.
Print Assumptions C08_streaming_equals_batch_aligned.
Print Assumptions C08_straddling_character_lost_refuted.
Print Assumptions C09_short_read_ends_stream.
Print Assumptions C09_short_read_content.
Print Assumptions C09_segmented_source_truncated_refuted.
Print Assumptions C10_decoding_exact.
Print Assumptions C10_decoding_total_unique.
Print Assumptions C11_empty_buffer_inert.
Print Assumptions C11_end_of_stream_sticky.
Print Assumptions C12_panic_iff_first_char_fails.
Print Assumptions C12_after_error_end.
Print Assumptions C12_good_source_never_fails.
