(** Literals read by the tokenizer are quoted; writing them again between double quotes. *)
From Coq Require Import String List NArith ZArith Bool Lia ZifyBool ZifyN Arith.
From Verif Require Import Base JsModel JsLexSpec JsArrSpec.
Import ListNotations.
Open Scope N_scope.

Lemma word_token_not_string : forall w x, word_token w <> TString x.
Proof.
  intros w x. unfold word_token. repeat (match goal with |- context [match ?e with _ => _ end] => destruct e end); discriminate.
Qed.

Lemma flush_quoted : forall w v, Forall quoted_token v -> Forall quoted_token (flush w v).
Proof.
  intros w v H. unfold flush. destruct w; [exact H|]. constructor; [|exact H]. intros x E. exfalso. exact (word_token_not_string _ _ E).
Qed.

Lemma simple_not_string : forall c t x, simple_punct c = Some t -> t <> TString x.
Proof.
  intros c t x H. unfold simple_punct in H.
  repeat (match type of H with context [if ?e then _ else _] => destruct e end; [injection H as <-; discriminate|]). discriminate.
Qed.

Lemma operator_not_string : forall o t x, In (o, t) operators -> t <> TString x.
Proof.
  intros o t x H. unfold operators in H. repeat (destruct H as [H|H]; [injection H as <- <-; discriminate|]). destruct H.
Qed.

Lemma reads_token_quoted : forall v w s v' w' s', reads_token v w s v' w' s' ->
  Forall quoted_token v -> Forall quoted_token v'.
Proof.
  intros v w s v' w' s' H F. pose proof (flush_quoted w v F) as F'. destruct H; try assumption;
    try (constructor; [|exact (flush_quoted _ _ F)]; intros z E; try discriminate E).
  - exfalso. exact (simple_not_string _ _ _ H E).
  - exfalso. exact (operator_not_string _ _ _ H E).
  - injection E as <-. exists q, b, q. split; [reflexivity|]. destruct H as [-> | ->]; lia.
  - injection E as <-. exists 0x60, b, 0x60. split; [reflexivity|]. lia.
Qed.

Lemma lexes_quoted : forall s ts, lexes s ts -> Forall quoted_token ts.
Proof.
  intros s ts (v & w & R & ->).
  assert (X : forall v w s v' w' s', reads v w s v' w' s' -> Forall quoted_token v -> Forall quoted_token v').
  { clear. induction 1 as [|? ? ? ? ? ? ? ? ? H R IH]; intro F; [exact F|]. apply IH. exact (reads_token_quoted _ _ _ _ _ _ H F). }
  apply Forall_rev. apply flush_quoted. exact (X _ _ _ _ _ _ R (Forall_nil _)).
Qed.

Lemma requote : forall s, string_body 0x27 s -> mem_char 0x22 s = false -> string_body 0x22 s.
Proof.
  induction 1 as [|c s A B H IH|c s H IH]; intro M; [constructor| |].
  - cbn [mem_char existsb] in M. apply orb_false_iff in M. destruct M as [M1 M2]. apply sb_char; [lia|exact B|]. now apply IH.
  - cbn [mem_char existsb] in M. apply orb_false_iff in M. destruct M as [_ M]. apply orb_false_iff in M. destruct M as [_ M].
    apply sb_escape. now apply IH.
Qed.
