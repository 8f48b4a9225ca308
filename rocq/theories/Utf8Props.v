(** C11 and C35: character output and input are UTF-8. *)
From stdpp Require Import numbers list.
From Verif Require Import Utf8Model Utf8Spec Utf8Proofs.
Local Open Scope N_scope.

(** C35. Writing: the compiler turns every code point into its UTF-8 text. *)
Theorem compiler_writes_utf8 c : c < 0x110000 -> wcharToStr c = COk (utf8 c).
Proof. intros H. apply wcharToStr_utf8. eapply N.lt_trans; [exact H|done]. Qed.
Print Assumptions compiler_writes_utf8.

(** C35. Reading: from the UTF-8 text of a code point (whatever follows it) the
    compiler reads that code point and consumes exactly its bytes.  The backslash
    starts an escape sequence and is the only exception. *)
Theorem compiler_reads_utf8 c rest len :
  c < 0x110000 -> c <> 92 -> N.of_nat (length (utf8 c)) <= len ->
  readChar (utf8 c ++ rest) len = COk (N.of_nat (length (utf8 c)), Some c).
Proof. intros H. apply readChar_utf8. eapply N.lt_trans; [exact H|done]. Qed.
Print Assumptions compiler_reads_utf8.

Theorem compiler_utf8_round_trip c rest len :
  scalar_value c -> c <> 92 -> 4 <= len ->
  exists text, wcharToStr c = COk text /\
    readChar (text ++ rest) len = COk (N.of_nat (length text), Some c).
Proof.
  intros Hs Hne Hlen.
  assert (Hc : c < 0x110000).
  { destruct Hs as [H|[_ H]]; [|exact H]. eapply N.lt_trans; [exact H|done]. }
  exists (utf8 c). split; [by apply compiler_writes_utf8|].
  apply compiler_reads_utf8; [done|done|].
  eapply N.le_trans; [|exact Hlen]. unfold utf8. by repeat case_match.
Qed.
Print Assumptions compiler_utf8_round_trip.

(** C35. What is not UTF-8 is not always rejected: the reader accepts overlong
    forms, so two different texts give the same character. *)
Theorem compiler_reads_only_utf8_refuted :
  exists text c, readChar text 4 = COk (2, Some c) /\ c <> 92 /\ take 2 text <> utf8 c /\
    exists text', readChar text' 4 = COk (1, Some c).
Proof. exists [0xC1; 0x81], 65. split; [done|]. split; [done|]. split; [done|]. by exists [65]. Qed.
Print Assumptions compiler_reads_only_utf8_refuted.

(** C11 is false: U+1F600 comes out as the four bytes F1 9F 98 80, which is
    another character's text. *)
Theorem runtime_appendChar_utf8_refuted :
  exists c, scalar_value c /\ appendChar c <> utf8 c.
Proof. exists 0x1F600. split; [by right|]. by vm_compute. Qed.
Print Assumptions runtime_appendChar_utf8_refuted.

(** Exactly when it is right: a code point is written as its UTF-8 text if and
    only if it is below 0x10000; no supplementary character is written right. *)
Theorem runtime_appendChar_utf8_exact c :
  c < 0x110000 -> appendChar c = utf8 c <-> c < 0x10000.
Proof. exact (appendChar_exact c). Qed.
Print Assumptions runtime_appendChar_utf8_exact.

(** The part of C11 that holds.  Missing: the supplementary planes (refuted). *)
Theorem runtime_appendChar_utf8_partial c : c < 0x10000 -> appendChar c = utf8 c.
Proof. exact (appendChar_utf8 c). Qed.
Print Assumptions runtime_appendChar_utf8_partial.

Example utf8_examples :
  utf8 0x24 = [0x24] /\ utf8 0xA3 = [0xC2; 0xA3] /\ utf8 0x20AC = [0xE2; 0x82; 0xAC] /\
  utf8 0x10348 = [0xF0; 0x90; 0x8D; 0x88] /\ scalar_value 0x10348 /\
  wcharToStr 0x10348 = COk [0xF0; 0x90; 0x8D; 0x88] /\
  readChar [0xF0; 0x90; 0x8D; 0x88; 0x41] 5 = COk (4, Some 0x10348) /\
  appendChar 0x20AC = [0xE2; 0x82; 0xAC].
Proof. split_and!; try by vm_compute. by right. Qed.
