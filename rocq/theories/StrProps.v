(** C12 and C13: string search and comparison. *)
From Coq Require Import ZArith Lia.
From stdpp Require Import numbers list.
From Verif Require Import StrModel StrSpec StrProofs.
Local Open Scope nat_scope.

(** find is right exactly for a non-empty pattern (or a one-byte text). *)
Theorem C12_find_exact_partial (s part : list N) :
  (exists r, find s part = SOk r /\ first_occurrence s part r) <-> part <> [] \/ length s = 1.
Proof. apply find_exact. Qed.
Print Assumptions C12_find_exact_partial.
(** rfind is right exactly for a non-empty pattern. *)
Theorem C12_rfind_exact_partial (s part : list N) :
  (exists r, rfind s part = SOk r /\ last_occurrence s part r) <-> part <> [].
Proof. apply rfind_exact. Qed.
Print Assumptions C12_rfind_exact_partial.
Theorem C12_indexOf (s : list N) (ch : N) : first_occurrence s [ch] (indexOf s ch).
Proof. apply indexOf_ok. Qed.
Print Assumptions C12_indexOf.
(** rIndexOf is wrong exactly when the only occurrence is at index 0. *)
Theorem C12_rIndexOf_exact_partial (s : list N) (ch : N) :
  last_occurrence s [ch] (rIndexOf s ch) <-> ~ (s !! 0 = Some ch /\ forall j, 0 < j -> s !! j <> Some ch).
Proof. apply rIndexOf_exact. Qed.
Print Assumptions C12_rIndexOf_exact_partial.
Theorem C12_startswith_partial (s p : list N) :
  nul_free s -> exists b, startswith s p = SOk b /\ (b = true <-> exists t, s = p ++ t).
Proof. apply startswith_ok. Qed.
Print Assumptions C12_startswith_partial.
Theorem C12_endswith_partial (s p : list N) :
  nul_free s -> exists b, endswith s p = SOk b /\ (b = true <-> exists t, s = t ++ p).
Proof. apply endswith_ok. Qed.
Print Assumptions C12_endswith_partial.

(** "x" is not found from the right in "xab". *)
Theorem C12_rIndexOf_refuted :
  let s := [120; 97; 98]%N in occurs s [120%N] 0 /\ rIndexOf s 120 = None.
Proof. split; [by apply occurs_char|reflexivity]. Qed.
Print Assumptions C12_rIndexOf_refuted.
(** The empty pattern is "found" at the last index by find. *)
Theorem C12_find_empty_refuted :
  let s := [97; 98; 99]%N in occurs s [] 0 /\ find s [] = SOk (Some 2).
Proof. split; [by exists [], [97; 98; 99]%N|reflexivity]. Qed.
Print Assumptions C12_find_empty_refuted.
(** A prefix test is fooled by bytes behind a NUL. *)
Theorem C12_startswith_refuted :
  startswith [97; 0; 98; 99]%N [97; 0; 100]%N = SOk true /\ ~ exists t, [97; 0; 98; 99]%N = [97; 0; 100]%N ++ t.
Proof. split; [reflexivity|]. by intros [t H]. Qed.
Print Assumptions C12_startswith_refuted.

(** [__string.compare] says equal exactly when the sizes and the texts before the first NUL agree. *)
Theorem C13_view_equality_exact_partial (a b : list N) :
  str_compare a b = SOk 0%Z <-> length a = length b /\ before_nul a = before_nul b.
Proof. apply str_compare_exact. Qed.
Print Assumptions C13_view_equality_exact_partial.
Theorem C13_view_equality_partial (a b : list N) :
  nul_free a -> exists z, str_compare a b = SOk z /\ (z = 0%Z <-> a = b).
Proof. apply str_compare_eq. Qed.
Print Assumptions C13_view_equality_partial.
Theorem C13_view_order (a b c : list N) :
  exists x y z w, str_compare a b = SOk x /\ str_compare b c = SOk y /\ str_compare a c = SOk z /\
    str_compare b a = SOk w /\ w = (- x)%Z /\ (x <= 0 -> y <= 0 -> z <= 0)%Z.
Proof.
  destruct (str_compare_total a b) as [x Hx], (str_compare_total b c) as [y Hy],
    (str_compare_total a c) as [z Hz], (str_compare_total b a) as [w Hw].
  exists x, y, z, w. repeat split; try done.
  - exact (str_compare_anti _ _ _ _ Hx Hw).
  - exact (str_compare_trans _ _ _ _ _ _ Hx Hy Hz).
Qed.
Print Assumptions C13_view_order.
(** [String.compare] is a total order consistent with equality for sizes below 2^31. *)
Theorem C13_String_partial (a b c : list N) :
  Forall (fun x => (x < 256)%N) a -> Forall (fun x => (x < 256)%N) b -> Forall (fun x => (x < 256)%N) c ->
  (Z.of_nat (length a) < 2 ^ 31)%Z -> (Z.of_nat (length b) < 2 ^ 31)%Z -> (Z.of_nat (length c) < 2 ^ 31)%Z ->
  (String_compare a b = 0%Z <-> a = b) /\ String_compare b a = (- String_compare a b)%Z /\
  ((String_compare a b <= 0)%Z -> (String_compare b c <= 0)%Z -> (String_compare a c <= 0)%Z).
Proof.
  intros. split; [by apply String_compare_eq|]. split; [by apply String_compare_anti|].
  by apply String_compare_trans.
Qed.
Print Assumptions C13_String_partial.

(** Two different views compare equal. *)
Theorem C13_view_refuted :
  str_compare [97; 0; 98]%N [97; 0; 99]%N = SOk 0%Z /\ [97; 0; 98]%N <> [97; 0; 99]%N.
Proof. split; [reflexivity|done]. Qed.
Print Assumptions C13_view_refuted.
(** A text of 2^32 bytes compares equal to the empty text. *)
Theorem C13_String_refuted :
  exists a : list N, String_compare a [] = 0%Z /\ a <> [].
Proof.
  apply (size_wrap_witness (Z.to_nat (2 ^ 32))). rewrite Z2Nat.id; [reflexivity|].
  by apply Z.pow_nonneg.
Qed.
Print Assumptions C13_String_refuted.

(** trim removes exactly the white space around the text. *)
Theorem C12_trim (s : list N) : stripped white s (trim s).
Proof. eapply stripped_ext; [exact isSpace_white|]. apply trim_ok. Qed.
Print Assumptions C12_trim.

Example C12_example :
  find [97; 98; 99; 98; 99]%N [98; 99]%N = SOk (Some 1) /\ rfind [97; 98; 99; 98; 99]%N [98; 99]%N = SOk (Some 3) /\
  find [97; 98]%N [98; 98; 98]%N = SOk None /\ indexOf [97; 98; 98]%N 98 = Some 1 /\
  rIndexOf [97; 98; 98]%N 98 = Some 2 /\ endswith [97; 98; 99]%N [98; 99]%N = SOk true /\
  trim [32; 9; 97; 32; 98; 10]%N = [97; 32; 98]%N.
Proof. repeat split. Qed.
Example C13_example :
  str_compare [97; 98]%N [97; 99]%N = SOk (-1)%Z /\ str_compare [98]%N [97; 98]%N = SOk (-1)%Z /\
  String_compare [200]%N [100]%N = (-156)%Z.
Proof. repeat split. Qed.
