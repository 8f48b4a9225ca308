(** C14: hashing of strings covers the whole content. *)
From stdpp Require Import list numbers.
From Verif Require Import FnvModel FnvSpec FnvProofs.
Local Open Scope N_scope.

(** The compiler's hash of a byte range is FNV-1a of all its bytes. *)
Theorem compiler_hash_is_fnv1a h s : hash_raw_bytes h s = fnv1a h s.
Proof. exact (raw_fnv1a h s). Qed.
Print Assumptions compiler_hash_is_fnv1a.

(** FNV-1a separates any two strings that differ in exactly one byte, at any
    length and at any position. *)
Theorem fnv1a_covers_every_byte h a b :
  h < 2 ^ 32 -> is_bytes a -> is_bytes b -> one_byte_differs a b ->
  fnv1a h a <> fnv1a h b.
Proof. rewrite <- !raw_fnv1a. exact (raw_one_byte h a b). Qed.
Print Assumptions fnv1a_covers_every_byte.

Theorem compiler_hash_covers_every_byte h a b :
  h < 2 ^ 32 -> is_bytes a -> is_bytes b -> one_byte_differs a b ->
  hash_raw_bytes h a <> hash_raw_bytes h b.
Proof. exact (raw_one_byte h a b). Qed.
Print Assumptions compiler_hash_covers_every_byte.

(** NUL-terminated strings: hashing stops at the terminator, so the hash is that
    of the content and does not depend on what follows it. *)
Theorem cstring_hash_is_hash_of_content h s rest :
  is_bytes s -> 0 ∉ s -> hash_str h (s ++ 0 :: rest) = Some (fnv1a h s).
Proof. exact (hash_str_spec h s rest). Qed.
Print Assumptions cstring_hash_is_hash_of_content.

(** The runtime's string slice ([__string]). *)
Theorem slice_hash_is_hash_of_content s rest :
  is_bytes s -> slice_hash (s ++ rest) (N.of_nat (length s)) = Some (fnv1a rt_init s).
Proof. intros Hs. exact (n_string_loop_spec rt_init s rest 0 _ Hs eq_refl). Qed.
Print Assumptions slice_hash_is_hash_of_content.

(** Integers of every width: the hash is that of the little-endian bytes, in the
    compiler and in the runtime alike. *)
Theorem integer_hash_is_hash_of_bytes h x :
  hash_uint16 h x = fnv1a h (le_bytes 2 x) /\ rt_hash_uint16 h x = fnv1a h (le_bytes 2 x) /\
  hash_uint32 h x = fnv1a h (le_bytes 4 x) /\ rt_hash_uint32 h x = fnv1a h (le_bytes 4 x) /\
  hash_uint64 h x = fnv1a h (le_bytes 8 x) /\ rt_hash_uint64 h x = fnv1a h (le_bytes 8 x).
Proof.
  exact (conj (hash_uint16_le' h x) (conj (rt_uint16_le h x) (conj (hash_uint32_le h x)
    (conj (rt_uint32_le h x) (conj (hash_uint64_le h x) (rt_uint64_le h x)))))).
Qed.
Print Assumptions integer_hash_is_hash_of_bytes.

(** The runtime's [String] does not have the property: "ab" and "ac" collide
    because [for (i: 0..size-1)] leaves the last byte out. *)
Theorem String_hash_covers_every_byte_refuted :
  exists a b, is_bytes a /\ is_bytes b /\ one_byte_differs a b /\
    String_hash (Some a) (N.of_nat (length a)) = String_hash (Some b) (N.of_nat (length b)).
Proof.
  exists [97; 98], [97; 99]. split_and!.
  - by repeat constructor.
  - by repeat constructor.
  - exists [97], 98, 99, []. done.
  - vm_compute. done.
Qed.
Print Assumptions String_hash_covers_every_byte_refuted.

(** Exactly what it does: the hash of a non-empty [String] is the hash of all its
    bytes but the last, whatever that is. *)
Theorem String_hash_exact s x rest :
  is_bytes s -> N.of_nat (length s) + 1 < 2 ^ 64 ->
  String_hash (Some (s ++ x :: rest)) (N.of_nat (length s) + 1) = Some (fnv1a rt_init s).
Proof. exact (string_hash_last rt_init s x rest). Qed.
Print Assumptions String_hash_exact.

(** What remains true: a change of any byte but the last is seen.  Missing: the
    last byte (refuted above). *)
Theorem String_hash_covers_partial a b x y :
  is_bytes a -> is_bytes b -> one_byte_differs a b ->
  N.of_nat (length a) + 1 < 2 ^ 64 -> N.of_nat (length b) + 1 < 2 ^ 64 ->
  String_hash (Some (a ++ [x])) (N.of_nat (length a) + 1) <>
  String_hash (Some (b ++ [y])) (N.of_nat (length b) + 1).
Proof.
  intros Ha Hb Hd La Lb E. rewrite !String_hash_exact in E by done.
  injection E. exact (fnv1a_covers_every_byte rt_init a b eq_refl Ha Hb Hd).
Qed.
Print Assumptions String_hash_covers_partial.

(** An empty [String] that still owns a buffer reads outside it, however large
    the buffer. *)
Theorem String_hash_empty_refuted mem :
  N.of_nat (length mem) < 2 ^ 64 - 1 -> String_hash (Some mem) 0 = None.
Proof. exact (string_hash_empty rt_init mem). Qed.
Print Assumptions String_hash_empty_refuted.

(** The hypotheses are met by concrete strings. *)
Example covers_example :
  let a := [104; 101; 108; 108; 111] in let b := [104; 101; 108; 112; 111] in
  fnv_init < 2 ^ 32 /\ is_bytes a /\ is_bytes b /\ one_byte_differs a b /\
  hash_raw_bytes fnv_init a = 0x4f9f2cab /\
  slice_hash (a ++ [1; 2]) 5 = Some (fnv1a rt_init a) /\
  hash_str fnv_init (a ++ [0; 7]) = Some 0x4f9f2cab /\
  String_hash (Some a) 5 <> String_hash (Some b) 5.
Proof.
  cbn zeta. split_and!; try done; try by repeat constructor.
  exists [104; 101; 108], 108, 112, [111]. done.
Qed.
