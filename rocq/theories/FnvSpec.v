(** What it means for a hash to cover its input. *)
From stdpp Require Import list numbers.

Notation is_bytes := (Forall (fun x : N => (x < 256)%N)) (only parsing).

(** Two strings that differ in exactly one byte. *)
Definition one_byte_differs (a b : list N) : Prop :=
  exists p x y q, a = p ++ x :: q /\ b = p ++ y :: q /\ x <> y.

(** FNV-1a as published: for each byte, xor it in and multiply by the prime,
    modulo 2^32. *)
Fixpoint fnv1a (h : N) (s : list N) : N :=
  match s with
  | [] => h
  | x :: s' => fnv1a (N.modulo (N.mul (N.lxor h x) 16777619) 4294967296) s'
  end.

(** The [n] low bytes of [x], least significant first. *)
Fixpoint le_bytes (n : nat) (x : N) : list N :=
  match n with
  | O => []
  | S n' => N.modulo x 256 :: le_bytes n' (N.div x 256)
  end.
