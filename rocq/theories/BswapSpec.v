(** Bytes of a value in memory. *)
From stdpp Require Import list numbers.
From Verif Require Import FnvSpec BswapModel.

(** The bytes an [n]-byte value occupies in memory on a machine of byte order
    [o], lowest address first. *)
Definition memory_bytes (o : byte_order) (n : nat) (x : N) : list N :=
  match o with LittleEndian => le_bytes n x | BigEndian => rev (le_bytes n x) end.
