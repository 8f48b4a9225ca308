(** The values of the primitive types. *)
From Coq Require Import ZArith.
From stdpp Require Import numbers list.
From Verif Require Import PrimModel.
Local Open Scope Z_scope.

(** Integers of so many bytes. *)
Definition signed_range (bytes v : Z) : Prop := - 2 ^ (8 * bytes - 1) <= v < 2 ^ (8 * bytes - 1).
Definition unsigned_range (bytes v : Z) : Prop := 0 <= v < 2 ^ (8 * bytes).
(** An integer that a float with so many bits of significand represents exactly; the
    integers of 64 bits are far inside the range of both formats. *)
Definition float_exact (bits v : Z) : Prop := exists m e, 0 <= e /\ v = m * 2 ^ e /\ Z.abs m <= 2 ^ bits.
(** The integer [v] is a value of the type. *)
Definition holds (p : prim) (v : Z) : Prop :=
  match p with
  | Bool => 0 <= v <= 1
  | CChar => unsigned_range 1 v
  | WChar => unsigned_range 4 v
  | U8 => unsigned_range 1 v | U16 => unsigned_range 2 v | U32 => unsigned_range 4 v | U64 => unsigned_range 8 v
  | I8 => signed_range 1 v | I16 => signed_range 2 v | I32 => signed_range 4 v | I64 => signed_range 8 v
  | F32 => float_exact 24 v
  | F64 => float_exact 53 v
  end.
Definition keeps (to from : prim) : Prop := forall v, holds from v -> holds to v.
