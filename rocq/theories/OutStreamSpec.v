(** The text given to a stream, and decimal notation of integers. *)
From Coq Require Import ZArith.
From stdpp Require Import numbers list.
From Verif Require Import FormatSpec OutStreamModel.

(** Everything appended, in call order. *)
Fixpoint written (ops : list oop) : list N :=
  match ops with
  | [] => []
  | OAppend d :: ops => d ++ written ops
  | OSync :: ops => written ops
  end.
(** The decimal notation of an integer: a minus sign in front of negative ones. *)
Definition is_decimal_Z (z : Z) (t : list N) : Prop :=
  ((0 <= z)%Z /\ is_decimal (Z.to_N z) t) \/
  ((z < 0)%Z /\ exists t', t = 45%N :: t' /\ is_decimal (Z.to_N (- z)) t').

(** Appending [d] would exactly fill the room behind bytes already buffered. *)
Definition exact_fill (s : ostream) (d : list N) : Prop :=
  o_buf s <> [] /\ length (o_buf s) + length d = o_cap s.
