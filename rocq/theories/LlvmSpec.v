(** What casts and operators mean. *)
From Coq Require Import ZArith.
From stdpp Require Import numbers list.
From Verif Require Import PrimModel PrimSpec LlvmModel.
Local Open Scope Z_scope.

(** [u] is the value of the type that [v] wraps around to. *)
Definition wraps_to (p : prim) (v u : Z) : Prop := holds p u /\ (u - v) mod 2 ^ (8 * size p) = 0.
Definition integral (p : prim) : bool := is_integer p || is_char p.
(** The mathematical result of an operator; comparisons give 0 or 1. *)
Definition meaning (o : op) (a b : Z) : Z :=
  match o with
  | Add => a + b | Sub => a - b | Mul => a * b
  | Div => Z.quot a b | Mod => Z.rem a b
  | BAnd => Z.land a b | BOr => Z.lor a b | BXor => Z.lxor a b
  | Shl => a * 2 ^ b | Shr => a / 2 ^ b
  | Lt => if decide (a < b) then 1 else 0
  | Gt => if decide (b < a) then 1 else 0
  | Le => if decide (a <= b) then 1 else 0
  | Ge => if decide (b <= a) then 1 else 0
  | Eq => if decide (a = b) then 1 else 0
  | Ne => if decide (a = b) then 0 else 1
  end.
