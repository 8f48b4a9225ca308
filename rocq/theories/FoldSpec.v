(** What compile-time expressions stand for. *)
From Coq Require Import ZArith.
From stdpp Require Import numbers list.
From Verif Require Import PrimModel LlvmModel LlvmSpec FoldModel.
Local Open Scope Z_scope.

(** Numbers that every float step represents. *)
Definition small (v : Z) : Prop := Z.abs v <= 2 ^ 53.
Definition arithmetic (o : op) : bool := match o with Add | Sub | Mul | Div | Mod | BAnd | BOr | BXor | Shl | Shr => true | _ => false end.
(** The operator is defined on these operands. *)
Definition defined (o : op) (a b : Z) : Prop :=
  match o with Div | Mod => b <> 0 | Shl => 0 <= a /\ 0 <= b < 64 | Shr => 0 <= b < 64 | _ => True end.
(** [ints e v]: [e] is an integer expression of value [v] whose intermediate values are all
    small, with no negative result of an operator on a node whose sign flag reads as clear,
    and with no literal directly inside parentheses. *)
Inductive ints : expr -> Z -> Prop :=
  | ILit v : small v -> ints (Lit (LInt v)) v
  | IGroup e v : is_literal e = false -> ints e v -> ints (Group e) v
  | INeg e v : ints e v -> ints (Un Neg e) (- v)
  | IPlus e v : ints e v -> ints (Un Plus e) v
  | IBin low o e1 e2 a b : arithmetic o = true -> ints e1 a -> ints e2 b -> defined o a b ->
      small (meaning o a b) -> (low = true \/ 0 <= meaning o a b) -> ints (Bin low o e1 e2) (meaning o a b).
(** [bools e P]: [e] is a boolean expression that stands for the proposition [P]. *)
Definition relation (o : op) (a b : Z) : Prop :=
  match o with Lt => a < b | Gt => b < a | Le => a <= b | Ge => b <= a | Eq => a = b | Ne => a <> b | _ => False end.
Inductive bools : expr -> Prop -> Prop :=
  | B_Lit (b : bool) : bools (Lit (LBool b)) (b = true)
  | B_Group e P : is_literal e = false -> bools e P -> bools (Group e) P
  | B_Cmp low o e1 e2 a b : is_comparison o = true -> ints e1 a -> ints e2 b -> bools (Bin low o e1 e2) (relation o a b)
  | B_Eq low e1 e2 P Q : bools e1 P -> bools e2 Q -> bools (Bin low Eq e1 e2) (P <-> Q)
  | B_And e1 e2 P Q : bools e1 P -> bools e2 Q -> bools (And e1 e2) (P /\ Q)
  | B_Or e1 e2 P Q : bools e1 P -> bools e2 Q -> bools (Or e1 e2) (P \/ Q)
  | B_Not e P : bools e P -> bools (Un Not e) (~ P).
