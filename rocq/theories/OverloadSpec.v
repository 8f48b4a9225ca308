(** What overload resolution should do: among the overloads that accept the
    arguments, choose one that needs the fewest conversions. *)
From stdpp Require Import list numbers.
From Verif Require Import OverloadModel.

Section spec.
Context (resolve : N → N) (assignable constructable : N → N → bool) (perfect : bool).

(** Passing an argument to a parameter: at no cost if the types are the same,
    by a conversion otherwise. *)
Inductive passes : N → N → nat → Prop :=
  | passes_same p a : resolve p = resolve a → passes p a 0
  | passes_conv p a : resolve p ≠ resolve a → perfect = false →
      assignable (resolve p) (resolve a) = true ∨ constructable (resolve p) (resolve a) = true →
      passes p a 1.
Inductive pass_all : list N → list N → nat → Prop :=
  | pass_nil : pass_all [] [] 0
  | pass_cons p a ps as_ c cs : passes p a c → pass_all ps as_ cs → pass_all (p :: ps) (a :: as_) (c + cs).

(** [d] accepts the arguments at the cost [c]: the parameters before the
    variadic one are matched with the arguments, the last [d_defaults] of them
    may be left to their defaults, and only a variadic function takes more. *)
Definition fixed (d : decl) : list N :=
  if d_variadic d then take (length (d_params d) - 1) (d_params d) else d_params d.
Definition accepts (d : decl) (args : list N) (c : nat) : Prop :=
  d_typed d = true ∧ d_hidden d = false ∧
  length (fixed d) ≤ length args + N.to_nat (d_defaults d) ∧
  (length args ≤ length (fixed d) ∨ d_variadic d = true) ∧
  pass_all (take (length args) (fixed d)) (take (length (fixed d)) args) c.
(** Declarations as the parser makes them: a variadic function has a variadic
    parameter, there are no more defaults than parameters before it. *)
Definition wf (d : decl) : Prop :=
  (d_variadic d = true → d_params d ≠ []) ∧ (d_defaults d ≤ N.of_nat (length (fixed d)))%N ∧
  (N.of_nat (length (d_params d)) < 2 ^ 63)%N.
End spec.
