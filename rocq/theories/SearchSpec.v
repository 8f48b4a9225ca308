(** The order of names, and what qsort and lookups should do. *)
From stdpp Require Import numbers list sorting.
Local Open Scope Z_scope.

(** Lexicographic order of byte strings. *)
Inductive name_lt : list N -> list N -> Prop :=
  | lt_nil y b : name_lt [] (y :: b)
  | lt_head x y a b : (x < y)%N -> name_lt (x :: a) (y :: b)
  | lt_tail x a b : name_lt a b -> name_lt (x :: a) (x :: b).

(** The C standard's qsort: a permutation of the input in which no element
    compares greater than a later one. *)
Definition qsort_result {A} (cmp : A -> A -> Z) (input output : list A) : Prop :=
  output ≡ₚ input /\
  (forall i j x y, (i < j)%nat -> output !! i = Some x -> output !! j = Some y -> cmp x y <= 0).

(** No NUL inside a name. *)
Definition c_name (s : list N) : Prop := Forall (fun c => (0 < c < 256)%N) s.
