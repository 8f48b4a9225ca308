(** What the checks of switch cases are to do. *)
From Coq Require Import ZArith List Permutation.
From Verif Require Import SwitchModel.
Import ListNotations.
Local Open Scope Z_scope.

(** The values a case matches. *)
Definition matches (c : scase) (v : Z) : Prop :=
  match c with CVal w => v = w | CRange a b => a <= v <= b end.
(** Two of the cases match the same value. *)
Definition overlapping (l : list scase) : Prop :=
  exists i j a b v, (i < j)%nat /\ nth_error l i = Some a /\ nth_error l j = Some b /\ matches a v /\ matches b v.
(** A case that matches something, and only values of the type. *)
Definition sensible (t : ity) (c : scase) : Prop :=
  (exists v, matches c v) /\ forall v, matches c v -> least t <= v <= most t.
(** The types of the language with at most 63 bits of value. *)
Definition machine (t : ity) : Prop :=
  (exists n, 0 < n <= 64 /\ t = Ity true (- 2 ^ (n - 1)) (2 ^ (n - 1) - 1)) \/
  (exists n, 0 < n <= 63 /\ t = Ity false 0 (2 ^ n - 1)).
(** What C promises about qsort (C11 7.22.5): the elements are permuted, and sorted if the
    comparison is a total order on them. *)
Definition total_on (cmp : scase -> scase -> Z) (l : list scase) : Prop :=
  (forall a b, In a l -> In b l -> (cmp a b <= 0 <-> 0 <= cmp b a)) /\
  (forall a b c, In a l -> In b l -> In c l -> cmp a b <= 0 -> cmp b c <= 0 -> cmp a c <= 0).
Inductive in_order (cmp : scase -> scase -> Z) : list scase -> Prop :=
  | O_nil : in_order cmp []
  | O_one a : in_order cmp [a]
  | O_more a b l : cmp a b <= 0 -> in_order cmp (b :: l) -> in_order cmp (a :: b :: l).
Definition is_qsort (q : (scase -> scase -> Z) -> list scase -> list scase) : Prop :=
  forall cmp l, Permutation l (q cmp l) /\ (total_on cmp l -> in_order cmp (q cmp l)).
Definition value (c : scase) : Prop := exists v, c = CVal v.
Definition range (c : scase) : Prop := exists a b, c = CRange a b.
