(** What the compiler's hash table should be: a finite set holding at most one
    element of each class of [compare], with the answers a user expects.  Only
    the types of operations and answers come from the model. *)
From stdpp Require Import list numbers.
From Verif Require Import HTableModel.

Section spec.
Context {E : Type} (compare : E → E → bool).
Definition set_find (e : E) (l : list E) : option E := List.find (λ x, compare x e) l.
Definition set_mem (e : E) (l : list E) : bool := existsb (λ x, compare x e) l.
Definition set_insert (e : E) (l : list E) : list E := if set_mem e l then l else e :: l.
Definition set_remove (e : E) (l : list E) : list E := List.filter (λ x, negb (compare x e)) l.

Notation top := (top E).
Notation tout := (tout E).
Definition set_step (l : list E) (o : top) : list E * tout :=
  match o with
  | TInsert e => (set_insert e l, TBool (negb (set_mem e l)))
  | TFind e => (l, TElem (set_find e l))
  | TRemove e => (set_remove e l, TBool (set_mem e l))
  | TClear => ([], TUnit)
  | TSize => (l, TNum (N.of_nat (length l)))
  end.
Fixpoint set_run (l : list E) (ops : list top) : list E * list tout :=
  match ops with
  | [] => (l, [])
  | o :: rest =>
    let r := set_step l o in
    let r' := set_run (fst r) rest in (fst r', snd r :: snd r')
  end.
End spec.
