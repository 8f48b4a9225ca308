(** Several first-in first-out queues. *)
From Coq Require Import NArith.
From stdpp Require Import numbers gmap list.
From Verif Require Import ListModel.

Notation queues := (nat -> list nat).
Definition spec_step (q : queues) (o : op) : queues * out :=
  match o with
  | Push i a => (upd q i (q i ++ [a]), OUnit)
  | Pop i => match q i with [] => (q, OItem None) | a :: r => (upd q i r, OItem (Some a)) end
  | Front i => (q, OItem (head (q i)))
  | Back i => (q, OItem (last (q i)))
  | Size i => (q, OSize (N.of_nat (length (q i))))
  | Empty i => (q, OBool (bool_decide (q i = [])))
  end.
Fixpoint spec_run (q : queues) (os : list op) : queues * list out :=
  match os with
  | [] => (q, [])
  | o :: os => let '(q, r) := spec_step q o in let '(q, rs) := spec_run q os in (q, r :: rs)
  end.
(** Items of [items] are pushed, and only while in no queue. *)
Fixpoint proper (items : gset nat) (q : queues) (os : list op) : Prop :=
  match os with
  | [] => True
  | o :: os =>
    (match o with Push _ a => a ∈ items /\ (forall j, a ∉ q j) | _ => True end)
    /\ proper items (fst (spec_step q o)) os
  end.
