(** What the compiler's map should be: at most one element per class of
    [equal]; [put] replaces the element of the same class. *)
From stdpp Require Import list numbers.
From Verif Require Import CHmapModel.

Section spec.
Context {E : Type} (equal : E → E → bool).
Definition ks_find (x : E) (l : list E) : option E := List.find (λ y, equal y x) l.
Definition ks_mem (x : E) (l : list E) : bool := existsb (λ y, equal y x) l.
Definition ks_remove (x : E) (l : list E) : list E := List.filter (λ y, negb (equal y x)) l.
Definition ks_put (x : E) (l : list E) : list E := x :: ks_remove x l.
Definition ks_step (l : list E) (o : cop E) : list E * cout E :=
  match o with
  | CPut x => (ks_put x l, CNew (negb (ks_mem x l)))
  | CGet x => (l, CElem (ks_find x l))
  | CRemove x => (ks_remove x l, CDone)
  | CItems => (l, CNum (N.of_nat (length l)))
  end.
Fixpoint ks_run (l : list E) (ops : list (cop E)) : list E * list (cout E) :=
  match ops with
  | [] => (l, [])
  | o :: rest =>
    let r := ks_step l o in
    let r' := ks_run (fst r) rest in (fst r', snd r :: snd r')
  end.
End spec.
