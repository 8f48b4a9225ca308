(** The growable text seen from outside: a list of bytes. *)
From stdpp Require Import numbers list.
From Verif Require Import StrSpec.

(** What a caller can do without keeping addresses into the text. *)
Inductive sop := Append (s : list N) | Trim | TrimRight | Clear | Reserve (n : nat).
(** The reachable texts and what each operation makes of them. *)
Definition spec_step (space : N -> bool) (o : sop) (s s' : list N) : Prop :=
  match o with
  | Append a => s' = s ++ a
  | Trim => stripped space s s'
  | TrimRight => exists b, s = s' ++ b /\ Forall (fun c => space c = true) b /\
                   (forall c, last s' = Some c -> space c = false)
  | Clear => s' = []
  | Reserve _ => s' = s
  end.
Fixpoint spec_run (space : N -> bool) (ops : list sop) (s s' : list N) : Prop :=
  match ops with
  | [] => s' = s
  | o :: ops => exists m, spec_step space o s m /\ spec_run space ops m s'
  end.
