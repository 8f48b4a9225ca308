(** What is registered after a history of operations. *)
From Coq Require Import ZArith NArith.
From stdpp Require Import numbers gmap list.
From Verif Require Import FileEvModel.

(** The interests of each descriptor, from the history of operations and whether each of
    them succeeded.  Removing the interest in writing also removes the barrier. *)
Definition interest : Type := Z -> N.
Definition spec_step (f : interest) (o : fop) (ok : bool) : interest :=
  fun d =>
    match o with
    | FCreate fd m _ => if decide (d = fd) then if ok then N.lor (f d) m else f d else f d
    | FDelete fd m =>
      if decide (d = fd) then N.ldiff (f d) (if N.testbit m 1 then N.lor m AE_BARRIER else m) else f d
    | FResize _ => f d
    end.
Fixpoint spec_run (f : interest) (os : list fop) (bs : list bool) : interest :=
  match os, bs with
  | o :: os, b :: bs => spec_run (spec_step f o b) os bs
  | _, _ => f
  end.

(** [m] is the largest descriptor with an interest, or -1. *)
Definition largest (f : interest) (m : Z) : Prop :=
  (forall d, (m < d)%Z -> f d = 0%N) /\ ((m = -1)%Z \/ ((0 <= m)%Z /\ f m <> 0%N)).

(** Operations on descriptors that are not negative, with an interest. *)
Definition op_ok (o : fop) : Prop :=
  match o with FCreate fd m _ => (0 <= fd)%Z /\ m <> 0%N | FDelete fd _ => (0 <= fd)%Z | FResize _ => True end.
