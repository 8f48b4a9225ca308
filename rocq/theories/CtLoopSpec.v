From Coq Require Import ZArith.
From stdpp Require Import numbers list.
From Verif Require Import CtLoopModel.
Local Open Scope Z_scope.

(** The value of option number [i], by its position alone. *)
Definition literal (o : init) : option Z := match o with IntInit neg raw => Some (if neg then - raw else raw) | _ => None end.
Definition numbered (opts : list init) (vs : list Z) : Prop :=
  length vs = length opts /\
  forall i o, opts !! i = Some o ->
    vs !! i = match literal o, i with
              | Some v, _ => Some v
              | None, O => Some 0
              | None, S j => Z.add 1 <$> vs !! j
              end.
(** The values below [end_] of the progression from [start]. *)
Definition progression (start end_ s : Z) (l : list Z) : Prop :=
  forall k, l !! k = if decide (start + Z.of_nat k * s < end_) then Some (start + Z.of_nat k * s) else None.
