(** The longest registered prefix. *)
From Coq Require Import NArith.
From stdpp Require Import numbers list.

Definition registered {V} (ks : list (list N * V)) (k : list N) (v : V) : Prop := (k, v) ∈ ks.
(** [r] is the length and the data of the longest key that is a prefix of [s]. *)
Definition longest_prefix {V} (ks : list (list N * V)) (s : list N) (r : option (nat * V)) : Prop :=
  match r with
  | Some (n, v) => n <= length s /\ registered ks (take n s) v /\
                   forall k w t, registered ks k w -> s = k ++ t -> length k <= n
  | None => forall k w t, registered ks k w -> s <> k ++ t
  end.
