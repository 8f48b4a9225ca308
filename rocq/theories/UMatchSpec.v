(** What a match on a union should do. *)
From Coq Require Import List.
Import ListNotations.
From Verif Require Import UMatchModel.

(** [t] is another name of base type [n], const or not. *)
Inductive names : ty -> nat -> Prop :=
| n_base n : names (Base n) n
| n_const t n : names t n -> names (Const t) n
| n_alias a t n : names t n -> names (Alias a t) n.

(** [t] is an alias of base type [n] with no const on the way. *)
Inductive plainly : ty -> nat -> Prop :=
| p_base n : plainly (Base n) n
| p_alias a t n : plainly t n -> plainly (Alias a t) n.

(** A type among [ds] is plainly [n]. *)
Definition has_plain (ds : list ty) (n : nat) : Prop := exists d, In d ds /\ plainly d n.

(** A case of [cs] is for base type [n], with body [b]; the default has body [b]. *)
Definition case_for (cs : list case) (n b : nat) : Prop := exists t, In (Case (Some t) b) cs /\ names t n.
Definition default_is (cs : list case) (b : nat) : Prop := In (Case None b) cs.

(** What running [cs] should come to on a value [v] of base type [n]. *)
Inductive should {V} (cs : list case) (n : nat) (v : V) : outcome V -> Prop :=
| s_case b : case_for cs n b -> should cs n v (Ran b (Some v))
| s_default b : (forall b', ~ case_for cs n b') -> default_is cs b -> should cs n v (Ran b None)
| s_none : (forall b', ~ case_for cs n b') -> (forall b', ~ default_is cs b') -> should cs n v Unhandled.

(** No two cases are for the same base type, and there is at most one default. *)
Definition apart (cs : list case) : Prop :=
  forall i j c d, i <> j -> nth_error cs i = Some c -> nth_error cs j = Some d ->
    match c_type c, c_type d with
    | None, None => False
    | Some s, Some t => forall n, names s n -> ~ names t n
    | _, _ => True
    end.

(** No two cases have the same type as written. *)
Definition written_apart (cs : list case) : Prop :=
  forall i j c d, i <> j -> nth_error cs i = Some c -> nth_error cs j = Some d -> c_type c <> c_type d.

(** Each case is for a member of the union. *)
Definition covered (ds : list ty) (cs : list case) : Prop :=
  forall t b n, In (Case (Some t) b) cs -> names t n -> has_plain ds n.
