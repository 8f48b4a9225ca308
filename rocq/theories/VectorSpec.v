(** Sequences under the operations of a vector. *)
From stdpp Require Import numbers list.
From Verif Require Import VectorModel.

(** [None]: the program is stopped by an assertion. *)
Definition spec_step {T} (l : list T) (o : op T) : option (list T * out T) :=
  match o with
  | Push x => Some (l ++ [x], OUnit)
  | Pop => match last l with Some x => Some (take (length l - 1) l, OVal x) | None => None end
  | Shift => match l with x :: l => Some (l, OVal x) | [] => None end
  | Get i => if decide (i < 0)%Z then None else match l !! Z.to_nat i with Some x => Some (l, OVal x) | None => None end
  | Set_ i x => if decide (i < 0)%Z then None
                else if decide (Z.to_nat i < length l) then Some (<[Z.to_nat i := x]> l, OUnit) else None
  | Resize n => Some (take n l, OUnit)
  | Shrink => Some (l, OUnit)
  | Size => Some (l, ONum (length l))
  end.
Fixpoint spec_run {T} (l : list T) (os : list (op T)) : list (out T) * option (list T) :=
  match os with
  | [] => ([], Some l)
  | o :: os => match spec_step l o with
               | Some (l, r) => let '(rs, e) := spec_run l os in (r :: rs, e)
               | None => ([], None)
               end
  end.
(** The capacity in force: it is only set by the constructor, resize and shrink, and
    grows by half when a push finds the storage full. *)
Definition next_cap {T} (l : list T) (cap : nat) (o : op T) : nat :=
  match o with
  | Push _ => if decide (cap <= length l) then cap + cap / 2 else cap
  | Resize n => n
  | Shrink => length l
  | _ => cap
  end.
(** No push happens on a full vector of capacity 0 or 1. *)
Fixpoint roomy {T} (l : list T) (cap : nat) (os : list (op T)) : Prop :=
  match os with
  | [] => True
  | o :: os =>
    (match o with Push _ => ~ (length l = cap /\ cap < 2) | _ => True end) /\
    match spec_step l o with Some (l', _) => roomy l' (next_cap l cap o) os | None => True end
  end.
(** The program never sets a capacity below 2. *)
Fixpoint never_small {T} (l : list T) (os : list (op T)) : Prop :=
  match os with
  | [] => True
  | o :: os =>
    (match o with Resize n => 2 <= n | Shrink => 2 <= length l | _ => True end) /\
    match spec_step l o with Some (l', _) => never_small l' os | None => True end
  end.
