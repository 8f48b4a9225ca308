(** Occurrences of substrings and characters, and orders. *)
From stdpp Require Import numbers list.
Local Open Scope nat_scope.

(** [part] occurs in [s] at index [i]. *)
Definition occurs (s part : list N) (i : nat) : Prop := exists a b, s = a ++ part ++ b /\ length a = i.
Definition first_occurrence (s part : list N) (r : option nat) : Prop :=
  match r with
  | Some i => occurs s part i /\ forall j, occurs s part j -> i <= j
  | None => forall j, ~ occurs s part j
  end.
Definition last_occurrence (s part : list N) (r : option nat) : Prop :=
  match r with
  | Some i => occurs s part i /\ forall j, occurs s part j -> j <= i
  | None => forall j, ~ occurs s part j
  end.
Definition nul_free (s : list N) : Prop := Forall (fun c => c <> 0%N) s.
(** White space: tab, line feed, vertical tab, form feed, carriage return, blank. *)
Definition white (c : N) : bool := bool_decide (c ∈ [9; 10; 11; 12; 13; 32]%N).
(** [m] is [s] without the white space around it. *)
Definition stripped (space : N -> bool) (s m : list N) : Prop :=
  exists a b, s = a ++ m ++ b /\ Forall (fun c => space c = true) a /\ Forall (fun c => space c = true) b /\
    (forall c, head m = Some c -> space c = false) /\ (forall c, last m = Some c -> space c = false).
(** The text of a C string: everything before the first NUL. *)
Fixpoint before_nul (s : list N) : list N :=
  match s with
  | c :: s => if decide (c = 0%N) then [] else c :: before_nul s
  | [] => []
  end.
