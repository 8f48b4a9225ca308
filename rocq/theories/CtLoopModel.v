(** Model of enum numbering (src/cxy/lang/middle/bind/resolve.c) and of compile-time loops
    over ranges (src/cxy/lang/middle/eval/for.c and eval.c). *)
From Coq Require Import ZArith.
From stdpp Require Import numbers list.
From Verif Require Import PrimModel.
Local Open Scope Z_scope.

(** What an option has after its name: nothing, an integer literal (sign and 64-bit
    token), or any other expression. *)
Inductive init := NoInit | IntInit (neg : bool) (raw : Z) | OtherInit.
(** [Overflow]: signed overflow, undefined in C. [Todo]: the TODO() assertion. *)
Inductive result (A : Type) := Done (a : A) | Overflow | Todo.
Arguments Done {A} a. Arguments Overflow {A}. Arguments Todo {A}.
Definition succ_i64 (v : Z) : option Z := if v <? 2 ^ 63 - 1 then Some (v + 1) else None.
(** bind/resolve.c:440-461, the values of the options; [next] is nextValue. *)
Fixpoint number (next : Z) (opts : list init) : result (list Z) :=
  match opts with
  | [] => Done []
  | NoInit :: rest =>
    match succ_i64 next with
    | None => Overflow
    | Some next' => match number next' rest with Done vs => Done (next :: vs) | r => r end
    end
  | IntInit neg raw :: rest =>
    let v := literal_value neg raw in
    match succ_i64 v with
    | None => Overflow
    | Some next' => match number next' rest with Done vs => Done (v :: vs) | r => r end
    end
  | OtherInit :: _ => Todo
  end.
(** bind/resolve.c:433-463 *)
Definition bind_enum (opts : list init) : result (list Z) := number 0 opts.

(** Compile-time range loops. A step is absent, an integer literal, or another literal. *)
Inductive step := NoStep | IntStep (v : Z) | OtherStep.
(** eval.c:283-317: whether an error is reported *)
Definition range_reports (s : step) : bool := match s with IntStep _ => true | _ => false end.
(** for.c:189-236: the values given to the variable; the reported error does not stop
    the loop. [None] when the fuel runs out. *)
Fixpoint loop (fuel : nat) (i count s : Z) : option (result (list Z)) :=
  match fuel with
  | O => None
  | S fuel =>
    if i <? count then
      let i' := i + s in
      if (- 2 ^ 63 <=? i') && (i' <? 2 ^ 63) then
        match loop fuel i' count s with
        | Some (Done l) => Some (Done (i :: l))
        | r => r
        end
      else Some Overflow
    else Some (Done [])
  end.
Definition range_loop (fuel : nat) (start end_ : Z) (s : step) : option (result (list Z)) :=
  match s with NoStep => loop fuel start end_ 1 | IntStep v => loop fuel start end_ v | OtherStep => Some Todo end.
