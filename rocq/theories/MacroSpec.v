(** What the table of macros should be: a history of definitions, the last one
    of a name being in force. *)
From stdpp Require Import list numbers.
From Verif Require Import MacroModel.

(** The definition in force after the definitions [ds] (oldest first). *)
Fixpoint in_force (ds : list (N * option N)) (x : N) : option (option N) :=
  match ds with
  | [] => None
  | (y, v) :: later =>
    match in_force later x with
    | Some w => Some w
    | None => if (y =? x)%N then Some v else None
    end
  end.
(** The answers, given the definitions made so far. *)
Fixpoint answers (ds : list (N * option N)) (ops : list mop) : list mout :=
  match ops with
  | [] => []
  | MDefine x v :: rest =>
    MDefined (match in_force ds x with Some _ => false | None => true end) (in_force ds x)
      :: answers (ds ++ [(x, v)]) rest
  | MHas x :: rest => MFound (in_force ds x) :: answers ds rest
  end.
