(** Model of the choice of an overload
    (src/cxy/lang/middle/sema/function.c:70-180,
    [matchOverloadedFunctionPerfectMatch]; [matchOverloadedFunction] of
    check.h:185-195 is the call with [perfectMatch] false).

    Simplifications: types are numbers (they are interned pointers);
    resolveAndUnThisType, isTypeAssignableFrom and isExplicitConstructableFrom
    are parameters.  A declaration is given by what the function reads of it.
    The errors logged are left out.  Counters are u64 and are far from their
    bounds except where they are subtracted, which is done modulo 2^64. *)
From stdpp Require Import list numbers.

(** A declaration in the chain of overloads. *)
Record decl := Decl {
  d_typed : bool;      (* decl->type is not NULL *)
  d_hidden : bool;     (* isMemberFunction(decl) && (decl->flags & flags) != flags *)
  d_variadic : bool;   (* hasFlag(decl, Variadic) *)
  d_params : list N;   (* type->func.params *)
  d_defaults : N       (* type->func.defaultValuesCount *) }.

Section overload.
Context (resolve : N → N) (assignable constructable : N → N → bool) (perfect : bool).

Definition sub64 (a b : N) : N := ((a + 2 ^ 64 - b) mod 2 ^ 64)%N.

(** function.c:104-127, the loop over the first [count] arguments: the score, or
    [None] if not compatible.  Reading beyond either array does not happen
    ([count] is at most both lengths). *)
Fixpoint score_args (params args : list N) (count : nat) (score : N) {struct count} : option N :=
  match count with
  | O => Some score
  | Datatypes.S count' =>
    match params, args with
    | p :: params', a :: args' =>
      let paramType := resolve p in
      let argType := resolve a in
      if (paramType =? argType)%N then score_args params' args' count' score
      else if perfect then None
      else if assignable paramType argType then score_args params' args' count' (sub64 score 1)
      else if constructable paramType argType then score_args params' args' count' (sub64 score 1)
      else None
    | _, _ => None
    end
  end.

(** function.c:82-140, the loop over the declarations; [i] is the position of
    the declaration, the answer is the position of the one chosen. *)
Fixpoint match_loop (decls : list decl) (i : nat) (args : list N) (maxScore : N)
    (argsCount matchScore : N) (found : option nat) : option nat :=
  match decls with
  | [] => found
  | d :: rest =>
    if negb (d_typed d) then match_loop rest (Datatypes.S i) args maxScore argsCount matchScore found
    else if d_hidden d then match_loop rest (Datatypes.S i) args maxScore argsCount matchScore found
    else
      let variadic := if d_variadic d then 1%N else 0%N in
      let paramsCount := N.of_nat (length (d_params d)) in
      let requiredCount := sub64 (sub64 paramsCount (d_defaults d)) variadic in
      let argsCount := if d_variadic d then N.min argsCount (sub64 paramsCount variadic) else argsCount in
      if (argsCount <? requiredCount)%N || (paramsCount <? argsCount)%N
      then match_loop rest (Datatypes.S i) args maxScore argsCount matchScore found
      else match score_args (d_params d) args (N.to_nat argsCount) maxScore with
      | None => match_loop rest (Datatypes.S i) args maxScore argsCount matchScore found
      | Some score =>
        if (score =? maxScore)%N then Some i
        else if (matchScore <=? score)%N
        then match_loop rest (Datatypes.S i) args maxScore argsCount score (Some i)
        else match_loop rest (Datatypes.S i) args maxScore argsCount matchScore found
      end
  end.
Definition match_overload (decls : list decl) (args : list N) : option nat :=
  let n := N.of_nat (length args) in
  match_loop decls 0 args (n * 2) n 0 None.
End overload.
