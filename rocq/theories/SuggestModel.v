(** Model of the suggestion for an undefined name: [levenshteinDistance] and
    [suggestSimilarSymbol] (src/cxy/lang/middle/bind/scope.c:44-64, 77-101).

    Simplifications: the characters of a name are given by a function of its
    pointer; the distances are unbounded numbers (in C they are u64 and at most
    the length of a name). *)
From stdpp Require Import list numbers.
From Verif Require Import HTableModel KTableModel ScopeModel.

(** scope.c:44-64. *)
Fixpoint lev (lhs : list N) : list N → nat → nat :=
  match lhs with
  | [] => λ rhs _, length rhs
  | a :: l =>
    fix inner (rhs : list N) (minDist : nat) {struct rhs} : nat :=
      match rhs with
      | [] => length (a :: l)
      | b :: r =>
        if (a =? b)%N then lev l r minDist
        else match minDist with
             | O => 1
             | S k =>
               let x := lev l (b :: r) k in
               let y := inner r k in
               let z := lev l r k in
               1 + Nat.min z (Nat.min x y)
             end
      end
  end.

(** scope.c:86-96: one symbol. *)
Definition consider (chars : N → list N) (name : N) (st : nat * option N) (s : N)
    : nat * option N :=
  let dist := lev (chars name) (chars s) (fst st) in
  if (dist <? fst st)%nat then (dist, Some s) else st.
(** scope.c:85-88: the symbols of the open scopes, bucket by bucket. *)
Definition visible_symbols (e : env) : list N :=
  flat_map (λ sc, map fst (kt_enumerate (sc_syms sc))) (open_scopes e).
(** scope.c:77-101; the name in the note, if any. *)
Definition suggest (chars : N → list N) (e : env) (name : N) : option N :=
  if (length (chars name) <=? 2)%nat then None
  else snd (fold_left (consider chars name) (visible_symbols e) (2%nat, None)).
