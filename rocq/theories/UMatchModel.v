(** Match statements on unions: checks and generated code. Types, labels and bodies are reduced to what the choice of the
    case depends on. *)
From Coq Require Import Bool List Arith.
Import ListNotations.

(** A type: a base type, a wrapped (const) type, or an alias with its name. Types are compared by pointer in the source;
    the type table (frontend/ttable.c) keeps one copy of each, so equality of pointers is equality here. Forward declared
    types, [This] and type infos are left out. *)
Inductive ty := Base (n : nat) | Const (t : ty) | Alias (name : nat) (t : ty).

Fixpoint ty_eqb (a b : ty) : bool :=
  match a, b with
  | Base n, Base m => n =? m
  | Const a, Const b => ty_eqb a b
  | Alias n a, Alias m b => (n =? m) && ty_eqb a b
  | _, _ => false
  end.

(** resolveType, resolveAndUnThisType, frontend/ttable.c:542-587: aliases are followed, wrapped types are not. *)
Fixpoint resolve (t : ty) : ty := match t with Alias _ t => resolve t | _ => t end.

(** resolveUnThisUnwrapType, frontend/ttable.c:589-618: aliases and wrapped types are followed. *)
Fixpoint strip (t : ty) : ty := match t with Alias _ t | Const t => strip t | Base _ => t end.

(** addUnionDecl, middle/sema/type.c:15-32. *)
Definition add_union (members : list ty) (m : ty) : list ty :=
  if existsb (ty_eqb m) members then members else members ++ [m].

(** checkUnionDecl, middle/sema/type.c:177-187: the members of the type of a union with these members written. *)
Definition union_of (ds : list ty) : list ty := fold_left (fun ms d => add_union ms (resolve d)) ds [].

(** findUnionTypeIndex, frontend/types.c:1292-1302. [None] is UINT32_MAX. *)
Fixpoint index_from (i : nat) (ms : list ty) (t : ty) : option nat :=
  match ms with
  | [] => None
  | m :: r => if ty_eqb (resolve m) t then Some i else index_from (S i) r t
  end.
Definition find_index (ms : list ty) (t : ty) : option nat := index_from 0 ms (strip t).

(** transformToUnionValue, middle/sema/node.c:580-595, and the code written for its result, backend/c/generate.c (the tag
    and the member of that number are set): a value [v] of type [t] turned into a union. [None]: the assertion of
    node.c:590 fails. *)
Definition store {V} (ms : list ty) (t : ty) (v : V) : option (nat * V) :=
  match find_index ms (resolve t) with Some i => Some (i, v) | None => None end.

(** A case of a match statement: its type, if it is not the default, and its body. *)
Record case := Case { c_type : option ty; c_body : nat }.

(** isSameCase, middle/sema/match.c:13-20. *)
Definition same_case (a b : case) : bool :=
  match c_type a, c_type b with
  | None, None => true
  | Some s, Some t => ty_eqb s t
  | _, _ => false
  end.

(** checkMatchCaseStmt, middle/sema/match.c:22-65: the number of a case; the outer [None] is an error. *)
Definition check_case (ms : list ty) (c : case) : option (option nat * nat) :=
  match c_type c with
  | None => Some (None, c_body c)
  | Some t => match find_index ms t with Some i => Some (Some i, c_body c) | None => None end
  end.

Fixpoint check_cases (ms : list ty) (cs : list case) : option (list (option nat * nat)) :=
  match cs with
  | [] => Some []
  | c :: r => match check_case ms c, check_cases ms r with Some x, Some l => Some (x :: l) | _, _ => None end
  end.

(** checkMatchStmt, middle/sema/match.c:120-143: each case is compared with those before it. *)
Fixpoint duplicates (before cs : list case) : bool :=
  match cs with
  | [] => false
  | c :: r => existsb (fun it => same_case it c) before || duplicates (before ++ [c]) r
  end.

(** checkMatchStmt, middle/sema/match.c:67-146, on a union with members [ms]. The types and returns of bodies are left out. *)
Definition check_match (ms : list ty) (cs : list case) : option (list (option nat * nat)) :=
  match check_cases ms cs with
  | Some l => if duplicates [] cs then None else Some l
  | None => None
  end.

(** The switch statement visitMatchStmt (middle/simplify/simplify.c:1152-1207) makes is taken by a C compiler only if no two
    of its labels are equal (C11 6.8.4.2p3). *)
Definition label_eqb (a b : option nat) : bool :=
  match a, b with Some i, Some j => i =? j | None, None => true | _, _ => false end.
Fixpoint c_accepts (l : list (option nat * nat)) : bool :=
  match l with
  | [] => true
  | (k, _) :: r => negb (existsb (fun x => label_eqb k (fst x)) r) && c_accepts r
  end.

(** What a run of the statement comes to: a body is run, with the value read into the variable of its case; or the
    [unreachable] of backend/c/generate.c:1557-1562 is reached. The inner [None]: the default case, without variable, or the
    read of another member than the one written. *)
Inductive outcome (V : Type) := Ran (b : nat) (x : option V) | Unhandled.
Arguments Ran {V}. Arguments Unhandled {V}.

(** The union cast of a case variable (middle/simplify/simplify.c:1174-1184): the member with the number of the case. *)
Definition read {V} (i : nat) (u : nat * V) : option V := if fst u =? i then Some (snd u) else None.

(** backend/c/generate.c:1550-1565, 1582-1614: the case with the label of the tag, else the default. Every case ends in
    [break] or [return]. *)
Fixpoint default_of (l : list (option nat * nat)) : option nat :=
  match l with [] => None | (None, b) :: _ => Some b | _ :: r => default_of r end.
Fixpoint labelled (tag : nat) (l : list (option nat * nat)) : option (nat * nat) :=
  match l with
  | [] => None
  | (Some i, b) :: r => if i =? tag then Some (i, b) else labelled tag r
  | (None, _) :: r => labelled tag r
  end.
Definition run {V} (l : list (option nat * nat)) (u : nat * V) : outcome V :=
  match labelled (fst u) l with
  | Some (i, b) => Ran b (read i u)
  | None => match default_of l with Some b => Ran b None | None => Unhandled end
  end.
