(** Model of the checks of switch cases, src/cxy/lang/middle/sema/switch.c:19-124, 150-190 and
    245-275, with isIntegerTypeInRange of frontend/ttable.c:1456-1464 and the table of
    frontend/types.c:1066-1091.  The cases are integer literals and ranges of them; enums,
    strings and comptime cases are left out.  [qsort] of the C library is a parameter; one
    that is glibc's merge sort (stdlib/msort.c, not in the repository) is given too. *)
From Coq Require Import ZArith List Bool.
Import ListNotations.
Local Open Scope Z_scope.

(** The values as written in the program. *)
Inductive scase := CVal (v : Z) | CRange (lo hi : Z).
(** Conversion to i64: ast.h:1614-1619 *)
Definition i64 (v : Z) : Z := (v + 2 ^ 63) mod 2 ^ 64 - 2 ^ 63.
Definition u64 (v : Z) : Z := v mod 2 ^ 64.

(** switch.c:37-47 *)
Definition isIntegerInRange (lo hi v : Z) : Z :=
  if v <? lo then -1 else if hi <? v then 1 else 0.
(** switch.c:49-61 *)
Definition isOverlappingRange (lo hi lo' hi' : Z) : Z :=
  if hi <? lo' then -1 else if hi' <? lo then 1 else 0.
(** switch.c:63-101 *)
Definition compareLiteralNode (l r : scase) : Z :=
  match l, r with
  | CRange a b, CRange c d => isOverlappingRange (i64 a) (i64 b) (i64 c) (i64 d)
  | CRange a b, CVal v => isIntegerInRange (i64 a) (i64 b) (i64 v)
  | CVal v, CRange a b => - isIntegerInRange (i64 a) (i64 b) (i64 v)
  | CVal v, CVal w => if i64 v <? i64 w then -1 else if i64 w <? i64 v then 1 else 0
  end.
(** switch.c:103-127: is an error reported? *)
Fixpoint checkDuplicateCaseMatches (l : list scase) : bool :=
  match l with
  | a :: (b :: _) as t => (compareLiteralNode a b =? 0) || checkDuplicateCaseMatches t
  | _ => false
  end.

(** The types of conditions: signedness, least and greatest value. *)
Record ity := Ity { sgn : bool; least : Z; most : Z }.
(** ttable.c:1456-1464; [None] is the failing assertion *)
Definition isIntegerTypeInRange (t : ity) (min max : Z) : option bool :=
  if max <? min then None
  else if sgn t then Some ((min <=? i64 (most t)) && (least t <=? max))
  else Some ((u64 min <=? most t) && (least t <=? max)).
(** switch.c:150-190 *)
Definition checkCase (t : ity) (c : scase) : option bool :=
  match c with
  | CVal v => isIntegerTypeInRange t (i64 v) (i64 v)
  | CRange a b => isIntegerTypeInRange t (i64 a) (i64 b)
  end.
Inductive verdict := Accepted | Rejected | Crashed.
Fixpoint checkCases (t : ity) (l : list scase) : verdict :=
  match l with
  | [] => Accepted
  | c :: l =>
    match checkCase t c, checkCases t l with
    | None, _ => Crashed
    | _, Crashed => Crashed
    | Some true, v => v
    | Some false, _ => Rejected
    end
  end.
(** switch.c:228-275 *)
Definition checkSwitch (qsort : (scase -> scase -> Z) -> list scase -> list scase) (t : ity) (l : list scase) : verdict :=
  match checkCases t l with
  | Accepted => if checkDuplicateCaseMatches (qsort compareLiteralNode l) then Rejected else Accepted
  | v => v
  end.

(** glibc's merge sort: halves, and the first of the left half while it is not greater.  Fuel
    is the number of elements. *)
Fixpoint merge (cmp : scase -> scase -> Z) (l : list scase) : list scase -> list scase :=
  fix inner (r : list scase) : list scase :=
    match l, r with
    | [], _ => r
    | _, [] => l
    | a :: l', b :: r' => if cmp a b <=? 0 then a :: merge cmp l' r else b :: inner r'
    end.
Fixpoint msort_ (fuel : nat) (cmp : scase -> scase -> Z) (l : list scase) : list scase :=
  match fuel with
  | O => l
  | S fuel =>
    match l with
    | [] | [_] => l
    | _ => let n := Nat.div (length l) 2 in
           merge cmp (msort_ fuel cmp (firstn n l)) (msort_ fuel cmp (skipn n l))
    end
  end.
Definition msort (cmp : scase -> scase -> Z) (l : list scase) : list scase := msort_ (length l) cmp l.

(** types.h:24-46, types.c:1069-1081 *)
Definition tU8 : ity := Ity false 0 255.
Definition tU64 : ity := Ity false 0 (2 ^ 64 - 1).
Definition tI8 : ity := Ity true (-128) 127.
Definition tI32 : ity := Ity true (- 2 ^ 31) (2 ^ 31 - 1).
Definition tI64 : ity := Ity true (- 2 ^ 63) (2 ^ 63 - 1).
