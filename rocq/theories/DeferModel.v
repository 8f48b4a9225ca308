(** Model of the lowering of defer statements, src/cxy/lang/middle/defer.c:48-154 (visitors) and
    167-202, with the wrapping of bodies in blocks that runs before it, shake.c:447-564 and
    1024-1059.  Expressions are numbers.  The lists of statements are lists here: what
    astModifierAdd does to them is the subject of C54.  Left out: blocks inside expressions,
    declarations, the mangling of names in visitFuncDecl (C50), deferred blocks. *)
From Coq Require Import List Bool Arith.
Import ListNotations.

(** Statements.  A conditional without else has [Noop] there.  [While None] is a loop whose
    condition is the literal true; [For c] stands for the loops over ranges, with one test per
    round.  The bodies of the cases of a switch or match are in order; a choice beyond them
    is no case. *)
Inductive stmt :=
  | Act (n : nat) | Defer (n : nat) | Return (n : nat) | Break | Continue | Noop
  | Block (l : list stmt) | If (c : nat) (a b : stmt) | While (c : option nat) (body : stmt)
  | For (c : nat) (body : stmt) | Switch (c : nat) (cases : list stmt).

Definition isBlock (s : stmt) : bool := match s with Block _ => true | _ => false end.
Definition boxed (s : stmt) : stmt := if isBlock s then s else Block [s].
(** shake.c:447-500 (conditionals), 502-564 (while) and 1024-1059 (for).  A body that is there
    is put in a block; the else part is not when it is a conditional. *)
Fixpoint shake (s : stmt) : stmt :=
  match s with
  | Block l => Block (map shake l)
  | If c a b => If c (boxed (shake a)) (match b with Noop => Noop | If _ _ _ => shake b | _ => boxed (shake b) end)
  | While None body => While None (boxed (shake body))
  | While (Some c) body => While None (Block [If c (boxed (shake body)) (Block [Break])])
  | For c body => For c (boxed (shake body))
  | Switch c cases => Switch c (map shake cases)
  | _ => s
  end.

(** scope.h:33-38: [loop] for a block whose parent scope is a loop; [defers] with the last
    pushed first. *)
Record scope := Scope { loop : bool; sealed : bool; defers : list nat }.
Definition seal (s : scope) : scope := Scope (loop s) true (defers s).
(** defer.c:48-51 *)
Definition needsSealing (s : scope) : bool := negb (sealed s) && negb (length (defers s) =? 0).
(** defer.c:53-69: the list is filled from the last to the first *)
Definition sealed_list (s : scope) : list stmt := map Act (defers s).
(** defer.c:144-149 *)
Definition at_return (scopes : list scope) : list stmt :=
  concat (map (fun s => if needsSealing s then sealed_list s else []) scopes).
(** defer.c:122-136 *)
Fixpoint at_break (scopes : list scope) : list stmt :=
  match scopes with
  | [] => []
  | s :: rest => if loop s then sealed_list s else (if needsSealing s then sealed_list s else []) ++ at_break rest
  end.
(** astModifierAdd on the statement list; [pre] is what stands in front of the current
    statement so far.  withSavedStack (defer.c:167-175) puts the modifier back to where it was
    after each visited node: what the visit of an earlier one added is taken out again. *)
Definition added (pre new : list stmt) : list stmt := match new with [] => pre | _ => new end.
Definition isNoop (s : stmt) : bool := match s with Noop => true | _ => false end.

(** The visitors.  [top] is the innermost scope; the result is the statement, the scope and
    what stands in front of the current statement of the innermost block. *)
Fixpoint visit (s : stmt) (top : scope) (outer : list scope) (pre : list stmt) : stmt * scope * list stmt :=
  let visit_block := fun (isLoop : bool) (l : list stmt) (scopes : list scope) =>
    let go := fix go (l : list stmt) (top : scope) : list stmt :=
      if sealed top then l
      else match l with
           | [] => if needsSealing top then sealed_list top else []
           | s :: l => let '(s', top', pre) := visit s top scopes [] in pre ++ s' :: go l top'
           end in
    Block (filter (fun s => negb (isNoop s)) (go l (Scope isLoop false []))) in
  match s with
  | Act _ | Noop => (s, top, pre)
  | Defer n => (Noop, Scope (loop top) (sealed top) (n :: defers top), pre)
  | Return _ => (s, seal top, added pre (at_return (top :: outer)))
  | Break | Continue => (s, seal top, added pre (at_break (top :: outer)))
  | Block l => (visit_block false l (top :: outer), top, pre)
  | If c a b =>
    let '(a', top, pre) := visit a top outer pre in
    let '(b', top, pre) := visit b top outer pre in (If c a' b', top, pre)
  | While c (Block l) => (While c (visit_block true l (top :: outer)), top, pre)
  | While c body => let '(b', top, pre) := visit body top outer pre in (While c b', top, pre)
  | For c (Block l) => (For c (visit_block true l (top :: outer)), top, pre)
  | For c body => let '(b', top, pre) := visit body top outer pre in (For c b', top, pre)
  | Switch c cases =>
    let go := fix go (l : list stmt) (top : scope) (pre : list stmt) : list stmt * scope * list stmt :=
      match l with
      | [] => ([], top, pre)
      | s :: l =>
        let '(s', top, pre) := visit s top outer pre in
        let '(l', top, pre) := go l top pre in (s' :: l', top, pre)
      end in
    let '(cs, top, pre) := go cases top pre in (Switch c cs, top, pre)
  end.
(** The body of a function: the visitor reaches it as a block without an enclosing scope. *)
Definition lower (l : list stmt) : stmt :=
  match visit (shake (Block l)) (Scope false false []) [] [] with (s, _, _) => s end.
