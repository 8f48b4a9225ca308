(** Model of default arguments: the check of parameter lists in middle/shake/shake.c:563-618, the number of arguments accepted
    by middle/sema/function.c:88-101, the arguments added by middle/sema/call.c:125-158, and the table in which function types
    are looked up (frontend/ttable.c:118-123, 302-317). Simplified: types and default values are numbers; the choice among
    overloads and the types of arguments are C79; a parameter [this] stands in no list; scopes and names of functions are one
    number, types written as such have none. *)
From Coq Require Import Bool List Arith.
Import ListNotations.

Record param := Param { p_type : nat; p_def : option nat; p_variadic : bool }.

(** shake.c:573-612: the loop over the parameters; [None] for the error, else the number of required parameters and whether
    the last is variadic. [seen] is hasDefaultParams. *)
Fixpoint shake (ps : list param) (required total : nat) (seen : bool) : option (nat * bool) :=
  match ps with
  | [] => Some (required, false)
  | p :: ps =>
      let total := S total in
      match p_def p with
      | Some _ => shake ps (if seen then required else total - 1) total true
      | None =>
          if seen && negb (p_variadic p) then None
          else if p_variadic p then match ps with [] => Some (required, true) | _ => None end
          else shake ps (S required) total seen
      end
  end.
Definition shake_func (ps : list param) : option (nat * bool) := shake ps 0 0 false.

(** function.c:316-323, 431-442 *)
Definition default_count (ps : list param) : nat :=
  length (filter (fun p => match p_def p with Some _ => true | None => false end) ps).
(** function.c:88-101, no variadic parameter *)
Definition accepts (ps : list param) (n : nat) : bool := (length ps - default_count ps <=? n) && (n <=? length ps).

(** call.c:129-158: the arguments of the call afterwards; [None]: a null pointer is followed. *)
Fixpoint append_defaults (ps : list param) : option (list nat) :=
  match ps with
  | [] => Some []
  | p :: ps =>
      match p_def p with
      | Some d => option_map (cons d) (append_defaults ps)
      | None => match ps with [] => Some [] | _ => None end
      end
  end.
Definition complete (ps : list param) (args : list nat) : option (list nat) :=
  if length args <? length ps then
    option_map (app args) (append_defaults (skipn (length args) ps))
  else Some args.

(** A function type with the declaration it was made from. *)
Record ftype := FType { f_name : option nat; f_params : list param; f_ret : nat }.
Fixpoint same_types (ps qs : list param) : bool :=
  match ps, qs with
  | [], [] => true
  | p :: ps, q :: qs => (p_type p =? p_type q) && same_types ps qs
  | _, _ => false
  end.
Definition same_name (a b : option nat) : bool :=
  match a, b with None, None => true | Some x, Some y => x =? y | _, _ => false end.
(** ttable.c:302-317: the declaration and the number of defaults are not compared. *)
Definition same_func (a b : ftype) : bool :=
  same_name (f_name a) (f_name b) && (f_ret a =? f_ret b) && same_types (f_params a) (f_params b).
(** getOrInsertType (C58): the first one that is the same, else the new one *)
Fixpoint intern (table : list ftype) (t : ftype) : list ftype * ftype :=
  match table with
  | [] => ([t], t)
  | u :: table => if same_func t u then (u :: table, u) else let (table', r) := intern table t in (u :: table', r)
  end.
(** The types of a program, in the order in which they are checked *)
Fixpoint intern_all (table : list ftype) (ts : list ftype) : list ftype :=
  match ts with
  | [] => []
  | t :: ts => let (table', r) := intern table t in r :: intern_all table' ts
  end.
(** A call through a value of type [t], by the declaration kept in the type *)
Definition call (t : ftype) (args : list nat) : option (option (list nat)) :=
  if accepts (f_params t) (length args) then Some (complete (f_params t) args) else None.
