(** Exceptions as one knows them: what a program with try, catch and finally does, and which
    exception leaves it. *)
From Coq Require Import List Bool Arith.
From Verif Require Import ExcModel.
Import ListNotations.

Inductive subtype (sup : nat -> nat) : nat -> nat -> Prop :=
| sub_refl t : subtype sup t t
| sub_up t u : subtype sup (sup t) u -> subtype sup t u.

Inductive result := Normal | Raised (t : nat).

(** [means p out r]: [p] performs [out] and ends normally or raises an exception.  After the body
    of a try block the first clause that accepts its exception runs, then the finally block in any
    case; an exception of the finally block takes the place of the one on its way. *)
Inductive means (sup : nat -> nat) : prog -> list nat -> result -> Prop :=
| means_skip : means sup Skip [] Normal
| means_act n : means sup (Act n) [n] Normal
| means_throw t : means sup (Throw t) [] (Raised t)
| means_seq p q o1 o2 r : means sup p o1 Normal -> means sup q o2 r -> means sup (Seq p q) (o1 ++ o2) r
| means_seq_raise p q o t : means sup p o (Raised t) -> means sup (Seq p q) o (Raised t)
| means_try b cs f o1 r1 o2 r2 o3 r3 :
    means sup b o1 r1 -> catches sup cs r1 o2 r2 -> means sup f o3 r3 ->
    means sup (Try b cs f) (o1 ++ o2 ++ o3) (match r3 with Normal => r2 | Raised _ => r3 end)
with catches (sup : nat -> nat) : clauses -> result -> list nat -> result -> Prop :=
| catches_none cs : catches sup cs Normal [] Normal
| catches_end t : catches sup CNil (Raised t) [] (Raised t)
| catches_here t u p cs o r : subtype sup t u -> means sup p o r -> catches sup (CCons u p cs) (Raised t) o r
| catches_next t u p cs o r : ~ subtype sup t u -> catches sup cs (Raised t) o r ->
    catches sup (CCons u p cs) (Raised t) o r.

(** Types are numbered so that a supertype comes before its subtypes; 0 is the root. *)
Definition rooted (sup : nat -> nat) : Prop := sup 0 = 0 /\ forall t, 0 < t -> sup t < t.

(** How deep try blocks are nested. *)
Fixpoint depth (p : prog) : nat :=
  match p with
  | Seq p q => max (depth p) (depth q)
  | Try b cs f => S (max (depth b) (max (depths cs) (depth f)))
  | _ => 0
  end
with depths (cs : clauses) : nat :=
  match cs with CNil => 0 | CCons _ p cs => max (depth p) (depths cs) end.

Fixpoint no_try (p : prog) : bool :=
  match p with Seq p q => no_try p && no_try q | Try _ _ _ => false | _ => true end.

(** No try block is left by a jump other than an exception, and finally blocks contain no try
    blocks. *)
Fixpoint tame (p : prog) : bool :=
  match p with
  | Leave => false
  | Seq p q => tame p && tame q
  | Try b cs f => tame b && tames cs && tame f && no_try f
  | _ => true
  end
with tames (cs : clauses) : bool :=
  match cs with CNil => true | CCons _ p cs => tame p && tames cs end.

(** What is to be seen of a source with errors: in each block and each declaration everything up to its
    first own error, and that error; what comes after the block or the declaration is looked at
    as if nothing had happened. *)
Fixpoint seen (s : stmt) : list nat :=
  match s with Good n => [2 * n] | Bad n => [2 * n + 1] | Block ss => seen_all ss end
with seen_all (ss : stmts) : list nat :=
  match ss with
  | SNil => []
  | SCons s ss => seen s ++ match s with Bad _ => [] | _ => seen_all ss end
  end.

(** Blocks with an error of their own that are met, in a statement or in the statements up to the first
    error *)
Fixpoint bad_blocks (s : stmt) : nat :=
  match s with Block ss => bad_in ss | _ => 0 end
with bad_in (ss : stmts) : nat :=
  match ss with
  | SNil => 0
  | SCons (Bad _) _ => 1
  | SCons s ss => bad_blocks s + bad_in ss
  end.
Fixpoint bad_parts (ss : stmts) : nat :=
  match ss with
  | SNil | SCons (Bad _) _ => 0
  | SCons s ss => bad_blocks s + bad_parts ss
  end.
Fixpoint own_error (ss : stmts) : bool :=
  match ss with SNil => false | SCons (Bad _) _ => true | SCons _ ss => own_error ss end.

(** A declaration whose own error, if any, comes before any block in error *)
Definition settled (d : stmts) : bool := negb (own_error d) || (bad_parts d =? 0).

Fixpoint nest (s : stmt) : nat :=
  match s with Block ss => nest_in ss | _ => 0 end
with nest_in (ss : stmts) : nat :=
  match ss with SNil => 0 | SCons s ss => max (S (nest s)) (nest_in ss) end.
Fixpoint nest_parts (ss : stmts) : nat :=
  match ss with SNil => 0 | SCons s ss => max (nest s) (nest_parts ss) end.
Definition all_bad (ds : list stmts) : nat := fold_right (fun d n => bad_parts d + n) 0 ds.
Definition all_nest (ds : list stmts) : nat := fold_right (fun d n => max (S (nest_parts d)) n) 0 ds.
