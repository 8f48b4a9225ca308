(** Model of compile-time [#if] among the members of types and among declarations in the preprocessor
    (middle/preprocess/preprocessor.c, evaluate.c; parsed by frontend/parser.c:2982-3026). Simplified: a member is a number;
    nodes of a list and their next pointers are lists (C54); macros (C95) and folding (C45) in conditions have been done. A
    condition that is no literal stays for the evaluator (middle/eval/eval.c:113-170). [Out] is a run that has not ended. *)
From Coq Require Import Bool List Arith ZArith String.
Import ListNotations.

(** The conditions; a float by whether it is 0; a string; [CFree k] is anything else. *)
Inductive cond := CBool (b : bool) | CNull | CChar (n : nat) | CInt (z : Z) | CFloat (zero : bool) | CStr (s : string) | CFree (k : nat).
(** No else; else with a block; else with another [#if] *)
Inductive kind := KNone | KBlock | KChain.
Inductive item := Mem (n : nat) | Noop | If (c : cond) (t : list item) (k : kind) (e : list item).

Inductive res (A : Type) := Out | Crash | Ok (x : A).
Arguments Out {A}. Arguments Crash {A}. Arguments Ok {A}.
Definition bind {A B} (r : res A) (f : A -> res B) : res B :=
  match r with Out => Out | Crash => Crash | Ok x => f x end.

(** evaluate.c:341-371 [preprocessorAsBoolean] (the pointer of a string literal is never null) *)
Definition as_boolean (c : cond) : option bool :=
  match c with
  | CBool b => Some b
  | CNull => Some false
  | CChar n => Some (negb (n =? 0))
  | CInt z => Some (negb (z =? 0)%Z)
  | CFloat zero => Some (negb zero)
  | CStr s => Some (negb (s =? "")%string)
  | CFree _ => None
  end.
(** visitor.c:296-304 [astVisitManyNodes]: the nodes put in place of one are not visited again. *)
Fixpoint visits (f : item -> res (list item)) (l : list item) : res (list item) :=
  match l with
  | [] => Ok []
  | x :: r => bind (f x) (fun xs => bind (visits f r) (fun ys => Ok (xs ++ ys)))
  end.
(** preprocessor.c:17-36 [substituteAstNode]: every node of the branch is visited and put in place of the node; ast.c:2031-2039
    [replaceAstNode] reads the first of them. *)
Definition substitute (f : item -> res (list item)) (l : list item) : res (list item) :=
  match l with [] => Crash | _ => visits f l end.
(** preprocessor.c:178-193 [visitBlockStmt]: for each node, that node and all behind it are visited; of what was put in its
    place the first node is kept, unless it is empty. The nodes behind it remain with what was put in their places. *)
Fixpoint block (fuel : nat) (f : item -> res (list item)) (l : list item) : res (list item) :=
  match fuel with
  | 0 => Out
  | S fuel =>
      match l with
      | [] => Ok []
      | x :: r =>
          bind (f x) (fun xs => bind (visits f r) (fun r' => bind (block fuel f r') (fun b =>
            Ok (match xs with [] | Noop :: _ => b | y :: _ => y :: b end))))
      end
  end.
(** preprocessor.c:195-219 [visitIfStmt] *)
Fixpoint visit (fuel : nat) (i : item) : res (list item) :=
  match fuel with
  | 0 => Out
  | S fuel =>
      match i with
      | If c t k e =>
          match as_boolean c with
          | Some true => substitute (visit fuel) t
          | Some false => match k with KNone => Ok [Noop] | _ => substitute (visit fuel) e end
          | None =>
              bind (block fuel (visit fuel) t) (fun t' =>
                match k with
                | KNone => Ok [If c t' KNone e]
                | KBlock => bind (block fuel (visit fuel) e) (fun e' => Ok [If c t' KBlock e'])
                | KChain =>
                    match e with
                    | x :: r => bind (visit fuel x) (fun xs => Ok [If c t' KChain (xs ++ r)])
                    | [] => Crash
                    end
                end)
          end
      | _ => Ok [i]
      end
  end.
