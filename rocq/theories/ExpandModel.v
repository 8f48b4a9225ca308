(** Model of the expansion of macros (middle/preprocess/preprocessor.c). Simplified: nodes are literals, nodes with two
    children, and calls of macros; the body of a macro is one expression and not empty; variadic macros, compile-time if,
    folding (C45) and locations are left out; the table of macros (C56) is fixed, scopes (C51) are lists; public
    declarations of the builtin module, which are found last, are left out; no parameter is called "_". A macro that is unknown here stays as it is: it
    may be one of those built into the type checker. [fuel] bounds the depth of calls; [Out] is a run that has not ended. *)
From Coq Require Import Bool List Arith.
Import ListNotations.

Inductive expr := Lit (n : nat) | Node (a b : expr) | Call (m : nat) (args : list expr).
Record macro := Macro { m_params : list nat; m_body : expr }.
Definition macros := list (nat * macro).
Definition scope := list (nat * expr).

Inductive res (A : Type) := Out | Err | Ok (x : A).
Arguments Out {A}. Arguments Err {A}. Arguments Ok {A}.
Definition bind {A B} (r : res A) (f : A -> res B) : res B :=
  match r with Out => Out | Err => Err | Ok x => f x end.
Fixpoint assoc {A} (n : nat) (l : list (nat * A)) : option A :=
  match l with [] => None | (m, x) :: l => if m =? n then Some x else assoc n l end.
(** scope.c:226-234: from the innermost scope outwards *)
Fixpoint find (n : nat) (env : list scope) : option expr :=
  match env with
  | [] => None
  | s :: env => match assoc n s with Some e => Some e | None => find n env end
  end.
(** [astVisitManyNodes] *)
Fixpoint visits (f : expr -> res expr) (es : list expr) : res (list expr) :=
  match es with
  | [] => Ok []
  | e :: es => bind (f e) (fun e' => bind (visits f es) (fun es' => Ok (e' :: es')))
  end.
(** preprocessor.c:135-150: each argument is visited once more, in the new scope with the parameters before it, and
    defined; a name may be defined once (scope.c:103-128). *)
Fixpoint define (f : scope -> expr -> res expr) (s : scope) (ps : list nat) (args : list expr) : res scope :=
  match ps, args with
  | p :: ps, a :: args =>
      bind (f s a) (fun a' =>
        match assoc p s with Some _ => Err | None => define f ((p, a') :: s) ps args end)
  | _, _ => Ok s
  end.
(** preprocessor.c:86-166 [visitMacroCall], 17-36 [substituteAstNode]: what is put in place is visited too. The table of
    macros is asked before the scopes. *)
Fixpoint visit (fuel : nat) (G : macros) (env : list scope) (e : expr) : res expr :=
  match fuel with
  | 0 => Out
  | S fuel =>
      match e with
      | Lit n => Ok (Lit n)
      | Node a b => bind (visit fuel G env a) (fun a' => bind (visit fuel G env b) (fun b' => Ok (Node a' b')))
      | Call m args =>
          bind (visits (visit fuel G env) args) (fun args' =>
            match assoc m G with
            | Some d =>
                if length args' =? length (m_params d) then
                  bind (define (fun s => visit fuel G (s :: env)) [] (m_params d) args') (fun s =>
                    visit fuel G (s :: env) (m_body d))
                else Err
            | None =>
                match find m env with
                | Some a => visit fuel G env a
                | None => Ok (Call m args')
                end
            end)
      end
  end.
