(** What a call of a macro stands for: its body with its parameters replaced by the arguments, which were expanded where they
    were written. A name means the parameter of the macro it is written in, else the macro, else it is left alone. *)
From Coq Require Import Bool List Arith.
Import ListNotations.
From Verif Require Import ExpandModel.

Inductive expands (G : macros) : scope -> expr -> expr -> Prop :=
| x_lit s n : expands G s (Lit n) (Lit n)
| x_node s a b a' b' : expands G s a a' -> expands G s b b' -> expands G s (Node a b) (Node a' b')
| x_param s m args args' v : assoc m s = Some v -> expands_all G s args args' -> expands G s (Call m args) v
| x_macro s m args args' d v : assoc m s = None -> assoc m G = Some d -> expands_all G s args args' ->
    length args' = length (m_params d) -> expands G (combine (m_params d) args') (m_body d) v ->
    expands G s (Call m args) v
| x_other s m args args' : assoc m s = None -> assoc m G = None -> expands_all G s args args' ->
    expands G s (Call m args) (Call m args')
with expands_all (G : macros) : scope -> list expr -> list expr -> Prop :=
| xs_nil s : expands_all G s [] []
| xs_cons s e es e' es' : expands G s e e' -> expands_all G s es es' -> expands_all G s (e :: es) (e' :: es').

(** Every call in [e] satisfies [P]. *)
Fixpoint calls (P : nat -> Prop) (e : expr) : Prop :=
  match e with
  | Lit _ => True
  | Node a b => calls P a /\ calls P b
  | Call m args => P m /\ (fix all es := match es with [] => True | e :: es => calls P e /\ all es end) args
  end.

Definition is_macro (G : macros) (n : nat) : Prop := assoc n G <> None.
Definition is_param (G : macros) (n : nat) : Prop := exists m d, assoc m G = Some d /\ In n (m_params d).
(** Names used in [e], where [ps] are the parameters there, are not parameters of other macros. *)
Definition scoped (G : macros) (ps : list nat) (e : expr) : Prop := calls (fun n => In n ps \/ ~ is_param G n) e.
(** Parameters are distinct and not names of macros; bodies use no parameters but their own. *)
Definition tidy (G : macros) : Prop := forall m d, assoc m G = Some d ->
  NoDup (m_params d) /\ (forall p, In p (m_params d) -> ~ is_macro G p) /\ scoped G (m_params d) (m_body d).
