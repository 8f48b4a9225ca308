(** Resolved absolute paths: a list of names, written /a/b/c, and / for the top. *)
From Coq Require Import NArith.
From stdpp Require Import numbers list.
From Verif Require Import StrSpec.

Notation sep := 47%N.
Definition text (names : list (list N)) : list N :=
  match names with [] => [sep] | _ => concat (map (cons sep) names) end.
Definition good_name (n : list N) : Prop := n <> [] /\ sep ∉ n /\ nul_free n.
(** What realpath(3) returns. *)
Definition resolves (realpath : list N -> option (list N)) : Prop :=
  forall p q, realpath p = Some q -> exists names, Forall good_name names /\ q = text names.
(** [names] lies in the directory [root]. *)
Definition inside (root names : list (list N)) : Prop := exists rest, names = root ++ rest.
(** [names] lies in a sibling of [root] whose name starts with root's name. *)
Definition lookalike (root names : list (list N)) : Prop :=
  exists up n m rest, root = up ++ [n] /\ names = up ++ (n ++ m) :: rest /\ m <> [].
