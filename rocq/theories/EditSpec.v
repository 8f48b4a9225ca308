(** What edits of node lists should do, on lists of nodes. *)
From stdpp Require Import list numbers.
From Verif Require Import EditModel.

(** The list starting at a node, following next, is [l]. *)
Inductive chain (h : heap) : option N → list N → Prop :=
  | chain_nil : chain h None []
  | chain_cons n l : chain h (h n) l → chain h (Some n) (n :: l).

(** A traversal with edits: nodes put in front of everything, nodes behind the
    cursor, the node at the cursor, nodes to come; and the nodes removed. *)
Record zip := Zip { z_head : list N; z_before : list N; z_cur : option N; z_after : list N;
  z_removed : list N; z_added : list N }.
Definition cur_list (o : option N) : list N := match o with Some c => [c] | None => [] end.
Definition z_list (z : zip) : list N := z_head z ++ z_before z ++ cur_list (z_cur z) ++ z_after z.
(** An operation and the nodes it adds. *)
Inductive zop := ZNext | ZRemove | ZAdd (xs : list N) | ZAddNext (xs : list N)
  | ZAddLast (xs : list N) | ZAddHead (xs : list N).
Definition z_step (z : zip) (o : zop) : zip :=
  let '(Zip hd b c a r n) := z in
  match o with
  | ZNext =>
    match a with
    | x :: a' => Zip hd (b ++ cur_list c) (Some x) a' r n
    | [] => Zip hd (b ++ cur_list c) None [] r n
    end
  | ZRemove => Zip hd b None a (r ++ cur_list c) n
  | ZAdd xs => Zip hd (b ++ xs) c a r (n ++ xs)
  | ZAddNext xs => Zip hd b c (xs ++ a) r (n ++ xs)
  | ZAddLast xs => Zip hd b c (a ++ xs) r (n ++ xs)
  | ZAddHead xs => Zip (xs ++ hd) b c a r (n ++ xs)
  end.
Definition z_run (z : zip) (ops : list zop) : zip := fold_left z_step ops z.
Definition z_init (l : list N) : zip := Zip [] [] None l [] [].
(** The calls that the code gets right: there is a cursor (or nothing to come)
    when adding before it; there is one when removing or adding behind it; a
    list is put in front of everything only in programs, and as long as
    nothing is behind the cursor, nothing is added there or removed then. *)
Definition z_ok (program : bool) (z : zip) (o : zop) : Prop :=
  match o with
  | ZNext => True
  | ZRemove => z_cur z <> None ∧ (z_before z = [] → z_head z = [])
  | ZAdd xs => xs = [] ∨ ((z_cur z <> None ∨ z_after z = []) ∧ (z_before z = [] → z_head z = []))
  | ZAddNext xs => z_cur z <> None ∧ xs <> []
  | ZAddLast xs => z_cur z <> None ∧ xs <> []
  | ZAddHead xs => xs = [] ∨ program = true
  end.
Definition nodes_of (o : zop) : list N :=
  match o with ZAdd xs | ZAddNext xs | ZAddLast xs | ZAddHead xs => xs | _ => [] end.
Fixpoint z_all_ok (program : bool) (z : zip) (ops : list zop) : Prop :=
  match ops with
  | [] => True
  | o :: rest => z_ok program z o ∧ z_all_ok program (z_step z o) rest
  end.
Definition call (o : zop) : mop :=
  match o with
  | ZNext => MNext | ZRemove => MRemove | ZAdd xs => MAdd (head xs) | ZAddNext xs => MAddNext (head xs)
  | ZAddLast xs => MAddLast (head xs) | ZAddHead xs => MAddHead (head xs)
  end.
