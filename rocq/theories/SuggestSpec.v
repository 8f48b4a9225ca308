(** Edit distance, independently of the model: the number of characters to
    insert, delete or replace to get from one word to the other. *)
From stdpp Require Import list numbers.
From Verif Require Import ScopeSpec.

Inductive script : nat → list N → list N → Prop :=
  | script_nil : script 0 [] []
  | script_keep n a l r : script n l r → script n (a :: l) (a :: r)
  | script_replace n a b l r : script n l r → script (S n) (a :: l) (b :: r)
  | script_delete n a l r : script n l r → script (S n) (a :: l) r
  | script_insert n b l r : script n l r → script (S n) l (b :: r).
Definition within (d : nat) (l r : list N) : Prop := ∃ n, (n ≤ d)%nat ∧ script n l r.

(** A name with a declaration in an open frame. *)
Definition declared (fs : list frame) (x : N) : Prop := ∃ fr, fr ∈ fs ∧ snd fr x ≠ None.
