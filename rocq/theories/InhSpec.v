(** What classes with bases should be. *)
From Coq Require Import ZArith.
From stdpp Require Import numbers list.
From Verif Require Import InhModel.

(** Fields: those of the base, then those of the class, each once. *)
Fixpoint declared (ch : list cls) : list (nat * field) :=
  match ch with [] => [] | c :: up => declared up ++ map (pair (c_id c)) (c_fields c) end.
(** The default of a field *)
Definition default_of (ch : list cls) (c f : nat) (z : Z) : Prop :=
  exists k, k ∈ ch /\ c_id k = c /\ Field f (Some z) ∈ c_fields k.
(** The most derived class that declares a function *)
Definition most_derived (ch : list cls) (n : nat) (c : cls) (m : method) : Prop :=
  exists l r, ch = l ++ c :: r /\ m ∈ c_methods c /\ m_name m = n /\
    Forall (fun k => n ∉ map m_name (c_methods k)) l.

(** Programs that pass the checks before: classes and the functions and fields of one class have distinct names, and
    only virtual functions lack a body. *)
Definition well_formed (ch : list cls) : Prop :=
  NoDup (map c_id ch) /\
  Forall (fun c => NoDup (map m_name (c_methods c)) /\ NoDup (map f_name (c_fields c)) /\
                   Forall (fun m => m_virtual m = false -> m_body m = true) (c_methods c)) ch.

(** A class declares a function as virtual. *)
Definition marks (c : cls) : Prop := exists m, m ∈ c_methods c /\ m_virtual m = true.
(** The class or its direct base does. *)
Definition near_mark (ch : list cls) : Prop := exists c, c ∈ take 2 ch /\ marks c.
(** Each class does iff its base does. *)
Fixpoint steady (ch : list cls) : Prop :=
  match ch with
  | c :: up => (up <> [] -> (near_mark up <-> near_mark ch)) /\ steady up
  | [] => True
  end.
(** The call goes through the table: the function found from the class of the variable is declared as virtual, and so is
    some function of that class, unless the target is not a path. *)
Definition through_table (k : kind) (s : list cls) (m : method) : Prop :=
  m_virtual m = true /\ (k = Path -> exists c r, s = c :: r /\ marks c).
