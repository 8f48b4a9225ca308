(** Ownership of references, independent of the counters.  A program owns a bag of
    references (its variables); objects own the references in their fields. *)
From stdpp Require Import numbers list.
From Verif Require Import SmartPtrModel.

Notation ref := (option nat).
(** What a well-behaved program does: it uses only references it owns. *)
Inductive action :=
  | New (kids : list ref)       (* create an object, moving owned references into it *)
  | Copy (p : ref)              (* acquire another reference to something owned *)
  | Release (p : ref)           (* give up an owned reference *)
  | Store (o : nat) (p : ref)   (* move an owned reference into a field of an owned object *)
  | Load (o : nat) (p : ref).   (* acquire a reference found in a field of an owned object *)

(** [give p own own']: [own] without one occurrence of [p]. *)
Fixpoint give (p : ref) (own : list ref) : option (list ref) :=
  match own with
  | [] => None
  | q :: own => if decide (q = p) then Some own
                else match give p own with Some r => Some (q :: r) | None => None end
  end.
Fixpoint give_all (ps own : list ref) : option (list ref) :=
  match ps with
  | [] => Some own
  | p :: ps => match give p own with Some own => give_all ps own | None => None end
  end.

(** One action of a well-behaved program on the runtime's memory; [None]: the program
    is not well-behaved. *)
Definition and_own (r : pres heap) (own : list ref) : pres (heap * list ref) :=
  match r with POk h => POk (h, own) | PUaf => PUaf | PPanic => PPanic | PBad => PBad | PFuel => PFuel end.
Definition act (a : action) (h : heap) (own : list ref) : option (pres (heap * list ref)) :=
  match a with
  | New kids => match give_all kids own with
                | Some own => let '(h, p) := ptr_alloc h kids in Some (POk (h, p :: own))
                | None => None end
  | Copy p => if decide (p ∈ own) then Some (and_own (ptr_get h p) (p :: own)) else None
  | Release p => match give p own with
                 | Some own => Some (and_own (drop_ptr h p) own) | None => None end
  | Store o p => match give p own with
                 | Some own => if decide (Some o ∈ own) then Some (and_own (store_field h o p) own) else None
                 | None => None end
  | Load o p => if decide (Some o ∈ own)
                then if decide (p ∈ match h_cells h !! o with Some c => c_kids c | None => [] end)
                     then Some (and_own (ptr_get h p) (p :: own)) else None
                else None
  end.
Fixpoint history (acts : list action) (h : heap) (own : list ref) : option (pres (heap * list ref)) :=
  match acts with
  | [] => Some (POk (h, own))
  | a :: acts => match act a h own with
                 | Some (POk (h, own)) => history acts h own
                 | r => r
                 end
  end.
(** A program starts with an empty heap and nothing but null. *)
Definition start (acts : list action) : option (pres (heap * list ref)) := history acts (Heap [] []) [None].

(** Nobody refers to object [i]: neither a variable nor a field of an object that has
    not been destroyed. *)
Definition unreferenced (h : heap) (own : list ref) (i : nat) : Prop :=
  ~ In (Some i) own /\
  forall j c, h_cells h !! j = Some c -> ~ In j (h_log h) -> ~ In (Some i) (c_kids c).
