(** Model of the reference counted memory of the runtime,
    src/cxy/runtime/builtins.cxy:110-168.

    The heap is a list of cells; the address of a cell is its index.  A block given
    back keeps its index and is never handed out again (a malloc that reuses
    addresses could only hide faults).  Allocation succeeds.  The destructor of an
    object releases the references held in its fields, [c_kids], one after the other;
    that is what the destructors generated for classes do.  Single threaded. *)
From Coq Require Import NArith.
From stdpp Require Import numbers list.
Local Open Scope N_scope.

(** [PUaf]: a block given back is touched; [PPanic]: the magic number is wrong;
    [PBad]: an address that was never handed out; [PFuel]: nesting too deep. *)
Inductive pres (A : Type) : Type := POk (a : A) | PUaf | PPanic | PBad | PFuel.
Arguments POk {A} a. Arguments PUaf {A}. Arguments PPanic {A}. Arguments PBad {A}. Arguments PFuel {A}.

Notation ptr := (option nat).      (* [None] is null *)
(** struct __mem, builtins.cxy:112-117; [c_live]: not yet given back to free. *)
Record cell := Cell { c_refs : N; c_magic : bool; c_live : bool; c_kids : list ptr }.
(** [log]: the destructor calls so far, newest first. *)
Record heap := Heap { h_cells : list cell; h_log : list nat }.

Definition u32 (x : N) : N := x mod 2 ^ 32.
Definition set_cell (h : heap) (i : nat) (c : cell) : heap := Heap (<[i := c]> (h_cells h)) (h_log h).

(** builtins.cxy:122-133, the new object taking over [kids]. *)
Definition ptr_alloc (h : heap) (kids : list ptr) : heap * ptr :=
  (Heap (h_cells h ++ [Cell 1 true true kids]) (h_log h), Some (length (h_cells h))).

(** Access to the header of a block. *)
Definition access (h : heap) (i : nat) : pres cell :=
  match h_cells h !! i with
  | None => PBad
  | Some c => if negb (c_live c) then PUaf else if negb (c_magic c) then PPanic else POk c
  end.

(** builtins.cxy:136-146 *)
Definition ptr_get (h : heap) (p : ptr) : pres heap :=
  match p with
  | None => POk h
  | Some i =>
    match access h i with
    | POk c => POk (set_cell h i (Cell (u32 (c_refs c + 1)) (c_magic c) (c_live c) (c_kids c)))
    | PUaf => PUaf | PPanic => PPanic | PBad => PBad | PFuel => PFuel
    end
  end.

Fixpoint each (f : heap -> ptr -> pres heap) (h : heap) (ps : list ptr) : pres heap :=
  match ps with
  | [] => POk h
  | p :: ps => match f h p with POk h => each f h ps | PUaf => PUaf | PPanic => PPanic | PBad => PBad | PFuel => PFuel end
  end.
(** builtins.cxy:148-171: decrement; at 0 run the destructor, clear the magic number
    and give the block back. *)
Fixpoint ptr_drop (fuel : nat) (h : heap) (p : ptr) : pres heap :=
  match fuel with
  | O => PFuel
  | S fuel =>
    match p with
    | None => POk h
    | Some i =>
      match access h i with
      | POk c =>
        let refs := u32 (c_refs c + (2 ^ 32 - 1)) in
        let h := set_cell h i (Cell refs (c_magic c) (c_live c) (c_kids c)) in
        if refs =? 0 then
          match each (ptr_drop fuel) (Heap (h_cells h) (i :: h_log h)) (c_kids c) with
          | POk h =>
            match access h i with
            | POk c => POk (set_cell h i (Cell (c_refs c) false false (c_kids c)))
            | PUaf => PUaf | PPanic => PPanic | PBad => PBad | PFuel => PFuel
            end
          | e => e
          end
        else POk h
      | PUaf => PUaf | PPanic => PPanic | PBad => PBad | PFuel => PFuel
      end
    end
  end.
(** Deep enough for every heap: an object is destroyed at most once. *)
Definition drop_ptr (h : heap) (p : ptr) : pres heap := ptr_drop (S (S (length (h_cells h)))) h p.

(** A field of object [i] takes over a reference. *)
Definition store_field (h : heap) (i : nat) (p : ptr) : pres heap :=
  match access h i with
  | POk c => POk (set_cell h i (Cell (c_refs c) (c_magic c) (c_live c) (p :: c_kids c)))
  | PUaf => PUaf | PPanic => PPanic | PBad => PBad | PFuel => PFuel
  end.
