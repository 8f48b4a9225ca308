(** Model of src/cxy/stdlib/list.cxy: an intrusive queue.  The link fields of all items
    form one heap, shared by every list of the program; an item is the address of its
    structure. *)
From Coq Require Import NArith.
From stdpp Require Import numbers gmap list.

Definition w64 (x : N) : N := (x mod 2 ^ 64)%N.
(** list.cxy:3-6 *)
Record lst : Type := mkL { l_head : option nat; l_tail : option nat; l_count : N }.
(** The default field values, list.cxy:4-6. *)
Definition empty_list : lst := mkL None None 0.
(** [links !! a] is the link field of item [a]; an address outside the map is not an item. *)
Notation links := (gmap nat (option nat)).
(** [LAbort]: the assertion failed; [LBad]: an access through an address that is not an item. *)
Inductive lres (A : Type) : Type := LOk (a : A) | LAbort | LBad.
Arguments LOk {A}. Arguments LAbort {A}. Arguments LBad {A}.

(** list.cxy:8-18 *)
Definition push (h : links) (l : lst) (item : nat) : lres (links * lst) :=
  match h !! item with
  | None => LBad
  | Some (Some _) => LAbort
  | Some None =>
    match l_head l with
    | None => LOk (h, mkL (Some item) (Some item) (w64 (l_count l + 1)))
    | Some _ =>
      match l_tail l with
      | None => LBad
      | Some t =>
        if decide (is_Some (h !! t))
        then LOk (<[t := Some item]> h, mkL (l_head l) (Some item) (w64 (l_count l + 1)))
        else LBad
      end
    end
  end.
(** list.cxy:20-30 *)
Definition pop (h : links) (l : lst) : lres (links * lst * option nat) :=
  match l_head l with
  | None => LOk (h, l, None)
  | Some item =>
    match h !! item with
    | None => LBad
    | Some nxt =>
      let tl := match nxt with None => None | Some _ => l_tail l end in
      LOk (<[item := None]> h, mkL nxt tl (w64 (l_count l + (2 ^ 64 - 1))), Some item)
    end
  end.
(** list.cxy:46-60 *)
Definition front (l : lst) : option nat := l_head l.
Definition back (l : lst) : option nat := l_tail l.
(** list.cxy:62-66 *)
Definition size (l : lst) : N := l_count l.
Definition empty (l : lst) : bool := match l_head l with None => true | _ => false end.
(** list.cxy:32-43: the items handed out by the iterator; [None] when the traversal did
    not end within [fuel] steps or left the items. *)
Fixpoint walk (h : links) (fuel : nat) (item : option nat) : option (list nat) :=
  match item with
  | None => Some []
  | Some a =>
    match fuel with
    | O => None
    | S fuel => match h !! a with
                | None => None
                | Some nxt => match walk h fuel nxt with Some r => Some (a :: r) | None => None end
                end
    end
  end.

(** A program using several lists: operation [op] on list number [i]. *)
Inductive op : Type := Push (i : nat) (a : nat) | Pop (i : nat) | Front (i : nat) | Back (i : nat)
  | Size (i : nat) | Empty (i : nat).
Inductive out : Type := OUnit | OItem (a : option nat) | OSize (n : N) | OBool (b : bool).
Definition state : Type := links * (nat -> lst).
Definition upd {A} (f : nat -> A) (i : nat) (x : A) : nat -> A := fun j => if decide (j = i) then x else f j.
Definition step (s : state) (o : op) : lres (state * out) :=
  let '(h, ls) := s in
  match o with
  | Push i a => match push h (ls i) a with
                | LOk (h, l) => LOk ((h, upd ls i l), OUnit) | LAbort => LAbort | LBad => LBad end
  | Pop i => match pop h (ls i) with
             | LOk (h, l, r) => LOk ((h, upd ls i l), OItem r) | LAbort => LAbort | LBad => LBad end
  | Front i => LOk (s, OItem (front (ls i)))
  | Back i => LOk (s, OItem (back (ls i)))
  | Size i => LOk (s, OSize (size (ls i)))
  | Empty i => LOk (s, OBool (empty (ls i)))
  end.
Fixpoint run (s : state) (os : list op) : lres (state * list out) :=
  match os with
  | [] => LOk (s, [])
  | o :: os => match step s o with
               | LOk (s, r) => match run s os with LOk (s, rs) => LOk (s, r :: rs) | LAbort => LAbort | LBad => LBad end
               | LAbort => LAbort
               | LBad => LBad
               end
  end.
