(** Model of classes with bases: fields and their places (sema/class.c), initializers of objects (sema/class.c,
    sema/node.c), tables of virtual functions (sema/inheritance.c) and calls through them (simplify.c).
    A class is given with its bases as a list, itself first and the root last. Simplified: the functions of one class have
    distinct names (tables look functions up by name alone, inheritance.c:10-22, so overloads share a place);
    signatures, static fields, interfaces and generic bases are left out; defaults are numbers. *)
From Coq Require Import ZArith.
From stdpp Require Import numbers list.

Record field := Field { f_name : nat; f_default : option Z }.
(** [m_body]: parser.c:2288-2308; only virtual functions may lack one. *)
Record method := Method { m_name : nat; m_virtual : bool; m_body : bool }.
Record cls := Cls { c_id : nat; c_fields : list field; c_methods : list method }.

(** class.c:106-109: the flag of a class is that of its own functions; it is not taken from the base. *)
Definition is_virtual (c : cls) : bool := existsb m_virtual (c_methods c).
(** The same for abstract, which call.c:194-201 asks for before an object is made *)
Definition is_abstract (c : cls) : bool := existsb (fun m => negb (m_body m)) (c_methods c).
Definition head_virtual (ch : list cls) : bool := match ch with c :: _ => is_virtual c | [] => false end.
(** class.c:313-317, 363-382: the object has the member [vtable] when the class or its direct base is virtual (path.c:
    188, 201 give the flags of the base to its path). *)
Definition has_table (ch : list cls) : bool :=
  match ch with [] => false | c :: up => is_virtual c || head_virtual up end.

(** ** Fields *)
Definition own (c : cls) : list (nat * field) := map (pair (c_id c)) (c_fields c).
(** class.c:15-37: those of the base of the base first, then those of the base, which by then has its inherited members
    among its own (68-74) *)
Fixpoint inherit (ch : list cls) : list (nat * field) :=
  match ch with [] => [] | c :: up => inherit up ++ inherit up ++ own c end.
(** class.c:68-74 *)
Definition fields_of (ch : list cls) : list (nat * field) :=
  match ch with [] => [] | c :: up => inherit up ++ own c end.
(** The members of the struct in C: generate.c:183-214; the table comes first, inheritance.c:220-221, 239-240. *)
Inductive place := Table | Data (c f : nat).
Definition data (f : nat * field) : place := Data f.1 (f_name f.2).
Definition layout (ch : list cls) : list place :=
  (if has_table ch then [Table] else []) ++ map data (fields_of ch).

(** ** Initializers *)
Definition own_defaults (c : cls) : list (nat * nat * Z) :=
  omap (fun f => match f_default f with Some z => Some (c_id c, f_name f, z) | None => None end) (c_fields c).
(** node.c:630-699: a function [__defaults_init] is made if a member has a default or the object has a table. Defaults of
    inherited members were taken from the base when it was checked (node.c:662), so they are gone in the copies. *)
Definition has_init (ch : list cls) : bool :=
  match ch with [] => false | c :: _ => negb (bool_decide (own_defaults c = [])) || has_table ch end.
(** node.c:597-628, 688-690: it calls that of the direct base, if there is one, and then sets its own members.
    node.c:151-183, 272-279: an object calls that of its own class, if there is one. *)
Fixpoint inits (ch : list cls) : list (nat * nat * Z) :=
  match ch with
  | [] => []
  | c :: up => if has_init ch then inits up ++ own_defaults c else []
  end.
(** node.c:252-271: memory is zeroed before; the last assignment counts. *)
Fixpoint value (l : list (nat * nat * Z)) (c f : nat) : Z :=
  match l with
  | [] => 0
  | (c', f', z) :: l =>
      if existsb (fun a => (a.1.1 =? c)%nat && (a.1.2 =? f)%nat) l then value l c f
      else if (c' =? c)%nat && (f' =? f)%nat then z else 0
  end.

(** ** Tables *)
(** The function of a class, null, or the name of a function without a body *)
Inductive slot := Fun (c : nat) | Null | Missing.
Definition find_method (c : cls) (n : nat) : option method := find (fun m => (m_name m =? n)%nat) (c_methods c).
(** inheritance.c:115-138 *)
Definition fun_ref (c : cls) (m : method) : slot := if m_body m then Fun (c_id c) else Missing.
(** inheritance.c:145-157 *)
Definition override (c : cls) (e : nat * slot) : nat * slot :=
  match find_method c e.1 with Some m => (e.1, fun_ref c m) | None => e end.
(** inheritance.c:160-193 *)
Definition added (c : cls) (t : list (nat * slot)) : list (nat * slot) :=
  map (fun m => (m_name m, if m_body m then Fun (c_id c) else Null))
    (filter (fun m => m_virtual m = true /\ m_name m ∉ t.*1) (c_methods c)).
(** inheritance.c:140-194 *)
Fixpoint table (ch : list cls) : list (nat * slot) :=
  match ch with
  | [] => []
  | c :: up => let t := map (override c) (table up) in t ++ (if is_virtual c then added c t else [])
  end.
(** inheritance.c:244-277 for a class that is not virtual *)
Definition rebuild (c : cls) (t : list (nat * slot)) : list (nat * slot) :=
  map (fun e => match find_method c e.1 with
                | Some m => (e.1, if m_body m then Fun (c_id c) else Null)
                | None => e end) t.
(** class.c:363-382: what the objects of a class point to *)
Definition object_table (ch : list cls) : option (list (nat * slot)) :=
  match ch with
  | [] => None
  | c :: up => if is_virtual c then Some (table ch) else if head_virtual up then Some (rebuild c (table up)) else None
  end.

(** ** Calls *)
(** path.c:29-60: the class that declares the function, with its bases *)
Fixpoint resolve (s : list cls) (n : nat) : option (list cls * cls * method) :=
  match s with
  | [] => None
  | c :: up => match find_method c n with Some m => Some (s, c, m) | None => resolve up n end
  end.
(** [x.f()] is a path and keeps the type of [x]; [g().f()] is a member expression, whose target is cast to the class that
    declares the function (member.c:105-130). *)
Inductive kind := Path | Member.
Inductive outcome := Runs (c : nat) | Calls_null | Unlinked | No_table.
Definition of_slot (s : slot) : outcome := match s with Fun c => Runs c | Null => Calls_null | Missing => Unlinked end.
(** The position of a function in the type of the table, simplify.c:83-86 *)
Fixpoint index (n : nat) (ns : list nat) : option nat :=
  match ns with [] => None | m :: ns => if (m =? n)%nat then Some 0%nat else S <$> index n ns end.
(** simplify.c:68-76 *)
Definition dispatches (k : kind) (s : list cls) (m : method) : bool :=
  m_virtual m && match k with Path => head_virtual s | Member => true end.
(** simplify.c:68-121, 788-800: a call through a variable of class [s] on an object of class [ch] *)
Definition call (ch s : list cls) (k : kind) (n : nat) : option outcome :=
  match resolve s n with
  | None => None
  | Some (s', c, m) =>
      if dispatches k s m then
        let t := match k with Path => s | Member => s' end in
        match index n (table t).*1, object_table ch with
        | Some i, Some tb => of_slot <$> (snd <$> tb !! i)
        | _, _ => Some No_table
        end
      else Some (of_slot (fun_ref c m))
  end.
