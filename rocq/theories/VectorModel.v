(** Model of src/cxy/stdlib/vector.cxy.  The storage is the list of its cells; a cell
    holds a value, or [None] where the memory was never written.  Sizes are unbounded and
    allocation succeeds.  Destructors run by resize and the vector's own destruction are
    not modelled. *)
From stdpp Require Import numbers list.

Section vector.
Context {T : Type}.

(** vector.cxy:5-8 *)
Record vec : Type := mkV { v_data : list (option T); v_size : nat; v_capacity : nat }.
(** [VAbort]: an assertion failed; [VOob]: an access outside the storage or a read of a
    cell that was never written. *)
Inductive vres (A : Type) : Type := VOk (a : A) | VAbort | VOob.
Arguments VOk {A}. Arguments VAbort {A}. Arguments VOob {A}.

(** realloc: the first cells are kept. *)
Definition realloc (d : list (option T)) (n : nat) : list (option T) :=
  take n d ++ replicate (n - length d) None.
(** vector.cxy:18-26 *)
Definition grow (v : vec) : vec :=
  if decide (v_capacity v <= v_size v) then
    let cap := v_capacity v + v_capacity v / 2 in
    mkV (realloc (v_data v) cap) (v_size v) cap
  else v.
(** vector.cxy:28-32 (the calloc'ed zero bytes count as not written) *)
Definition init (initialSize : nat) : vec := mkV (replicate initialSize None) 0 initialSize.
(** vector.cxy:44-48 *)
Definition push (v : vec) (item : T) : vres vec :=
  let v := grow v in
  if decide (v_size v < length (v_data v))
  then VOk (mkV (<[v_size v := Some item]> (v_data v)) (S (v_size v)) (v_capacity v))
  else VOob.
(** vector.cxy:50-54 *)
Definition pop (v : vec) : vres (vec * T) :=
  match v_size v with
  | O => VAbort
  | S n => match v_data v !! n with
           | Some (Some x) => VOk (mkV (v_data v) n (v_capacity v), x)
           | _ => VOob
           end
  end.
(** vector.cxy:56-63; memmove moves cells 1.._size-1 one to the front. *)
Definition shift (v : vec) : vres (vec * T) :=
  match v_size v with
  | O => VAbort
  | S n =>
    match v_data v !! 0 with
    | Some (Some x) =>
      if decide (S n <= length (v_data v))
      then VOk (mkV (take n (drop 1 (v_data v)) ++ drop n (v_data v)) n (v_capacity v), x)
      else VOob
    | _ => VOob
    end
  end.
(** vector.cxy:65-74 *)
Definition resize (v : vec) (newSize : nat) : vec :=
  let size := if decide (newSize < v_size v) then newSize else v_size v in
  mkV (realloc (v_data v) newSize) size newSize.
(** vector.cxy:76-79 *)
Definition shrink (v : vec) : vec := resize v (v_size v).
(** vector.cxy:81-89.  The comparison with the unsigned size rejects negative indices. *)
Definition get (v : vec) (index : Z) : vres T :=
  if decide (0 <= index < Z.of_nat (v_size v))%Z then
    match v_data v !! Z.to_nat index with Some (Some x) => VOk x | _ => VOob end
  else VAbort.
(** vector.cxy:91-94 *)
Definition set (v : vec) (index : Z) (x : T) : vres vec :=
  if decide (0 <= index < Z.of_nat (v_size v))%Z then
    if decide (Z.to_nat index < length (v_data v))
    then VOk (mkV (<[Z.to_nat index := Some x]> (v_data v)) (v_size v) (v_capacity v))
    else VOob
  else VAbort.
(** The loop [for (i: 0.._size)] reading _data.[i], used by the iterator, each,
    accumulate, filter, map, find, indexOf and str (vector.cxy:96-176). *)
Fixpoint reads (v : vec) (i n : nat) : vres (list T) :=
  match n with
  | O => VOk []
  | S n => match v_data v !! i with
           | Some (Some x) => match reads v (S i) n with VOk r => VOk (x :: r) | e => e end
           | _ => VOob
           end
  end.
Definition elems (v : vec) : vres (list T) := reads v 0 (v_size v).
Fixpoint push_all (v : vec) (l : list T) : vres vec :=
  match l with
  | [] => VOk v
  | x :: l => match push v x with VOk v => push_all v l | e => e end
  end.
End vector.
Arguments vec : clear implicits.
Arguments VOk {A}. Arguments VAbort {A}. Arguments VOob {A}.

(** vector.cxy:135-142, 144-150, 152-158, 160-168: the loops over the elements.
    DEFAULT_VECTOR_CAPACITY is 16 (vector.cxy:3). *)
Definition vfilter {T} (f : T -> bool) (v : vec T) : vres (vec T) :=
  match elems v with VOk l => push_all (init 16) (filter (fun x => Is_true (f x)) l) | VAbort => VAbort | VOob => VOob end.
Definition vmap {T U} (f : T -> U) (v : vec T) : vres (vec U) :=
  match elems v with VOk l => push_all (init 16) (map f l) | VAbort => VAbort | VOob => VOob end.
Fixpoint find_from {T} (p : T -> bool) (v : vec T) (i n : nat) : vres (option (nat * T)) :=
  match n with
  | O => VOk None
  | S n => match v_data v !! i with
           | Some (Some x) => if p x then VOk (Some (i, x)) else find_from p v (S i) n
           | _ => VOob
           end
  end.
Definition vfind {T} (p : T -> bool) (v : vec T) : vres (option T) :=
  match find_from p v 0 (v_size v) with VOk r => VOk (snd <$> r) | VAbort => VAbort | VOob => VOob end.
Definition indexOf {T} (eq : T -> T -> bool) (v : vec T) (elem : T) : vres (option nat) :=
  match find_from (eq elem) v 0 (v_size v) with VOk r => VOk (fst <$> r) | VAbort => VAbort | VOob => VOob end.

Inductive op (T : Type) : Type := Push (x : T) | Pop | Shift | Get (i : Z) | Set_ (i : Z) (x : T)
  | Resize (n : nat) | Shrink | Size.
Arguments Push {T}. Arguments Pop {T}. Arguments Shift {T}. Arguments Get {T}. Arguments Set_ {T}.
Arguments Resize {T}. Arguments Shrink {T}. Arguments Size {T}.
Inductive out (T : Type) : Type := OUnit | OVal (x : T) | ONum (n : nat).
Arguments OUnit {T}. Arguments OVal {T}. Arguments ONum {T}.
Definition step {T} (v : vec T) (o : op T) : vres (vec T * out T) :=
  let unit r := match r with VOk v => VOk (v, OUnit) | VAbort => VAbort | VOob => VOob end in
  let value r := match r with VOk (v, x) => VOk (v, OVal x) | VAbort => VAbort | VOob => VOob end in
  match o with
  | Push x => unit (push v x)
  | Pop => value (pop v)
  | Shift => value (shift v)
  | Get i => match get v i with VOk x => VOk (v, OVal x) | VAbort => VAbort | VOob => VOob end
  | Set_ i x => unit (set v i x)
  | Resize n => VOk (resize v n, OUnit)
  | Shrink => VOk (shrink v, OUnit)
  | Size => VOk (v, ONum (v_size v))
  end.
(** An abort ends the program: the outputs up to there are observed. *)
Fixpoint run {T} (v : vec T) (os : list (op T)) : list (out T) * vres (vec T) :=
  match os with
  | [] => ([], VOk v)
  | o :: os => match step v o with
               | VOk (v, r) => let '(rs, e) := run v os in (r :: rs, e)
               | VAbort => ([], VAbort)
               | VOob => ([], VOob)
               end
  end.
