(** Model of the compiler's dynamic array (src/cxy/core/array.c) and string
    builder (src/cxy/core/sb.c).

    Memory is a list of cells, [None] for a cell never written; a write outside
    the allocated cells is the outcome [BUndef].  Growing keeps the old cells and
    adds unwritten ones (realloc).  Sizes are [nat]: the simplification is that
    element-size products and capacities do not exceed 2^64 (the allocator stops
    the program long before).  Elements of the dynamic array are opaque values,
    not byte ranges. *)
From stdpp Require Import numbers list.
From Coq Require Import NArith.

Inductive bres (A : Type) : Type := BOk (a : A) | BUndef | BHang.
Arguments BOk {A} a. Arguments BUndef {A}. Arguments BHang {A}.

(** memcpy of one element / of several bytes to index [i]. *)
Definition mem_store {V} (mem : list (option V)) (i : nat) (vs : list V) : option (list (option V)) :=
  if (i + length vs <=? length mem)%nat
  then Some (take i mem ++ map Some vs ++ drop (i + length vs) mem) else None.
Definition mem_grow {V} (mem : list (option V)) (n : nat) : list (option V) :=
  take n mem ++ replicate (n - length mem) None.

Section dynarray.
Context {V : Type}.

Record dynarr := DynArr { da_size : nat; da_cap : nat; da_mem : list (option V) }.

(** array.c:9-14, 22-32: [newDynArray] has capacity 4 and size 0,
    [newDynArrayWithSize n] capacity and size [n]. *)
Definition newDynArray : dynarr := DynArr 0 4 (replicate 4 None).
Definition newDynArrayWithSize (n : nat) : dynarr := DynArr n n (replicate n None).

(** array.c:41-47 *)
Definition growDynArray (a : dynarr) (capacity : nat) : dynarr :=
  let double := da_cap a * 2 in
  let cap := if (capacity <? double)%nat then double else capacity in
  DynArr (da_size a) cap (mem_grow (da_mem a) cap).

(** array.c:49-59. The result is the index the returned pointer points at. *)
Definition pushOnDynArray (a : dynarr) (v : V) : bres (dynarr * nat) :=
  let a := if (da_cap a <=? da_size a)%nat then growDynArray a (da_size a + 1) else a in
  match mem_store (da_mem a) (da_size a) [v] with
  | Some mem => BOk (DynArr (da_size a + 1) (da_cap a) mem, (da_size a + 1)%nat)
  | None => BUndef
  end.

(** array.c:72-79. The result is the element the returned pointer points at;
    [None] is NULL. *)
Definition popDynArray (a : dynarr) : bres (dynarr * option (option V)) :=
  if (0 <? da_size a)%nat then
    match da_mem a !! (da_size a - 1)%nat with
    | Some v => BOk (DynArr (da_size a - 1) (da_cap a) (da_mem a), Some v)
    | None => BUndef
    end
  else BOk (a, None).

(** array.c:81-86 *)
Definition resizeDynArray (a : dynarr) (n : nat) : dynarr :=
  let a := if (da_cap a <? n)%nat then growDynArray a n else a in
  DynArr n (da_cap a) (da_mem a).

Inductive da_op := DPush (v : V) | DPop | DResize (n : nat).
(** What the caller sees: nothing, or the popped element. *)
Definition da_step (a : dynarr) (o : da_op) : bres (dynarr * option (option V)) :=
  match o with
  | DPush v => match pushOnDynArray a v with
               | BOk (a', _) => BOk (a', None) | BUndef => BUndef | BHang => BHang end
  | DPop => popDynArray a
  | DResize n => BOk (resizeDynArray a n, None)
  end.
End dynarray.
Arguments dynarr : clear implicits.
Arguments da_op : clear implicits.

(** ** String builder *)
Record sbuilder := SB { sb_cap : nat; sb_size : nat; sb_data : option (list (option N)) }.

(** sb.c:54-57, [while (capacity < size + len) capacity <<= 1]. *)
Fixpoint sb_grow_loop (fuel cap need : nat) : option nat :=
  if (cap <? need)%nat then
    match fuel with O => None | S f => sb_grow_loop f (cap * 2) need end
  else Some cap.

(** sb.c:48-60 *)
Definition stringBuilderGrow (sb : sbuilder) (size : nat) : bres sbuilder :=
  match sb_data sb with
  | None => BOk (SB size (sb_size sb) (Some (replicate (size + 1) None)))
  | Some d =>
    if (sb_cap sb - sb_size sb <? size)%nat then
      match sb_grow_loop (sb_size sb + size) (sb_cap sb) (sb_size sb + size) with
      | Some cap => BOk (SB cap (sb_size sb) (Some (mem_grow d (cap + 1))))
      | None => BHang
      end
    else BOk sb
  end.

(** sb.c:76-82. The appended text does not alias the builder. *)
Definition stringBuilderAppend (sb : sbuilder) (s : list N) : bres sbuilder :=
  match stringBuilderGrow sb (length s) with
  | BOk sb =>
    match sb_data sb with
    | Some d =>
      match mem_store d (sb_size sb) s with
      | Some d => let n := (sb_size sb + length s)%nat in
        match mem_store d n [0%N] with
        | Some d => BOk (SB (sb_cap sb) n (Some d))
        | None => BUndef
        end
      | None => BUndef
      end
    | None => BUndef
    end
  | BUndef => BUndef | BHang => BHang
  end.

(** sb.h:37-40, sb.c:62-67: a fresh builder is zeroed, then grown by 32. *)
Definition stringBuilderNew : sbuilder := SB 32 0 (Some (replicate 33 None)).
(** sb.c:69-74 *)
Definition stringBuilderDeinit (sb : sbuilder) : sbuilder := SB 0 0 None.
(** sb.c:116-122 *)
Definition stringBuilderRelease (sb : sbuilder) : sbuilder * option (list (option N)) :=
  (SB 0 0 None, sb_data sb).

Inductive sb_op := SAppend (s : list N) | SRelease | SDeinit.
Definition sb_step (sb : sbuilder) (o : sb_op) : bres (sbuilder * option (list (option N))) :=
  match o with
  | SAppend s => match stringBuilderAppend sb s with
                 | BOk sb' => BOk (sb', None) | BUndef => BUndef | BHang => BHang end
  | SRelease => BOk (stringBuilderRelease sb)
  | SDeinit => BOk (stringBuilderDeinit sb, None)
  end.

(** Histories. *)
Fixpoint da_run {V} (a : dynarr V) (ops : list (da_op V)) : bres (dynarr V * list (option (option V))) :=
  match ops with
  | [] => BOk (a, [])
  | o :: ops' =>
    match da_step a o with
    | BOk (a', r) => match da_run a' ops' with
                     | BOk (a'', rs) => BOk (a'', r :: rs) | BUndef => BUndef | BHang => BHang end
    | BUndef => BUndef | BHang => BHang
    end
  end.
Fixpoint sb_run (sb : sbuilder) (ops : list sb_op) : bres (sbuilder * list (option (list (option N)))) :=
  match ops with
  | [] => BOk (sb, [])
  | o :: ops' =>
    match sb_step sb o with
    | BOk (sb', r) => match sb_run sb' ops' with
                     | BOk (sb'', rs) => BOk (sb'', r :: rs) | BUndef => BUndef | BHang => BHang end
    | BUndef => BUndef | BHang => BHang
    end
  end.
