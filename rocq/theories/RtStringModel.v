(** Model of the growable text of the runtime, class [String] in
    src/cxy/runtime/builtins.cxy:758-860, and of [File.readAll] of
    src/cxy/stdlib/os.cxy:366-395.

    Memory is a list of cells ([None] for a cell never written) as in BufModel.
    Simplification: sizes do not reach 2^63, so that the doubling of the capacity
    does not wrap; malloc and realloc succeed. *)
From stdpp Require Import numbers list.
From Verif Require Import BufModel StrModel.
Local Open Scope nat_scope.

(** [TUb]: access outside the block or to a block given back; [TAssert]: a failed
    assert!; [THang]: a loop that does not end. *)
Inductive tres (A : Type) : Type := TOk (a : A) | TUb | TAssert | THang.
Arguments TOk {A} a. Arguments TUb {A}. Arguments TAssert {A}. Arguments THang {A}.

(** builtins.cxy:759-761 *)
Record rstr := RStr { t_cap : nat; t_size : nat; t_data : option (list (option N)) }.
Definition rstr_new : rstr := RStr 0 0 None.

(** builtins.cxy:763-775; also tells whether the block has been reallocated. *)
Fixpoint cap_loop (fuel cap need : nat) : option nat :=
  if cap <? need then match fuel with O => None | S f => cap_loop f (cap * 2) need end else Some cap.
Definition grow (t : rstr) (growSize : nat) : tres (rstr * bool) :=
  let newSize := Nat.max (t_size t + growSize) 16 in
  match t_data t with
  | None => TOk (RStr newSize (t_size t) (Some (replicate (newSize + 1) None)), true)
  | Some d =>
    if t_cap t <? newSize then
      match cap_loop newSize (t_cap t) newSize with
      | Some cap => TOk (RStr cap (t_size t) (Some (mem_grow d (cap + 1))), true)
      | None => THang
      end
    else TOk (t, false)
  end.

(** builtins.cxy:829-838; the text does not alias the receiver. *)
Definition append (t : rstr) (s : list N) : tres rstr :=
  if length s =? 0 then TOk t
  else match grow t (length s) with
       | TOk (t, _) =>
         match t_data t with
         | Some d =>
           match mem_store d (t_size t) s with
           | Some d => match mem_store d (t_size t + length s) [0%N] with
                       | Some d => TOk (RStr (t_cap t) (t_size t + length s) (Some d))
                       | None => TUb end
           | None => TUb
           end
         | None => TUb
         end
       | TUb => TUb | TAssert => TAssert | THang => THang
       end.
(** The bytes of a written range. *)
Fixpoint read_cells (c : list (option N)) : option (list N) :=
  match c with
  | [] => Some []
  | Some x :: c => match read_cells c with Some r => Some (x :: r) | None => None end
  | None :: _ => None
  end.
(** The same with the text of the receiver itself ([t << t], builtins.cxy:643): the
    address of the old block was taken before [grow]; reallocating makes it stale. *)
Definition append_self (t : rstr) : tres rstr :=
  match t_data t with
  | None => TOk t
  | Some d =>
    match read_cells (take (t_size t) d) with
    | None => TUb
    | Some s =>
      if length s =? 0 then TOk t
      else match grow t (length s) with
           | TOk (_, true) => TUb
           | TOk (_, false) => append t s
           | TUb => TUb | TAssert => TAssert | THang => THang
           end
    end
  end.

(** builtins.cxy:810-813; the caller gets the address [t_size]. *)
Definition reserve (t : rstr) (size : nat) : tres rstr :=
  match grow t size with TOk (t, _) => TOk t | TUb => TUb | TAssert => TAssert | THang => THang end.
(** builtins.cxy:815-819 *)
Definition resize (t : rstr) (newSize : nat) : tres rstr :=
  if t_cap t <=? newSize then
    match t_data t with
    | Some d => match mem_store d newSize [0%N] with
                | Some d => TOk (RStr (t_cap t) newSize (Some d)) | None => TUb end
    | None => TUb
    end
  else TAssert.
(** builtins.cxy:821-828 *)
Definition clear (t : rstr) : rstr := match t_data t with Some _ => rstr_new | None => t end.

(** builtins.cxy:840-849: no terminator is written. *)
Fixpoint space_run (s : list N) : nat :=
  match s with c :: s => if isSpace c then S (space_run s) else 0 | [] => 0 end.
Definition trimLeft (t : rstr) : tres rstr :=
  match t_data t with
  | None => TOk t                      (* _size is 0 *)
  | Some d =>
    match read_cells (take (t_size t) d) with
    | None => TUb
    | Some s =>
      let i := space_run s in
      if i =? 0 then TOk t
      else match mem_store d 0 (drop i s) with
           | Some d => TOk (RStr (t_cap t) (t_size t - i) (Some d)) | None => TUb end
    end
  end.
(** builtins.cxy:851-859 *)
Definition trimRight (t : rstr) : tres rstr :=
  match t_data t with
  | None => TOk t
  | Some d =>
    match read_cells (take (t_size t) d) with
    | None => TUb
    | Some s =>
      let n := trimRight_loop s (length s) in
      if 0 <? t_cap t then
        match mem_store d n [0%N] with
        | Some d => TOk (RStr (t_cap t) n (Some d)) | None => TUb end
      else TOk (RStr (t_cap t) n (Some d))
    end
  end.
(** builtins.cxy:861-865 *)
Definition trim (t : rstr) : tres rstr :=
  match trimLeft t with TOk t => trimRight t | TUb => TUb | TAssert => TAssert | THang => THang end.

(** builtins.cxy:960, [str()] read as a C string; a null pointer is the empty text
    here. *)
Fixpoint cstring (c : list (option N)) : tres (list N) :=
  match c with
  | [] => TUb
  | None :: _ => TUb
  | Some x :: c => if (x =? 0)%N then TOk []
                   else match cstring c with TOk r => TOk (x :: r) | TUb => TUb | TAssert => TAssert | THang => THang end
  end.
Definition str (t : rstr) : tres (list N) :=
  match t_data t with None => TOk [] | Some d => cstring d end.
(** The text itself: [_size] bytes from [_data]. *)
Definition text (t : rstr) : option (list N) :=
  match t_data t with
  | None => if t_size t =? 0 then Some [] else None
  | Some d => if t_size t <=? length d then read_cells (take (t_size t) d) else None
  end.

(** os.cxy:366-395 for a regular file of at most 1 MB, with [read] delivering the
    whole rest of the file. *)
Definition readAll (file : list N) : tres rstr :=
  if length file =? 0 then TOk rstr_new
  else match reserve rstr_new (length file) with
       | TOk t => match t_data t with
                  | Some d => match mem_store d (t_size t) file with
                              | Some d => resize (RStr (t_cap t) (t_size t) (Some d)) (length file)
                              | None => TUb end
                  | None => TUb end
       | TUb => TUb | TAssert => TAssert | THang => THang
       end.
