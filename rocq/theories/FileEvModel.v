(** Model of the registration of file events in the event loop,
    src/cxy/stdlib/native/evloop/ae.c (the epoll variant, lines 391-428, 735-760,
    775-858).  Masks are [N]; descriptors are [Z].  The kernel's interest list is the
    map [kern] from descriptors to the events asked for.  Not here: callbacks and
    timers ([TimerModel]). *)
From Coq Require Import ZArith NArith.
From stdpp Require Import numbers gmap list.

(** ae.h:14-20 *)
Definition AE_NONE : N := 0.
Definition AE_READABLE : N := 1.
Definition AE_WRITABLE : N := 2.
Definition AE_BARRIER : N := 8.

Record floop := FLoop { masks : list N; maxfd : Z; kern : gmap nat N }.
(** [setsize] is the length of the [events] array. *)
Definition setsize (l : floop) : Z := Z.of_nat (length (masks l)).

Inductive fres (A : Type) : Type :=
  | FOk (a : A)
  | FBad       (* access outside the [events] array *)
  | FKernel.   (* [epoll_ctl] adds a known descriptor or changes an unknown one *)
Arguments FOk {A}. Arguments FBad {A}. Arguments FKernel {A}.

(** ae.c:731-757 *)
Definition aeCreateEventLoop (n : nat) : floop := FLoop (replicate n AE_NONE) (-1) ∅.

(** The EPOLLIN/EPOLLOUT bits for a mask, ae.c:400-403 and 415-418. *)
Definition epoll_bits (mask : N) : N := N.land mask (N.lor AE_READABLE AE_WRITABLE).

(** [epoll_ctl] of ADD and MOD, as ae.c:395-396 chooses.  [ok] is whether the kernel
    accepts the descriptor at all. *)
Definition aeApiAddEvent (l : floop) (fd : nat) (old mask : N) (ok : bool) : fres (option (gmap nat N)) :=
  let full := N.lor mask old in
  if (old =? AE_NONE)%N then
    match kern l !! fd with
    | Some _ => FKernel
    | None => if ok then FOk (Some (<[fd := epoll_bits full]> (kern l))) else FOk None
    end
  else
    match kern l !! fd with
    | None => FKernel
    | Some _ => if ok then FOk (Some (<[fd := epoll_bits full]> (kern l))) else FOk None
    end.

(** ae.c:410-428 *)
Definition aeApiDelEvent (l : floop) (fd : nat) (old delmask : N) : fres (gmap nat N) :=
  let mask := N.ldiff old delmask in
  match kern l !! fd with
  | None => FKernel
  | Some _ => FOk (if (mask =? AE_NONE)%N then delete fd (kern l) else <[fd := epoll_bits mask]> (kern l))
  end.

(** ae.c:801-831; the result says whether AE_OK was returned. *)
Definition aeCreateFileEvent (l : floop) (fd : Z) (mask : N) (ok : bool) : fres (floop * bool) :=
  if (setsize l <=? fd)%Z then FOk (l, false)
  else if (fd <? 0)%Z then FBad
  else
    let i := Z.to_nat fd in
    let old := nth i (masks l) AE_NONE in
    match aeApiAddEvent l i old mask ok with
    | FOk (Some k) =>
      FOk (FLoop (<[i := N.lor old mask]> (masks l)) (if (maxfd l <? fd)%Z then fd else maxfd l) k, true)
    | FOk None => FOk (l, false)
    | FBad => FBad | FKernel => FKernel
    end.

(** ae.c:850-856: the largest [j] below [n] with an interest, or -1. *)
Fixpoint last_used (ms : list N) (n : nat) : Z :=
  match n with
  | O => -1
  | S j => if (nth j ms AE_NONE =? AE_NONE)%N then last_used ms j else Z.of_nat j
  end.

(** ae.c:833-858 *)
Definition aeDeleteFileEvent (l : floop) (fd : Z) (mask : N) : fres floop :=
  if (setsize l <=? fd)%Z then FOk l
  else if (fd <? 0)%Z then FBad
  else
    let i := Z.to_nat fd in
    let old := nth i (masks l) AE_NONE in
    if (old =? AE_NONE)%N then FOk l
    else
      let mask := if (N.land mask AE_WRITABLE =? 0)%N then mask else N.lor mask AE_BARRIER in
      match aeApiDelEvent l i old mask with
      | FOk k =>
        let new := N.ldiff old mask in
        let ms := <[i := new]> (masks l) in
        FOk (FLoop ms (if (fd =? maxfd l)%Z && (new =? AE_NONE)%N then last_used ms (Z.to_nat (maxfd l)) else maxfd l) k)
      | FBad => FBad | FKernel => FKernel
      end.

(** ae.c:860-867 *)
Definition aeGetFileEvents (l : floop) (fd : Z) : fres N :=
  if (setsize l <=? fd)%Z then FOk 0%N
  else if (fd <? 0)%Z then FBad else FOk (nth (Z.to_nat fd) (masks l) AE_NONE).

(** ae.c:779-805; the memory is assumed to be available. The new slots and those above
    [maxfd] get the mask AE_NONE. *)
Definition aeResizeSetSize (l : floop) (n : nat) : floop * bool :=
  if (Z.of_nat n =? setsize l)%Z then (l, true)
  else if (Z.of_nat n <=? maxfd l)%Z then (l, false)
  else
    let keep := Z.to_nat (maxfd l + 1) in
    (FLoop (take keep (masks l) ++ replicate (n - keep) AE_NONE) (maxfd l) (kern l), true).

Inductive fop := FCreate (fd : Z) (mask : N) (ok : bool) | FDelete (fd : Z) (mask : N) | FResize (n : nat).
Definition fstep (l : floop) (o : fop) : fres (floop * bool) :=
  match o with
  | FCreate fd m ok => aeCreateFileEvent l fd m ok
  | FDelete fd m => match aeDeleteFileEvent l fd m with FOk l => FOk (l, true) | FBad => FBad | FKernel => FKernel end
  | FResize n => FOk (aeResizeSetSize l n)
  end.
(** The final state, and for each operation whether it succeeded. *)
Fixpoint frun (l : floop) (os : list fop) : fres (floop * list bool) :=
  match os with
  | [] => FOk (l, [])
  | o :: os =>
    match fstep l o with
    | FOk (l, b) => match frun l os with FOk (l, bs) => FOk (l, b :: bs) | FBad => FBad | FKernel => FKernel end
    | FBad => FBad | FKernel => FKernel
    end
  end.
