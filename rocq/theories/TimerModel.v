(** Model of the timers of the event loop, src/cxy/stdlib/native/evloop/ae.c:670-728,
    895-1035 and 1134-1138, on the level of its doubly linked list.

    A node is known by its address.  The timers created by [aeCreateTimeEvent] are
    malloc'ed; those of file events are part of the [events] array, whose addresses are
    below [brk] and which exist from the beginning ([events] is not cleared by
    [aeCreateEventLoop], so their first content is arbitrary).
    Access to an address that is no node is [TBad].
    The clock is a function giving the answer of the n-th [gettimeofday]; callbacks are a
    function from the number of clock readings so far and the timer's id to what the
    callback does and returns: so both are arbitrary.  Simplified: [long] does not
    overflow, finalizers (never used by the standard library) do nothing. *)
From Coq Require Import ZArith NArith.
From stdpp Require Import numbers gmap list.
Local Open Scope Z_scope.

Definition AE_DELETED : Z := -1.
Definition AE_NO_MORE : Z := -1.

(** ae.h:57-63, AE_TIMER_BASE; [fd] is -1 for timers of their own. *)
Record tnode := TN { t_id : Z; t_when : Z * Z; t_prev : option nat; t_next : option nat; t_fd : Z }.
Record tloop := TL {
  mem : gmap nat tnode; head : option nat; next_id : Z; last_time : Z; brk : nat; tick : nat }.

Inductive tres (A : Type) : Type := TOk (a : A) | TBad | THang.
Arguments TOk {A}. Arguments TBad {A}. Arguments THang {A}.
Definition tbind {A B} (r : tres A) (f : A -> tres B) : tres B :=
  match r with TOk a => f a | TBad => TBad | THang => THang end.

(** What callbacks do, and what happens. [EFire id now deadline ret]: the callback of
    timer [id] is called at time [now]. [EIdle]: looked at, not due. *)
Inductive act := ACreate (ms : Z) | ADelete (id : Z).
Inductive event :=
  | ECreate (id : Z) (deadline : Z * Z)
  | EDelete (id : Z)
  | EFire (id : Z) (now deadline : Z * Z)
  | EDone (id : Z) (rearmed : option (Z * Z))
  | EIdle (id : Z) (now deadline : Z * Z)
  | ESkew.

Section loop.
Context (clock : nat -> Z * Z) (cb : nat -> Z -> list act * Z).

(** ae.c:670-683 *)
Definition add_ms (now : Z * Z) (ms : Z) : Z * Z :=
  let s := fst now + Z.quot ms 1000 in
  let m := snd now + Z.rem ms 1000 in
  if 1000 <=? m then (s + 1, m - 1000) else (s, m).
(** ae.c:1008-1009 *)
Definition due (now w : Z * Z) : bool :=
  (fst w <? fst now) || ((fst now =? fst w) && (snd w <=? snd now)).

Definition set_mem (s : tloop) (m : gmap nat tnode) : tloop :=
  TL m (head s) (next_id s) (last_time s) (brk s) (tick s).
Definition set_head (s : tloop) (h : option nat) : tloop :=
  TL (mem s) h (next_id s) (last_time s) (brk s) (tick s).
Definition set_tick (s : tloop) (n : nat) : tloop :=
  TL (mem s) (head s) (next_id s) (last_time s) (brk s) n.
(** Change the node at an address. *)
Definition change (m : gmap nat tnode) (a : nat) (f : tnode -> tnode) : tres (gmap nat tnode) :=
  match m !! a with Some n => TOk (<[a := f n]> m) | None => TBad end.
Definition set_id (i : Z) (n : tnode) := TN i (t_when n) (t_prev n) (t_next n) (t_fd n).
Definition set_when (w : Z * Z) (n : tnode) := TN (t_id n) w (t_prev n) (t_next n) (t_fd n).
Definition set_prev (p : option nat) (n : tnode) := TN (t_id n) (t_when n) p (t_next n) (t_fd n).
Definition set_next (p : option nat) (n : tnode) := TN (t_id n) (t_when n) (t_prev n) p (t_fd n).
Definition change_opt (m : gmap nat tnode) (a : option nat) (f : tnode -> tnode) : tres (gmap nat tnode) :=
  match a with Some a => change m a f | None => TOk m end.

(** ae.c:685-697, [aeAddTimeEvent]; reads the clock. *)
Definition add_timer (s : tloop) (a : nat) (ms : Z) : tres (tloop * event) :=
  let w := add_ms (clock (tick s)) ms in
  let id := next_id s in
  tbind (change (mem s) a (fun n => TN id w None (head s) (t_fd n))) (fun m =>
  tbind (change_opt m (head s) (set_prev (Some a))) (fun m =>
  TOk (TL m (Some a) (id + 1) (last_time s) (brk s) (S (tick s)), ECreate id w))).

(** ae.c:699-707, [aeRemoveTimerEvent], and 990-995. *)
Definition unlink (s : tloop) (a : nat) : tres tloop :=
  match mem s !! a with
  | None => TBad
  | Some n =>
    tbind (match t_prev n with
           | Some p => tbind (change (mem s) p (set_next (t_next n))) (fun m => TOk (set_mem s m))
           | None => TOk (set_head s (t_next n))
           end) (fun s =>
    tbind (change_opt (mem s) (t_next n) (set_prev (t_prev n))) (fun m => TOk (set_mem s m)))
  end.

(** ae.c:895-912, [aeCreateTimeEvent]. *)
Definition create_timer (s : tloop) (ms : Z) : tres (tloop * event) :=
  let a := brk s in
  add_timer (TL (<[a := TN 0 (0, 0) None None (-1)]> (mem s)) (head s) (next_id s) (last_time s) (S a) (tick s)) a ms.

(** ae.c:914-925, [aeDeleteTimeEvent]. *)
Fixpoint delete_loop (fuel : nat) (m : gmap nat tnode) (te : option nat) (id : Z) : tres (gmap nat tnode) :=
  match te with
  | None => TOk m
  | Some a =>
    match fuel with
    | O => THang
    | S fuel =>
      match m !! a with
      | None => TBad
      | Some n => if t_id n =? id then change m a (set_id AE_DELETED) else delete_loop fuel m (t_next n) id
      end
    end
  end.
Definition delete_timer (s : tloop) (id : Z) : tres tloop :=
  tbind (delete_loop (S (size (mem s))) (mem s) (head s) id) (fun m => TOk (set_mem s m)).

Fixpoint run_acts (s : tloop) (acts : list act) : tres (tloop * list event) :=
  match acts with
  | [] => TOk (s, [])
  | ACreate ms :: acts =>
    tbind (create_timer s ms) (fun r => tbind (run_acts (fst r) acts) (fun r' => TOk (fst r', snd r :: snd r')))
  | ADelete id :: acts =>
    tbind (delete_timer s id) (fun s => tbind (run_acts s acts) (fun r' => TOk (fst r', EDelete id :: snd r')))
  end.

(** ae.c:709-719: a file event timed out.  Its coroutine is resumed (no timer is
    touched). *)
Definition file_timeout (s : tloop) (a : nat) : tres tloop :=
  tbind (change (mem s) a (set_when (0, 0))) (fun m => TOk (set_mem s m)).

(** ae.c:983-1032, the main loop of [processTimeEvents]. *)
Fixpoint process_loop (fuel : nat) (s : tloop) (te : option nat) (maxid : Z) : tres (tloop * list event) :=
  match te with
  | None => TOk (s, [])
  | Some a =>
    match fuel with
    | O => THang
    | S fuel =>
      match mem s !! a with
      | None => TBad
      | Some n =>
        if t_id n =? AE_DELETED then
          tbind (unlink s a) (fun s => process_loop fuel (set_mem s (delete a (mem s))) (t_next n) maxid)
        else if maxid <? t_id n then process_loop fuel s (t_next n) maxid
        else
          let now := clock (tick s) in
          let s := set_tick s (S (tick s)) in
          if due now (t_when n) then
            if t_fd n <? 0 then
              let '(acts, ret) := cb (tick s) (t_id n) in
              tbind (run_acts s acts) (fun r =>
              let s := fst r in
              tbind (if ret =? AE_NO_MORE
                     then tbind (change (mem s) a (set_id AE_DELETED)) (fun m => TOk (set_mem s m, None))
                     else let w := add_ms (clock (tick s)) ret in
                          tbind (change (mem s) a (set_when w)) (fun m => TOk (set_tick (set_mem s m) (S (tick s)), Some w)))
                (fun sw =>
              match mem (fst sw) !! a with
              | None => TBad
              | Some n' =>
                tbind (process_loop fuel (fst sw) (t_next n') maxid) (fun r' =>
                TOk (fst r', EFire (t_id n) now (t_when n) :: snd r ++ EDone (t_id n) (snd sw) :: snd r'))
              end))
            else
              tbind (unlink s a) (fun s => tbind (file_timeout s a) (fun s =>
              process_loop fuel s (t_next n) maxid))
          else
            tbind (process_loop fuel s (t_next n) maxid) (fun r =>
            TOk (fst r, EIdle (t_id n) now (t_when n) :: snd r))
      end
    end
  end.

(** ae.c:973-979: after the clock went back every timer becomes due. *)
Fixpoint skew_loop (fuel : nat) (m : gmap nat tnode) (te : option nat) : tres (gmap nat tnode) :=
  match te with
  | None => TOk m
  | Some a =>
    match fuel with
    | O => THang
    | S fuel =>
      match m !! a with
      | None => TBad
      | Some n => skew_loop fuel (<[a := set_when (0, snd (t_when n)) n]> m) (t_next n)
      end
    end
  end.

(** ae.c:956-1034; [t] is what [time(NULL)] returns. *)
Definition process (s : tloop) (t : Z) : tres (tloop * list event) :=
  tbind (if t <? last_time s
         then tbind (skew_loop (S (size (mem s))) (mem s) (head s)) (fun m => TOk (set_mem s m, [ESkew]))
         else TOk (s, [])) (fun r =>
  let s := TL (mem (fst r)) (head (fst r)) (next_id (fst r)) t (brk (fst r)) (tick (fst r)) in
  tbind (process_loop (S (size (mem s))) s (head s) (next_id s - 1)) (fun r' =>
  TOk (fst r', snd r ++ snd r'))).

(** ae.c:812-816: a file event is registered with a timeout; and 1134-1138: descriptor
    [fd] is ready, its timer is taken off the list if it was ever set. *)
Definition file_wait (s : tloop) (fd : nat) (timeout : Z) : tres tloop :=
  if 0 <? timeout then
    tbind (change (mem s) fd (fun n => TN (t_id n) (t_when n) (t_prev n) (t_next n) (Z.of_nat fd))) (fun m =>
    tbind (add_timer (set_mem s m) fd timeout) (fun r => TOk (fst r)))
  else TOk s.
Definition file_ready (s : tloop) (fd : nat) : tres tloop :=
  match mem s !! fd with
  | None => TBad
  | Some n => if (0 <? fst (t_when n)) || (0 <? snd (t_when n)) then unlink s fd else TOk s
  end.

(** A program using the loop. *)
Inductive top := OCreate (ms : Z) | ODelete (id : Z) | OProcess (t : Z)
  | OWait (fd : nat) (timeout : Z) | OReady (fd : nat).
Definition tstep (s : tloop) (o : top) : tres (tloop * list event) :=
  match o with
  | OCreate ms => tbind (create_timer s ms) (fun r => TOk (fst r, [snd r]))
  | ODelete id => tbind (delete_timer s id) (fun s => TOk (s, [EDelete id]))
  | OProcess t => process s t
  | OWait fd timeout => tbind (file_wait s fd timeout) (fun s => TOk (s, []))
  | OReady fd => tbind (file_ready s fd) (fun s => TOk (s, []))
  end.
Fixpoint trun (s : tloop) (os : list top) : tres (tloop * list (list event)) :=
  match os with
  | [] => TOk (s, [])
  | o :: os => tbind (tstep s o) (fun r => tbind (trun (fst r) os) (fun r' => TOk (fst r', snd r :: snd r')))
  end.
(** ae.c:721-757; the [n] nodes of the events array hold [junk]. *)
Definition tinit (n : nat) (junk : nat -> tnode) (t : Z) : tloop :=
  TL (list_to_map ((fun i => (i, junk i)) <$> seq 0 n)) None 0 t n 0.
End loop.

(** ae.c:937-953, [aeSearchNearestTimer], on the listed nodes' times. *)
Definition earlier (a b : Z * Z) : bool := (fst a <? fst b) || ((fst a =? fst b) && (snd a <? snd b)).
Fixpoint nearest (best : option (Z * Z)) (l : list (Z * Z)) : option (Z * Z) :=
  match l with
  | [] => best
  | w :: l => nearest (match best with None => Some w | Some b => if earlier w b then Some w else best end) l
  end.
