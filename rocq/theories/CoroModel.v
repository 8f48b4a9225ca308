(** Model of src/cxy/stdlib/coro.cxy: the coroutine scheduler and the coroutine mutex, as
    the sequence of actions done by whichever coroutine is running.  Register and stack
    switching is not here: a switch changes [running].  The ready list and the waiting
    lists of mutexes are the intrusive lists of [ListModel] and share the link fields.
    The event loop is reduced to its contract: a poll reports some descriptors and some
    of the sleepers ([TimerModel], [FileEvModel] have the details); descriptor waits have
    no timeout. *)
From Coq Require Import ZArith NArith.
From stdpp Require Import numbers gmap list.
From Verif Require Import ListModel.
Local Open Scope Z_scope.

(** What a poll finds: the descriptors reported ready with their masks, and the sleepers
    whose time has come. *)
Record poll_answer := Answer { fired : list (nat * N); due : nat -> bool }.
(** What a trace shows.  [TPoll p]: the event loop is polled; [TReady c r]: [c] is queued to run with result [r]; [TRun c r]:
    the scheduler switches to [c], whose call of suspend returns [r]. *)
Inductive reason := RPark | RFd (fd : nat) (mask : N) | RSleep | RMutex (m : nat).
Inductive tev :=
  | TSpawn (c n : nat) | TSusp (c : nat) (why : reason) | TResume (c d : nat) (r : Z)
  | TReady (c : nat) (r : Z) | TRun (c : nat) (r : Z) | TFinish (c : nat)
  | TLocked (m c : nat) | TUnlock (m c : nat) | TGrant (m c : nat) | TPoll (p : poll_answer).

(** How a history ends: [Idle]: nothing is ready and the kernel has no further answer;
    [Cut]: the answer to the next poll is not given; [Exit]: the main coroutine returns;
    [Fail]: an assertion fails; [Bad]: access to something that is no live coroutine. *)
Inductive outcome (A : Type) := Ok (a : A) | Idle | Cut | Exit | Fail | Bad.
Arguments Ok {A}. Arguments Idle {A}. Arguments Cut {A}. Arguments Exit {A}. Arguments Fail {A}. Arguments Bad {A}.
Definition M (A : Type) : Type := list tev * outcome A.
Definition ret {A} (a : A) : M A := ([], Ok a).
Definition emit (e : tev) : M unit := ([e], Ok tt).
Definition bind {A B} (x : M A) (f : A -> M B) : M B :=
  match x with
  | (t, Ok a) => let '(t', o) := f a in (t ++ t', o)
  | (t, Idle) => (t, Idle) | (t, Cut) => (t, Cut) | (t, Exit) => (t, Exit) | (t, Fail) => (t, Fail) | (t, Bad) => (t, Bad)
  end.

(** coro.cxy:74-83; [c_wait]: inside fdWaitRead or fdWaitWrite, and so to remove that
    event when it runs again (262-263, 280-281). *)
Record co := Co { c_ready : bool; c_result : Z; c_wait : option (nat * N) }.
(** coro.cxy:122-135 and 352-354.  [lists] 0 is the ready list, [lists] (S m) the waiting
    list of mutex [m].  [events]: mask and client data of each descriptor, ae.c:817-822. *)
Record sched := Sch {
  heap : links; lists : nat -> lst; cos : gmap nat co; running : option nat; counter : Z;
  events : gmap nat (N * nat); sleepers : list (Z * nat); next_timer : Z; holder : nat -> option nat }.
Definition set_lists (s : sched) (h : links) (l : nat -> lst) : sched :=
  Sch h l (cos s) (running s) (counter s) (events s) (sleepers s) (next_timer s) (holder s).
Definition set_cos (s : sched) (k : gmap nat co) : sched :=
  Sch (heap s) (lists s) k (running s) (counter s) (events s) (sleepers s) (next_timer s) (holder s).
Definition set_running (s : sched) (r : option nat) : sched :=
  Sch (heap s) (lists s) (cos s) r (counter s) (events s) (sleepers s) (next_timer s) (holder s).
Definition set_counter (s : sched) (n : Z) : sched :=
  Sch (heap s) (lists s) (cos s) (running s) n (events s) (sleepers s) (next_timer s) (holder s).
Definition set_events (s : sched) (e : gmap nat (N * nat)) : sched :=
  Sch (heap s) (lists s) (cos s) (running s) (counter s) e (sleepers s) (next_timer s) (holder s).
Definition set_sleepers (s : sched) (l : list (Z * nat)) (n : Z) : sched :=
  Sch (heap s) (lists s) (cos s) (running s) (counter s) (events s) l n (holder s).
Definition set_holder (s : sched) (f : nat -> option nat) : sched :=
  Sch (heap s) (lists s) (cos s) (running s) (counter s) (events s) (sleepers s) (next_timer s) f.

(** [ready.push], [waiting.push] *)
Definition push_on (s : sched) (i c : nat) : M sched :=
  match push (heap s) (lists s i) c with
  | LOk (h, l) => ret (set_lists s h (upd (lists s) i l))
  | LAbort => ([], Fail) | LBad => ([], Bad)
  end.
Definition pop_off (s : sched) (i : nat) : M (sched * option nat) :=
  match pop (heap s) (lists s i) with
  | LOk (h, l, r) => ret (set_lists s h (upd (lists s) i l), r)
  | LAbort => ([], Fail) | LBad => ([], Bad)
  end.

(** coro.cxy:229-233 *)
Definition resume (s : sched) (c : nat) (r : Z) : M sched :=
  match cos s !! c with
  | None => ([], Bad)
  | Some k => bind (push_on (set_cos s (<[c := Co true r (c_wait k)]> (cos s))) 0 c) (fun s =>
              bind (emit (TReady c r)) (fun _ => ret s))
  end.

(** One poll, ae.c:1050-1172: the descriptors, then the timers.  Both callbacks of a descriptor are [eventLoopCallback] (coro.cxy:182-190),
    so at most one call is made; [eventLoopTimerFired] (193-199) ends its timer. *)
Fixpoint fire_files (s : sched) (fs : list (nat * N)) : M sched :=
  match fs with
  | [] => ret s
  | (fd, mask) :: fs =>
    match events s !! fd with
    | None => fire_files s fs
    | Some (m, c) =>
      if (N.land (N.land m mask) 3 =? 0)%N then fire_files s fs
      else bind (resume s c (Z.of_N mask)) (fun s => fire_files s fs)
    end
  end.
Fixpoint fire_timers (s : sched) (ts : list (Z * nat)) (due : nat -> bool) : M sched :=
  match ts with
  | [] => ret s
  | (id, c) :: ts =>
    if due c then
      bind (resume (set_sleepers s (filter (fun x => fst x <> id) (sleepers s)) (next_timer s)) c id) (fun s => fire_timers s ts due)
    else fire_timers s ts due
  end.
Definition poll (s : sched) (p : poll_answer) : M sched :=
  bind (emit (TPoll p)) (fun _ =>
  bind (fire_files s (fired p)) (fun s => bind (fire_timers s (sleepers s) (due p)) (fun s => ret (set_counter s 0)))).

(** ae.c:833-858 on the events *)
Definition del_event (e : gmap nat (N * nat)) (fd : nat) (mask : N) : gmap nat (N * nat) :=
  match e !! fd with
  | None => e
  | Some (m, c) => if (N.ldiff m mask =? 0)%N then delete fd e else <[fd := (N.ldiff m mask, c)]> e
  end.
(** coro.cxy:213-226: run the first ready coroutine; poll when there is none.  The
    coroutine continues behind its call of suspend. *)
Definition switch_to (s : sched) (c : nat) : M sched :=
  match cos s !! c with
  | None => ([], Bad)
  | Some k =>
    if c_ready k then
      let e := match c_wait k with Some (fd, mask) => del_event (events s) fd mask | None => events s end in
      bind (emit (TRun c (c_result k))) (fun _ =>
      ret (set_events (set_counter (set_running (set_cos s (<[c := Co false (c_result k) None]> (cos s))) (Some c)) (counter s + 1)) e))
    else ([], Fail)
  end.
Fixpoint dispatch (ps : list poll_answer) (s : sched) : M (sched * list poll_answer) :=
  bind (pop_off s 0) (fun r =>
  match r with
  | (s, Some c) => bind (switch_to s c) (fun s => ret (s, ps))
  | (s, None) =>
    match ps with
    | [] => ([], Idle)
    | p :: ps => bind (poll s p) (fun s => dispatch ps s)
    end
  end).
(** coro.cxy:201-227 *)
Definition suspend (s : sched) (ps : list poll_answer) : M (sched * list poll_answer) :=
  if 103 <=? counter s then
    match ps with
    | [] => ([], Cut)
    | p :: ps => bind (poll s p) (fun s => dispatch ps s)
    end
  else dispatch ps s.

(** The actions of the running coroutine.  [ASpawn n]: [__async], with the new coroutine
    at address [n] (306-314, 240-251); [AWait fd w ok]: fdWaitRead or fdWaitWrite, where
    [ok] is whether the registration succeeds (261-291); [ASleep] (293-305, ms > 0). *)
Inductive act :=
  | ASpawn (n : nat) | AYield | ASuspend | AResume (d : nat) (r : Z) | AFinish
  | AWait (fd : nat) (w : bool) (ok : bool) | ASleep | ALock (m : nat) | ATryLock (m : nat) | AUnlock (m : nat).
Definition step (s : sched) (ps : list poll_answer) (a : act) : M (sched * list poll_answer) :=
  match running s with
  | None => ([], Bad)
  | Some c =>
    match a with
    | ASpawn n =>
      bind (emit (TSpawn c n)) (fun _ =>
      let s := set_cos s (<[n := Co false 0 None]> (cos s)) in
      let s := set_lists s (<[n := None]> (heap s)) (lists s) in
      bind (resume s c 0) (fun s => ret (set_running s (Some n), ps)))
    | AYield => bind (resume s c 0) (fun s => suspend s ps)
    | ASuspend => bind (emit (TSusp c RPark)) (fun _ => suspend s ps)
    | AResume d r => bind (emit (TResume c d r)) (fun _ => bind (resume s d r) (fun s => ret (s, ps)))
    | AFinish =>
      (* 253-260; the main coroutine is not ended by [epilogue] *)
      if decide (c = 0%nat) then ([], Exit)
      else bind (emit (TFinish c)) (fun _ =>
           suspend (set_running (set_lists (set_cos s (delete c (cos s))) (delete c (heap s)) (lists s)) None) ps)
    | AWait fd w ok =>
      let mask := if w then 2%N else 1%N in
      if ok then
        match cos s !! c with
        | None => ([], Bad)
        | Some k =>
          let old := match events s !! fd with Some (m, _) => m | None => 0%N end in
          let s := set_events s (<[fd := (N.lor old mask, c)]> (events s)) in
          let s := set_cos s (<[c := Co (c_ready k) (c_result k) (Some (fd, mask))]> (cos s)) in
          bind (emit (TSusp c (RFd fd mask))) (fun _ => suspend s ps)
        end
      else ret (s, ps)
    | ASleep =>
      bind (emit (TSusp c RSleep)) (fun _ =>
      suspend (set_sleepers s ((next_timer s, c) :: sleepers s) (next_timer s + 1)) ps)
    | ALock m =>
      (* 358-365 *)
      match holder s m with
      | None => bind (emit (TLocked m c)) (fun _ => ret (set_holder s (upd (holder s) m (Some c)), ps))
      | Some _ => bind (emit (TSusp c (RMutex m))) (fun _ => bind (push_on s (S m) c) (fun s => suspend s ps))
      end
    | ATryLock m =>
      (* 367-373 *)
      match holder s m with
      | None => bind (emit (TLocked m c)) (fun _ => ret (set_holder s (upd (holder s) m (Some c)), ps))
      | Some _ => ret (s, ps)
      end
    | AUnlock m =>
      (* 375-382 *)
      bind (emit (TUnlock m c)) (fun _ =>
      bind (pop_off s (S m)) (fun r =>
      match r with
      | (s, None) => ret (s, ps)
      | (s, Some n) =>
        bind (emit (TGrant m n)) (fun _ =>
        bind (resume (set_holder s (upd (holder s) m (Some n))) n 0) (fun s => ret (s, ps)))
      end))
    end
  end.
Fixpoint run (s : sched) (ps : list poll_answer) (acts : list act) : M (sched * list poll_answer) :=
  match acts with
  | [] => ret (s, ps)
  | a :: acts => bind (step s ps a) (fun r => run (fst r) (snd r) acts)
  end.
(** coro.cxy:122-142: the main coroutine, at address 0, is running. *)
Definition start : sched :=
  Sch {[0%nat := None]} (fun _ => empty_list) {[0%nat := Co false 0 None]} (Some 0%nat) 0 ∅ [] 0 (fun _ => None).
