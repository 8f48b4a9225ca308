(** What traces of coroutines are to look like: the state of each coroutine as read off
    the trace, what a program may do, and what the scheduler and the mutex owe it. *)
From Coq Require Import ZArith NArith.
From stdpp Require Import numbers gmap list.
From Verif Require Import ListModel CoroModel.
Local Open Scope Z_scope.

Inductive stat := Dead | Running | Ready | Waiting (why : reason).
(** [g_fd]: the descriptor a coroutine registered, until it runs again; [g_pend]: made
    ready and not yet run, in order; [g_n]: coroutines alive; [g_own], [g_wait]: owner and
    waiters of each mutex; [g_due]: to be made ready because of the last poll. *)
Record ghost := Gh {
  g_st : nat -> stat; g_fd : nat -> option (nat * N); g_pend : list (nat * Z); g_n : nat;
  g_own : nat -> option nat; g_wait : nat -> list nat; g_due : nat -> bool }.
Definition reported (fs : list (nat * N)) (fd : nat) (m : N) : bool :=
  existsb (fun x => (fst x =? fd)%nat && negb (N.land (N.land m (snd x)) 3 =? 0)%N) fs.
Definition gstep (g : ghost) (e : tev) : ghost :=
  match e with
  | TSpawn _ n => Gh (upd (g_st g) n Running) (g_fd g) (g_pend g) (S (g_n g)) (g_own g) (g_wait g) (g_due g)
  | TSusp c why =>
    Gh (upd (g_st g) c (Waiting why))
       (match why with RFd fd m => upd (g_fd g) c (Some (fd, m)) | _ => g_fd g end) (g_pend g) (g_n g) (g_own g)
       (match why with RMutex m => upd (g_wait g) m (g_wait g m ++ [c]) | _ => g_wait g end) (g_due g)
  | TResume _ _ _ => g
  | TReady c r => Gh (upd (g_st g) c Ready) (g_fd g) (g_pend g ++ [(c, r)]) (g_n g) (g_own g) (g_wait g) (upd (g_due g) c false)
  | TRun c _ => Gh (upd (g_st g) c Running) (upd (g_fd g) c None) (tail (g_pend g)) (g_n g) (g_own g) (g_wait g) (g_due g)
  | TFinish c => Gh (upd (g_st g) c Dead) (g_fd g) (g_pend g) (pred (g_n g)) (g_own g) (g_wait g) (g_due g)
  | TLocked m c => Gh (g_st g) (g_fd g) (g_pend g) (g_n g) (upd (g_own g) m (Some c)) (g_wait g) (g_due g)
  | TUnlock m _ => Gh (g_st g) (g_fd g) (g_pend g) (g_n g) (upd (g_own g) m None) (g_wait g) (g_due g)
  | TGrant m c =>
    Gh (upd (g_st g) c (Waiting RPark)) (g_fd g) (g_pend g) (g_n g) (upd (g_own g) m (Some c)) (upd (g_wait g) m (tail (g_wait g m))) (g_due g)
  | TPoll p => Gh (g_st g) (g_fd g) (g_pend g) (g_n g) (g_own g) (g_wait g) (fun c =>
      match g_st g c with Waiting (RFd fd m) => reported (fired p) fd m | Waiting RSleep => due p c | _ => false end)
  end.
(** Only the main coroutine, number 0. *)
Definition ginit : ghost := Gh (fun c => if decide (c = 0%nat) then Running else Dead) (fun _ => None) [] 1 (fun _ => None) (fun _ => []) (fun _ => false).

(** The discipline of a program: a new coroutine is at a free address; at most 103 are
    alive while there are registered descriptors; a descriptor has one waiter; a program resumes only coroutines that suspended
    themselves; a mutex is unlocked by its owner. *)
Definition allowed (g : ghost) (e : tev) : Prop :=
  match e with
  | TSpawn _ n => g_st g n = Dead /\ (N.of_nat (S (g_n g)) < 2 ^ 64)%N /\ ((g_n g < 103)%nat \/ forall d, g_fd g d = None)
  | TSusp _ (RFd fd _) => (g_n g <= 103)%nat /\ forall d fd' m', g_fd g d = Some (fd', m') -> fd' <> fd
  | TResume _ d _ => g_st g d = Waiting RPark
  | TUnlock m c => g_own g m = Some c
  | _ => True
  end.
(** What is owed: a coroutine becomes ready only when it is not ready, and one waiting for
    a descriptor or for its time only because of the last poll; all that the poll found
    become ready before any coroutine runs; the first of those ready runs, with the result
    it was given; a mutex has one owner at a time, and the first waiter is next. *)
Definition owed (g : ghost) (e : tev) : Prop :=
  match e with
  | TReady c _ => g_st g c <> Ready /\ g_st g c <> Dead /\
                  match g_st g c with Waiting RPark | Running => True | Waiting (RMutex _) => False | _ => g_due g c = true end
  | TRun c r => head (g_pend g) = Some (c, r) /\ forall d, g_due g d = false
  | TPoll _ => forall d, g_due g d = false
  | TLocked m _ => g_own g m = None
  | TGrant m c => g_own g m = None /\ head (g_wait g m) = Some c
  | _ => True
  end.
Fixpoint all_along (P : ghost -> tev -> Prop) (g : ghost) (tr : list tev) : Prop :=
  match tr with
  | [] => True
  | e :: tr => P g e /\ all_along P (gstep g e) tr
  end.
Definition at_end (g : ghost) (tr : list tev) : ghost := fold_left gstep tr g.

(** The kernel reports a descriptor once per poll. *)
Definition kernel_ok (p : poll_answer) : Prop := NoDup (map fst (fired p)).

(** For reading a trace without the states. *)
Definition readies (tr : list tev) : list (nat * Z) := omap (fun e => match e with TReady c r => Some (c, r) | _ => None end) tr.
Definition runs (tr : list tev) : list (nat * Z) := omap (fun e => match e with TRun c r => Some (c, r) | _ => None end) tr.
Definition arrivals (m : nat) (tr : list tev) : list nat :=
  omap (fun e => match e with TSusp c (RMutex m') => if decide (m' = m) then Some c else None | _ => None end) tr.
Definition grants (m : nat) (tr : list tev) : list nat :=
  omap (fun e => match e with TGrant m' c => if decide (m' = m) then Some c else None | _ => None end) tr.
Definition free_locks (m : nat) (tr : list tev) : list nat :=
  omap (fun e => match e with TLocked m' c => if decide (m' = m) then Some c else None | _ => None end) tr.
