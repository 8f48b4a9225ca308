(** C20, C21: the coroutine scheduler and the coroutine mutex. *)
From Coq Require Import ZArith NArith Lia ZifyNat.
From stdpp Require Import numbers gmap list.
From Verif Require Import ListModel CoroModel CoroSpec CoroProofs.
Local Open Scope Z_scope.

(** ** C21: the scheduler *)
(** A program that keeps to the discipline never fails an assertion of the scheduler nor
    touches a dead coroutine, and at every point of its trace gets what it is owed. *)
Theorem C21_scheduler_partial ps acts tr o : run start ps acts = (tr, o) -> Forall kernel_ok ps -> all_along allowed ginit tr ->
  all_along owed ginit tr /\ o <> Fail /\ o <> Bad.
Proof. intros E K A. assert (R := run_from_start ps acts K). rewrite E in R. destruct (R A) as [R1 R2]. split; [done|]. by destruct o as [[]| | | | |]. Qed.
(** Coroutines run in the order in which they became ready, once for each time and with
    the result they were given; those still to run are the ready ones, each once. *)
Theorem C21_fifo_partial ps acts tr o : run start ps acts = (tr, o) -> Forall kernel_ok ps -> all_along allowed ginit tr ->
  readies tr = runs tr ++ g_pend (at_end ginit tr).
Proof.
  intros E K A. destruct (C21_scheduler_partial ps acts tr o E K A) as [R _]. exact (pend_readies tr ginit R).
Qed.
Theorem C21_pending_partial ps acts tr s ps' : run start ps acts = (tr, Ok (s, ps')) -> Forall kernel_ok ps -> all_along allowed ginit tr ->
  NoDup (map fst (g_pend (at_end ginit tr))) /\
  forall c, c ∈ map fst (g_pend (at_end ginit tr)) <-> g_st (at_end ginit tr) c = Ready.
Proof.
  intros E K A. destruct (reached _ _ _ _ _ E K A) as [I _]. split; [apply (ListProofs.i_rep _ _ _ (v_list _ _ I) 0)|apply I].
Qed.
(** Exactly one coroutine runs; so all others are dead, ready, or wait for something. *)
Theorem C21_one_runs_partial ps acts tr s ps' : run start ps acts = (tr, Ok (s, ps')) -> Forall kernel_ok ps -> all_along allowed ginit tr ->
  exists c, running s = Some c /\ forall d, g_st (at_end ginit tr) d = Running <-> d = c.
Proof.
  intros E K A. destruct (reached _ _ _ _ _ E K A) as [_ (c & Er & St & Un)]. exists c. split; [done|]. intros d. split; [apply Un|by intros ->].
Qed.
Theorem C21_resume_partial ps acts tr s ps' c d r : run start ps acts = (tr, Ok (s, ps')) -> Forall kernel_ok ps -> all_along allowed ginit tr ->
  running s = Some c -> g_st (at_end ginit tr) d = Waiting RPark -> fst (step s ps' (AResume d r)) = [TResume c d r; TReady d r].
Proof. intros E K A Er St. destruct (reached _ _ _ _ _ E K A) as [I _]. by eapply resume_step. Qed.
(** When the scheduler waits for ever, every readiness was served. *)
Theorem C21_idle_partial ps acts tr : run start ps acts = (tr, Idle) -> Forall kernel_ok ps -> all_along allowed ginit tr ->
  readies tr = runs tr /\ forall d, g_due (at_end ginit tr) d = false.
Proof.
  intros E K A. assert (F := C21_fifo_partial ps acts tr _ E K A). assert (R := run_from_start ps acts K). rewrite E in R. destruct (R A) as [_ [R1 R2]].
  cbn [fst] in R1. rewrite R1, app_nil_r in F. done.
Qed.

Definition no_due : nat -> bool := fun _ => false.
(** Two coroutines beside the main one: yields, a sleep, descriptors and a suspension. *)
Definition demo : list act :=
  [ASpawn 1; AYield; ASpawn 2; AWait 5 false true; AYield; ASleep; AWait 6 true true; ASuspend; AResume 2 7; AFinish; AYield; AFinish; ASuspend].
Definition demo_polls : list poll_answer :=
  [Answer [(5%nat, 1%N)] no_due; Answer [(9%nat, 3%N); (6%nat, 2%N)] (fun c => (c =? 0)%nat)].
Ltac one_waiter := intros ???; cbn; unfold upd; repeat (destruct (decide _)); congruence.
Global Instance kernel_ok_dec p : Decision (kernel_ok p).
Proof. unfold kernel_ok. apply _. Defined.
Example C21_demo : exists tr, run start demo_polls demo = (tr, Idle) /\ Forall kernel_ok demo_polls /\ all_along allowed ginit tr /\
  map (fun x => (fst x, Z.to_nat (snd x))) (runs tr) = [(0, 0); (1, 0); (0, 0); (1, 0); (2, 1); (1, 2); (0, 0); (2, 7); (0, 0)]%nat.
Proof.
  eexists. split; [vm_compute; reflexivity|]. split.
  { apply (bool_decide_unpack _). vm_compute. done. }
  split; [|vm_compute; done].
  cbn [all_along allowed]. repeat match goal with |- _ /\ _ => split end; try done; try (left; cbn; lia); try one_waiter; cbn; lia.
Qed.

(** With more coroutines, a poll forced after 103 switches reports the descriptor of a
    coroutine that an earlier poll already queued, since its event is removed only when it
    runs.  It is queued twice; the second time it is popped, the assertion of suspend fails.
    104 coroutines each wait for their own descriptor; all descriptors become readable. *)
Definition overload : list act := concat (map (fun i => [ASpawn i; AWait i false true]) (seq 1 104)) ++ repeat ASuspend 105.
Definition overload_polls : list poll_answer :=
  [Answer [] no_due; Answer (map (fun i => (i, 1%N)) (seq 1 104)) no_due; Answer [(104%nat, 1%N)] no_due].
Theorem C21_overload_refuted :
  Forall kernel_ok overload_polls /\ snd (run start overload_polls overload) = Fail /\
  filter (fun x => fst x = 104%nat) (readies (fst (run start overload_polls overload))) = [(104%nat, 1); (104%nat, 1)].
Proof. split; [|split; by vm_compute]. apply (bool_decide_unpack _). vm_compute. done. Qed.
(** Two coroutines that wait for the same descriptor, one to read and one to write: the
    descriptor becomes readable, the writer is woken, and the reader never. *)
Definition two_waiters : list act := [ASpawn 1; AWait 5 false true; AWait 5 true true; ASuspend].
Theorem C21_two_waiters_refuted : exists p,
  run start [Answer [(5%nat, 1%N)] no_due] two_waiters =
    ([TSpawn 0 1; TReady 0 0; TSusp 1 (RFd 5 1); TRun 0 0; TSusp 0 (RFd 5 2); TPoll p; TReady 0 1; TRun 0 1; TSusp 0 RPark], Idle) /\
  fired p = [(5%nat, 1%N)].
Proof. eexists. split; vm_compute; reflexivity. Qed.
(** Resuming a coroutine that is ready already trips an assertion, or queues it twice. *)
Theorem C21_double_resume_refuted : exists tr,
  run start [] [ASpawn 1; ASuspend; AResume 1 1; AResume 1 2; ASuspend; ASuspend] = (tr, Fail) /\ runs tr = [(0%nat, 0); (1%nat, 2)].
Proof. eexists. split; vm_compute; reflexivity. Qed.

(** ** C20: the mutex *)
(** Between one acquisition of a mutex and the next, the owner unlocks it. *)
Theorem C20_exclusion_partial ps acts t1 t2 t3 o m c d e e' :
  run start ps acts = (t1 ++ e :: t2 ++ e' :: t3, o) -> Forall kernel_ok ps -> all_along allowed ginit (t1 ++ e :: t2 ++ e' :: t3) ->
  acquires m c e -> acquires m d e' -> TUnlock m c ∈ t2.
Proof.
  intros E K A Hc Hd. destruct (C21_scheduler_partial _ _ _ _ E K A) as [O _].
  apply all_along_app in A as [_ [_ A]]. apply all_along_app in O as [_ [_ O]]. eapply held; [|exact Hd|exact O|exact A].
  by apply acquires_own.
Qed.
(** Waiters get the mutex in the order of their arrival. *)
Theorem C20_fifo_partial ps acts tr o m : run start ps acts = (tr, o) -> Forall kernel_ok ps -> all_along allowed ginit tr ->
  arrivals m tr = grants m tr ++ g_wait (at_end ginit tr) m.
Proof. intros E K A. destruct (C21_scheduler_partial _ _ _ _ E K A) as [O _]. exact (wait_arrivals m tr ginit O). Qed.
Theorem C20_waiting_partial ps acts tr s ps' m c : run start ps acts = (tr, Ok (s, ps')) -> Forall kernel_ok ps -> all_along allowed ginit tr ->
  c ∈ g_wait (at_end ginit tr) m <-> g_st (at_end ginit tr) c = Waiting (RMutex m).
Proof. intros E K A. destruct (reached _ _ _ _ _ E K A) as [I _]. apply I. Qed.
(** An unlock hands the mutex to the first waiter, and makes it ready. *)
Theorem C20_handover_partial ps acts tr s ps' c m : run start ps acts = (tr, Ok (s, ps')) -> Forall kernel_ok ps -> all_along allowed ginit tr ->
  running s = Some c ->
  fst (step s ps' (AUnlock m)) = TUnlock m c :: match g_wait (at_end ginit tr) m with [] => [] | d :: _ => [TGrant m d; TReady d 0] end.
Proof. intros E K A Er. destruct (reached _ _ _ _ _ E K A) as [I _]. by apply unlock_step. Qed.
(** A mutex never locked is free. *)
Theorem C20_first_lock c m ps : fst (step (set_running start (Some c)) ps (ALock m)) = [TLocked m c].
Proof. done. Qed.
(** But once it was locked it is never free again: unlocking with nobody waiting leaves the
    holder in place.  So lock and tryLock find a mutex free at most once ever, in any
    program whatsoever. *)
Theorem C20_free_once ps acts m : (length (free_locks m (fst (run start ps acts))) <= 1)%nat.
Proof. exact (proj1 (run_once m acts start ps)). Qed.
Theorem C20_relock_refuted :
  (exists tr, run start [] [ALock 0; AUnlock 0; ALock 0] = (tr, Idle) /\ all_along allowed ginit tr /\ free_locks 0 tr = [0%nat]) /\
  (exists tr s, run start [] [ALock 0; AUnlock 0; ATryLock 0] = (tr, Ok (s, [])) /\ free_locks 0 tr = [0%nat] /\ g_own (at_end ginit tr) 0 = None).
Proof. split; [eexists|eexists _, _]; (split; [vm_compute; reflexivity|]); repeat split. Qed.
(** Three coroutines on one mutex. *)
Definition mutex_demo : list act :=
  [ALock 3; ASpawn 1; ALock 3; ASpawn 2; ATryLock 3; ALock 3; AYield; AUnlock 3; AYield; AUnlock 3; AFinish; AYield; AUnlock 3].
Example C20_demo : exists tr s, run start [] mutex_demo = (tr, Ok (s, [])) /\ all_along allowed ginit tr /\
  free_locks 3 tr = [0%nat] /\ arrivals 3 tr = [1; 2]%nat /\ grants 3 tr = [1; 2]%nat /\ g_own (at_end ginit tr) 3 = None.
Proof.
  eexists _, _. split; [vm_compute; reflexivity|]. split; [|repeat split].
  cbn [all_along allowed]. repeat match goal with |- _ /\ _ => split end; try done; left; cbn; lia.
Qed.

Print Assumptions C21_scheduler_partial.
Print Assumptions C21_fifo_partial.
Print Assumptions C21_pending_partial.
Print Assumptions C21_one_runs_partial.
Print Assumptions C21_resume_partial.
Print Assumptions C21_idle_partial.
Print Assumptions C21_overload_refuted.
Print Assumptions C21_two_waiters_refuted.
Print Assumptions C21_double_resume_refuted.
Print Assumptions C20_exclusion_partial.
Print Assumptions C20_fifo_partial.
Print Assumptions C20_waiting_partial.
Print Assumptions C20_handover_partial.
Print Assumptions C20_first_lock.
Print Assumptions C20_free_once.
Print Assumptions C20_relock_refuted.
