(** C03: the intrusive list is a queue. *)
From Coq Require Import NArith.
From stdpp Require Import numbers gmap list.
From Verif Require Import ListModel ListSpec ListProofs.

(** Any number of lists sharing any set of items, any history that pushes an item only
    while it is in no list: every answer is the one of first-in first-out queues, and
    the iterator of each list then yields its queue in order. *)
Theorem C03_queue (items : gset nat) (os : list op) :
  (N.of_nat (stdpp.base.size items) < 2 ^ 64)%N -> proper items (fun _ => []) os ->
  exists s', run (fresh_links items, fun _ => empty_list) os = LOk (s', (spec_run (fun _ => []) os).2) /\
    forall i, walk s'.1 (length ((spec_run (fun _ => []) os).1 i)) (l_head (s'.2 i)) = Some ((spec_run (fun _ => []) os).1 i).
Proof. apply queue_ok. Qed.
Print Assumptions C03_queue.

(** The assertion in push does not protect the last item of a list: pushing it again is
    accepted and makes a cycle, the traversal never ends. *)
Example C03_repush_tail :
  match run (fresh_links {[1; 2]}, fun _ => empty_list) [Push 0 1; Push 0 2; Push 0 2] with
  | LOk (s, _) => walk s.1 1000 (l_head (s.2 0)) = None
  | _ => False
  end.
Proof. by vm_compute. Qed.
Example C03_ex :
  let os := [Push 0 1; Push 0 2; Push 1 3; Pop 0; Push 1 1; Size 1; Pop 1; Pop 0; Pop 0; Empty 0; Back 1] in
  (spec_run (fun _ => []) os).2 = [OUnit; OUnit; OUnit; OItem (Some 1); OUnit; OSize 2; OItem (Some 3);
    OItem (Some 2); OItem None; OBool true; OItem (Some 1)] /\ proper {[1; 2; 3]} (fun _ => []) os.
Proof.
  assert (P : forall (j a : nat) (q : nat -> list nat), (a ∈ q j -> False) <-> a ∉ q j) by done.
  split; [by vm_compute|]. cbn [proper spec_step fst snd].
  repeat split; try set_solver; intros [|[|j]]; vm_compute; intros X; repeat (apply elem_of_cons in X as [X|X]; [done|]); by apply elem_of_nil in X.
Qed.
