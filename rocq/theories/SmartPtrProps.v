(** C15: reference counted objects. *)
From Coq Require Import NArith.
From stdpp Require Import numbers list.
From Verif Require Import SmartPtrModel SmartPtrSpec SmartPtrProofs.

(** For every well-behaved program of fewer than 2^32 - 2 actions, with destructors
    that release the references held by the object: no step faults, no destructor runs
    twice, an object has been destroyed exactly when nobody refers to it, and exactly
    then its block has been given back. *)
Theorem C15_destroyed_iff_unreferenced_partial (acts : list action) (r : pres (heap * list ref)) :
  start acts = Some r -> (N.of_nat (length acts) < 2 ^ 32 - 2)%N ->
  exists h own, r = POk (h, own) /\ List.NoDup (h_log h) /\
    forall i c, h_cells h !! i = Some c ->
      (In i (h_log h) <-> unreferenced h own i) /\ (In i (h_log h) <-> c_live c = false).
Proof.
  intros Hs Hl. destruct (history_ok acts 1 _ _ r good_start Hs) as (h & own & -> & G); [lia|].
  exists h, own. split; [done|]. split; [apply G|]. intros i c Hc. split.
  - eapply good_meaning; [done|]. by eapply lookup_lt_Some.
  - rewrite (inv_log _ _ (g_inv _ _ _ G)). split.
    + intros (d & Hd & H0). rewrite Hc in Hd. injection Hd as <-. by eapply (g_dead _ _ _ G).
    + intros Hd. exists c. split; [done|]. destruct (N.eq_dec (c_refs c) 0) as [|Hn]; [done|].
      destruct (inv_live _ _ (g_inv _ _ _ G) i c Hc Hn) as [Hl' _]. congruence.
Qed.
Print Assumptions C15_destroyed_iff_unreferenced_partial.
(** Such a program that creates no cycles and ends up owning nothing has destroyed
    everything. *)
Theorem C15_no_leak_partial (acts : list action) (h : heap) (own : list ref) :
  start acts = Some (POk (h, own)) -> (N.of_nat (length acts) < 2 ^ 32 - 2)%N ->
  Forall no_store acts -> (forall i, ~ In (Some i) own) ->
  forall i, i < length (h_cells h) -> In i (h_log h).
Proof.
  intros Hs Hl Hns Ho. destruct (history_ok acts 1 _ _ _ good_start Hs) as (h' & own' & [= <- <-] & G); [lia|].
  apply (no_leak _ _ _ G); [|done].
  eapply history_ordered; [apply good_start| |done| |done]; [lia|]. split; [|done]. intros i [?|[]]. done.
Qed.
Print Assumptions C15_no_leak_partial.

(** The counter has 32 bits: after 2^32 acquisitions one release destroys an object that
    is still referenced. *)
Theorem C15_overflow_refuted :
  exists acts h own, start acts = Some (POk (h, own)) /\ In O (h_log h) /\ In (Some O) own.
Proof. apply (too_many (N.to_nat (2 ^ 32))). apply N2Nat.id. Qed.
Print Assumptions C15_overflow_refuted.
(** A cycle keeps a reference to itself and is not destroyed. *)
Example C15_cycle_example :
  exists h own, start [New []; Copy (Some O); Store O (Some O); Release (Some O)] = Some (POk (h, own)) /\
    own = [None] /\ h_log h = [].
Proof. vm_compute. eexists _, _. by split. Qed.

(** A list of two nodes and a shared value: dropping the head frees the chain, not the
    shared value. *)
Example C15_example :
  exists h own, start [New []; Copy (Some 0); New [Some 0]; New [Some 1]; Release (Some 2)] = Some (POk (h, own)) /\
    h_log h = [1; 2] /\ own = [Some 0; None].
Proof. vm_compute. eexists _, _. by split. Qed.
