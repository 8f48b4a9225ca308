(** C31: memory pool blocks never overlap. *)
From stdpp Require Import numbers list.
From Verif Require Import MemPoolModel MemPoolSpec MemPoolProofs.
Local Open Scope N_scope.

(** Any history of allocations (directly or through a cache nothing was returned
    to), resets and releases of the pool, with sizes below 2^63, and whatever
    malloc answers: the pool stops only because malloc failed - no assertion
    fails and nothing undefined happens - and the allocations made since the last
    reset lie inside the pool's blocks, are 16-byte aligned and pairwise disjoint.
    Missing from the full claim: sizes within 31 of 2^64 (refuted below). *)
Theorem mempool_layout_partial malloc_ok ops :
  forallb (fun o => match o with
                    | PAlloc n | PCacheAlloc _ n => n <? 2 ^ 63
                    | PCacheFree _ _ _ => false
                    | PReset | PFree => true end) ops = true ->
  pool_run malloc_ok (newMemPool, []) ops = MDie \/
  exists m live, pool_run malloc_ok (newMemPool, []) ops = MOk (m, live) /\
    layout_ok (mp_blocks m) live.
Proof.
  intros H.
  destruct (run_inv malloc_ok (newMemPool, []) ops) as [E|([m live] & E & Hi)].
  - exact (plain_respects malloc_ok (newMemPool, []) ops H eq_refl).
  - exact inv_new.
  - by left.
  - right. exists m, live. split; [done|]. exact (inv_layout (m, live) Hi).
Qed.
Print Assumptions mempool_layout_partial.

(** With memory returned to caches as well: the same for every client that
    respects [client_ok] at each step. *)
Theorem mempool_caches_layout_partial malloc_ok ops :
  client_respects malloc_ok (newMemPool, []) ops = true ->
  pool_run malloc_ok (newMemPool, []) ops = MDie \/
  exists m live, pool_run malloc_ok (newMemPool, []) ops = MOk (m, live) /\
    layout_ok (mp_blocks m) live.
Proof.
  intros H.
  destruct (run_inv malloc_ok (newMemPool, []) ops H inv_new) as [E|([m live] & E & Hi)];
    [by left|right]. exists m, live. split; [done|]. exact (inv_layout (m, live) Hi).
Qed.
Print Assumptions mempool_caches_layout_partial.

(** Resetting the pool while a cache holds memory makes the pool hand out the
    same bytes twice: two live allocations overlap. *)
Theorem mempool_reset_with_cache_refuted :
  exists ops m live,
    pool_run (fun _ => true) (newMemPool, []) ops = MOk (m, live) /\
    ~ pairwise_disjoint live.
Proof.
  exists [PCacheAlloc 0 64; PCacheFree 0 (0%nat, 0) 64; PReset; PAlloc 64; PCacheAlloc 0 64].
  eexists _, _. split; [vm_compute; reflexivity|].
  intros H. refine (H 0%nat 1%nat _ _ _ eq_refl eq_refl _); [done|].
  split; [done|]. exists 0. done.
Qed.
Print Assumptions mempool_reset_with_cache_refuted.

(** A cache does not look at sizes: it serves a request with memory that is too
    small for it, so that two live allocations overlap. *)
Theorem mempool_cache_size_refuted :
  exists ops m live,
    pool_run (fun _ => true) (newMemPool, []) ops = MOk (m, live) /\
    ~ pairwise_disjoint live.
Proof.
  exists [PCacheAlloc 0 32; PAlloc 32; PCacheFree 0 (0%nat, 0) 32; PCacheAlloc 0 64].
  eexists _, _. split; [vm_compute; reflexivity|].
  intros H. refine (H 0%nat 1%nat _ _ _ eq_refl eq_refl _); [done|].
  split; [done|]. exists 32. done.
Qed.
Print Assumptions mempool_cache_size_refuted.

(** A request within 31 of 2^64 is rounded up to zero: it "succeeds" and its
    memory is not inside the pool. *)
Theorem mempool_huge_size_refuted :
  exists m live,
    pool_run (fun _ => true) (newMemPool, []) [PAlloc (2 ^ 64 - 1)] = MOk (m, live) /\
    ~ Forall (inside (mp_blocks m)) live.
Proof.
  eexists _, _. split; [vm_compute; reflexivity|].
  intros H. apply Forall_cons in H as [(b & Hb & Hle) _]. injection Hb as <-.
  revert Hle. vm_compute. intros Hle. by apply Hle.
Qed.
Print Assumptions mempool_huge_size_refuted.

(** Histories that meet the hypotheses: several blocks, reuse after a reset, and
    memory going through a cache. *)
Example mempool_plain_example :
  let ops := [PAlloc 1000; PAlloc 100; PCacheAlloc 1 2000; PReset; PAlloc 10; PAlloc 1500; PAlloc 24] in
  forallb (fun o => match o with
                    | PAlloc n | PCacheAlloc _ n => n <? 2 ^ 63
                    | PCacheFree _ _ _ => false
                    | PReset | PFree => true end) ops = true /\
  exists m, pool_run (fun _ => true) (newMemPool, []) ops =
    MOk (m, [((2%nat, 1504), 24); ((2%nat, 0), 1500); ((0%nat, 0), 10)]).
Proof. cbn zeta. split; [done|]. eexists. vm_compute. done. Qed.

Example mempool_cache_example :
  let ops := [PCacheAlloc 0 64; PCacheAlloc 0 64; PCacheFree 0 (0%nat, 64) 64; PAlloc 40; PCacheAlloc 0 48] in
  client_respects (fun _ => true) (newMemPool, []) ops = true /\
  exists m, pool_run (fun _ => true) (newMemPool, []) ops =
    MOk (m, [((0%nat, 64), 48); ((0%nat, 128), 40); ((0%nat, 0), 64)]).
Proof. cbn zeta. split; [by vm_compute|]. eexists. vm_compute. done. Qed.
