(** C04: the vector. *)
From stdpp Require Import numbers list.
From Verif Require Import VectorModel VectorSpec VectorProofs.

(** For every initial capacity and history: all answers, the assertions that fire and the
    final contents are those of the sequence, and no access leaves the storage, exactly
    when no push happens on a full vector of capacity 0 or 1. *)
Theorem C04_exact_partial {T} (c : nat) (os : list (op T)) :
  agrees (run (init c) os) (spec_run [] os) <-> roomy [] c os.
Proof. apply (run_exact os (init c) [] (init_rep c)). Qed.
Print Assumptions C04_exact_partial.
(** In particular every history is right if no capacity below 2 is ever asked for. *)
Theorem C04_capacity_2_partial {T} (c : nat) (os : list (op T)) :
  2 <= c -> never_small [] os -> agrees (run (init c) os) (spec_run [] os).
Proof. intros Hc H. apply C04_exact_partial. by apply never_small_roomy. Qed.
Print Assumptions C04_capacity_2_partial.
(** A push on a full vector of capacity 0 or 1 writes outside the storage. *)
Theorem C04_overflow {T} (v : vec T) (l : list T) (x : T) : reached v l ->
  push v x = VOob <-> length l = v_capacity v /\ v_capacity v < 2.
Proof.
  intros R%reached_rep. assert (G := push_rep v l x R). destruct (decide _) as [H|H]; [tauto|].
  destruct G as (v' & E & _). rewrite E. split; [done|tauto].
Qed.
Print Assumptions C04_overflow.
(** The derived operations, on every vector a history can reach. *)
Theorem C04_map {T U} (f : T -> U) (v : vec T) (l : list T) : reached v l ->
  exists w, vmap f v = VOk w /\ elems w = VOk (map f l).
Proof.
  intros R%reached_rep. unfold vmap. rewrite (elems_rep v l R).
  destruct (push_all_rep (map f l) (init 16) [] (init_rep 16)) as (w & E & Rw); [by cbn; repeat constructor|].
  exists w. split; [done|]. by apply elems_rep.
Qed.
Print Assumptions C04_map.
Theorem C04_filter {T} (f : T -> bool) (v : vec T) (l : list T) : reached v l ->
  exists w, vfilter f v = VOk w /\ elems w = VOk (filter (fun x => Is_true (f x)) l).
Proof.
  intros R%reached_rep. unfold vfilter. rewrite (elems_rep v l R).
  destruct (push_all_rep (filter (fun x => Is_true (f x)) l) (init 16) [] (init_rep 16)) as (w & E & Rw); [by cbn; repeat constructor|].
  exists w. split; [done|]. by apply elems_rep.
Qed.
Print Assumptions C04_filter.
(** indexOf gives the first position holding an equal element, null if there is none. *)
Theorem C04_indexOf {T} (eq : T -> T -> bool) (v : vec T) (l : list T) (x : T) : reached v l ->
  exists r, indexOf eq v x = VOk r /\
    match r with
    | Some j => (exists y, l !! j = Some y /\ eq x y = true) /\ forall k y, k < j -> l !! k = Some y -> eq x y = false
    | None => forall y, y ∈ l -> eq x y = false
    end.
Proof.
  intros R%reached_rep. unfold indexOf. rewrite (r_size _ _ R).
  destruct (find_rep (eq x) v l R (length l) 0 eq_refl) as (r & E & P). rewrite E. eexists. split; [done|].
  destruct r as [[j y]|]; cbn.
  - destruct P as (_ & P1 & P2 & P3). split; [by exists y|]. intros k z Hk. apply P3. split; [apply Nat.le_0_l|done].
  - intros y Hy. apply elem_of_list_lookup in Hy as [k Hy]. apply (P k); [apply Nat.le_0_l|done].
Qed.
Print Assumptions C04_indexOf.
Theorem C04_find {T} (p : T -> bool) (v : vec T) (l : list T) : reached v l ->
  exists r, vfind p v = VOk r /\
    match r with
    | Some x => exists j, l !! j = Some x /\ p x = true /\ forall k y, k < j -> l !! k = Some y -> p y = false
    | None => forall y, y ∈ l -> p y = false
    end.
Proof.
  intros R%reached_rep. unfold vfind. rewrite (r_size _ _ R).
  destruct (find_rep p v l R (length l) 0 eq_refl) as (r & E & P). rewrite E. eexists. split; [done|].
  destruct r as [[j y]|]; cbn.
  - destruct P as (_ & P1 & P2 & P3). exists j. split; [done|split; [done|]]. intros k z Hk. apply P3. split; [apply Nat.le_0_l|done].
  - intros y Hy. apply elem_of_list_lookup in Hy as [k Hy]. apply (P k); [apply Nat.le_0_l|done].
Qed.
Print Assumptions C04_find.

(** A vector created with capacity 1 overflows at the second push; so does one shrunk
    after its only push. *)
Theorem C04_overflow_refuted :
  run (init 1) [Push 10; Push 20] = ([OUnit], VOob) /\
  run (init 16) [Push 10; Shrink; Push 20] = ([OUnit; OUnit], VOob) /\
  run (init 16) [Shrink; Push 20] = ([OUnit], VOob).
Proof. by vm_compute. Qed.
Print Assumptions C04_overflow_refuted.

Example C04_ex :
  let os := [Push 1; Push 2; Push 3; Shift; Get 1; Set_ 0 9; Resize 2; Push 4; Push 5; Pop; Size; Get 2] in
  never_small [] os /\ spec_run [] os = ([OUnit; OUnit; OUnit; OVal 1; OVal 3; OUnit; OUnit; OUnit; OUnit; OVal 5; ONum 3; OVal 4],
    Some [9; 3; 4]).
Proof. vm_compute. by repeat split. Qed.
Example C04_reached_ex : exists v, reached v [1; 3; 4].
Proof.
  eexists. exists 2, [Push 1; Push 3; Push 4]. eexists. split; [|split; by vm_compute].
  apply never_small_roomy; [by repeat constructor|by vm_compute].
Qed.
