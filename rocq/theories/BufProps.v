(** C32: dynamic array and string builder keep their contents. *)
From stdpp Require Import numbers list.
From Verif Require Import BufModel BufSpec BufProofs.

(** Any history of pushes, pops and resizes of a dynamic array, starting empty or
    with any size, never leaves the allocated memory and behaves like the
    mathematical sequence. *)
Theorem dynarray_is_sequence {V} (ops : list (da_op V)) :
  exists a rs, da_run newDynArray ops = BOk (a, rs) /\
    da_spec_run [] ops (take (da_size a) (da_mem a)) rs /\
    da_size a <= length (da_mem a).
Proof.
  destruct (da_run_ok newDynArray ops da_new_inv) as (a & rs & E & [H1 H2] & H).
  exists a, rs. split; [exact E|]. split; [exact H|]. by rewrite H1.
Qed.
Print Assumptions dynarray_is_sequence.

Theorem dynarray_with_size_is_sequence {V} n (ops : list (da_op V)) :
  exists a rs, da_run (newDynArrayWithSize n) ops = BOk (a, rs) /\
    da_spec_run (replicate n None) ops (take (da_size a) (da_mem a)) rs /\
    da_size a <= length (da_mem a).
Proof.
  destruct (da_run_ok (newDynArrayWithSize n) ops (da_new_size_inv n)) as (a & rs & E & [H1 H2] & H).
  exists a, rs. split; [exact E|]. split.
  - replace (replicate n None) with (contents (V := V) (newDynArrayWithSize n)); [exact H|].
    unfold contents. cbn. rewrite take_ge; [done|]. by rewrite replicate_length.
  - by rewrite H1.
Qed.
Print Assumptions dynarray_with_size_is_sequence.

(** The pointer returned by a push is not the new element: it is one past it. *)
Theorem dynarray_push_result_refuted :
  exists (a : dynarr N) v a' i, pushOnDynArray a v = BOk (a', i) /\ da_mem a' !! i <> Some (Some v).
Proof. exists newDynArray, 7%N. eexists _, _. split; [vm_compute; reflexivity|]. by vm_compute. Qed.
Print Assumptions dynarray_push_result_refuted.

(** String builder: every history that avoids the two misuses described by
    [sb_guard] never leaves the memory, terminates, each release returns the
    NUL-terminated concatenation of what was appended, and the builder holds the
    concatenation of what was appended since.
    Missing: the histories excluded by [sb_guard], refuted below. *)
Theorem string_builder_concatenates_partial ops :
  sb_guard PhNew ops = true ->
  exists sb rs, sb_run stringBuilderNew ops = BOk (sb, rs) /\
    Forall2 returns_match rs (sb_returns None ops) /\
    match sb_data sb with
    | Some d => take (sb_size sb) d = map Some (sb_text [] ops)
    | None => sb_text [] ops = []
    end.
Proof. intros H. exact (sb_run_ok PhNew stringBuilderNew None ops H sb_new_abs). Qed.
Print Assumptions string_builder_concatenates_partial.

(** A builder that was released, then got the empty text and then some text
    doubles a capacity of zero for ever: whatever the number of doublings. *)
Theorem string_builder_hang_refuted :
  exists ops, sb_run stringBuilderNew ops = BHang /\
    (forall fuel, sb_grow_loop fuel 0 1 = None).
Proof.
  exists [SAppend [65%N]; SRelease; SAppend []; SAppend [66%N]]. split; [by vm_compute|].
  intros fuel. apply sb_grow_loop_hang. lia.
Qed.
Print Assumptions string_builder_hang_refuted.

(** Releasing a new builder to which nothing was appended returns memory that was
    never written, not the empty string. *)
Theorem string_builder_release_empty_refuted :
  exists sb mem, sb_run stringBuilderNew [SRelease] = BOk (sb, [Some mem]) /\
    ~ holds_cstring mem [].
Proof.
  eexists _, _. split; [vm_compute; reflexivity|]. intros [rest H]. discriminate H.
Qed.
Print Assumptions string_builder_release_empty_refuted.

Example dynarray_example :
  exists a, da_run newDynArray [DPush 1%N; DPush 2%N; DPop; DPush 3%N; DPush 4%N; DPush 5%N; DPush 6%N; DResize 2; DPop]
    = BOk (a, [None; None; Some (Some 2%N); None; None; None; None; None; Some (Some 3%N)]) /\
  take (da_size a) (da_mem a) = [Some 1%N].
Proof. eexists. split; [vm_compute; reflexivity|]. done. Qed.
Example string_builder_example :
  let ops := [SAppend (repeat 65%N 30); SAppend [66%N; 67%N; 68%N]; SRelease; SAppend [69%N]; SAppend []; SAppend [70%N; 71%N]] in
  sb_guard PhNew ops = true /\ sb_text [] ops = [69%N; 70%N; 71%N].
Proof. by vm_compute. Qed.
