(** C36: sorted lookups; C48: order of enum options. *)
From Coq Require Import String.
From stdpp Require Import numbers list.
From Verif Require Import SearchModel SearchSpec SearchProofs.
Local Open Scope Z_scope.

(** Whatever sorted permutation qsort produces, the lookup finds a member with the
    name if there is one and reports none otherwise. *)
Theorem C36_lookup_finds_members : forall D (members sorted : list (list N * D)) name,
  Z.of_nat (length members) < 2 ^ 31 ->
  Forall (fun m => c_name (fst m)) members -> c_name name ->
  qsort_result (fun a b => strcmp (fst a) (fst b)) members sorted ->
  (exists m, findNamedTypeMemberInContainer sorted name = Some (Some m) /\ m ∈ members /\ fst m = name) \/
  (findNamedTypeMemberInContainer sorted name = Some None /\ forall m, m ∈ members -> fst m <> name).
Proof. intros D. exact find_ok. Qed.

(** [strcmp] orders names lexicographically. *)
Theorem C36_strcmp_order : forall a b, c_name a -> c_name b ->
  (strcmp a b = 0 <-> a = b) /\ (strcmp a b < 0 <-> name_lt a b) /\ (0 < strcmp a b <-> name_lt b a).
Proof.
  intros a b Ha Hb. split; [|split].
  - split; [by apply strcmp_zero|]. intros ->. apply strcmp_refl.
  - by apply strcmp_lt.
  - by apply strcmp_gt.
Qed.

(** The table of builtin macros is sorted, so every name in it is found with its
    own entry and every other name is not. *)
Theorem C36_builtin_macros : forall name, c_name name ->
  (exists m, findBuiltinMacro name = Some (Some m) /\ m ∈ builtinMacros /\ fst m = name) \/
  (findBuiltinMacro name = Some None /\ forall m, m ∈ builtinMacros -> fst m <> name).
Proof.
  intros name Hn. apply (find_ok builtinMacros builtinMacros); [by vm_compute| |done|].
  - unfold c_name. rewrite Forall_forall. intros m Hm. rewrite Forall_forall. intros c Hc.
    assert (H : forallb (fun m => forallb (fun c => (0 <? c) && (c <? 256))%N (fst m)) builtinMacros = true)
      by by vm_compute.
    rewrite forallb_forall in H. specialize (H m (proj1 (elem_of_list_In _ _) Hm)).
    rewrite forallb_forall in H. specialize (H c (proj1 (elem_of_list_In _ _) Hc)).
    apply andb_true_iff in H as [H1%N.ltb_lt H2%N.ltb_lt]. done.
  - split; [done|]. intros i j x y Hij Hx Hy.
    assert (H : forallb (fun j => forallb (fun i =>
               match builtinMacros !! i, builtinMacros !! j with
               | Some x, Some y => strcmp (fst x) (fst y) <? 0 | _, _ => true end) (seq 0 j)) (seq 0 42) = true)
      by by vm_compute.
    rewrite forallb_forall in H.
    assert (Hj : In j (seq 0 42)).
    { apply in_seq. apply lookup_lt_Some in Hy. change (length builtinMacros) with 42%nat in Hy. split; [apply Nat.le_0_l|done]. }
    specialize (H j Hj). rewrite forallb_forall in H.
    assert (Hi : In i (seq 0 j)). { apply in_seq. split; [apply Nat.le_0_l|done]. }
    specialize (H i Hi). rewrite Hx, Hy in H. apply Z.ltb_lt in H. by apply Z.lt_le_incl.
Qed.

(** Values that span less than 2^31 end up in order. Missing: larger spans. *)
Theorem C48_enum_order_partial : forall lo vals sorted,
  Forall (fun v => lo <= v < lo + 2 ^ 31) vals ->
  qsort_result compareEnumOptionsByValue vals sorted ->
  forall i j x y, (i < j)%nat -> sorted !! i = Some x -> sorted !! j = Some y -> x <= y.
Proof. exact enum_sorted. Qed.

(** With larger spans a sorted output may be in descending order, and different
    values may compare equal. *)
Theorem C48_enum_order_refuted : exists vals sorted x y,
  qsort_result compareEnumOptionsByValue vals sorted /\
  sorted !! 0%nat = Some x /\ sorted !! 1%nat = Some y /\ y < x.
Proof.
  exists [0; 2 ^ 31], [2 ^ 31; 0], (2 ^ 31), 0. split; [|by vm_compute]. split; [apply perm_swap|].
  intros i j x y Hij Hx Hy.
  destruct i as [|[|i]], j as [|[|j]]; cbn in Hx, Hy; simplify_eq; try done; exfalso; lia.
Qed.
Theorem C48_different_values_equal_refuted :
  compareEnumOptionsByValue (2 ^ 32) 0 = 0 /\ 2 ^ 32 <> 0.
Proof. by vm_compute. Qed.
(** The comparison is not even a consistent order: qsort's behaviour is undefined. *)
Theorem C48_not_transitive_refuted : exists a b c,
  compareEnumOptionsByValue a b < 0 /\ compareEnumOptionsByValue b c < 0 /\ 0 < compareEnumOptionsByValue a c.
Proof. exists 0, (2 ^ 30), (2 ^ 31 - 1 + 2 ^ 30). by vm_compute. Qed.

Print Assumptions C36_lookup_finds_members.
Print Assumptions C36_strcmp_order.
Print Assumptions C36_builtin_macros.
Print Assumptions C48_enum_order_partial.
Print Assumptions C48_enum_order_refuted.
Print Assumptions C48_different_values_equal_refuted.
Print Assumptions C48_not_transitive_refuted.

Example C36_ex :
  let b := bytes_of_string in
  findBuiltinMacro (b "mk_str"%string) = Some (Some (b "mk_str"%string, 29%nat)) /\
  findBuiltinMacro (b "mk_strx"%string) = Some None /\
  binarySearch (fun x => 7 - x) [1; 3; 7; 9; 12] = Some 2.
Proof. by vm_compute. Qed.
Example C48_ex :
  qsort_result compareEnumOptionsByValue [5; -3; 1000] [-3; 5; 1000].
Proof.
  split; [apply perm_swap|]. intros i j x y Hij Hx Hy.
  destruct i as [|[|[|i]]], j as [|[|[|j]]]; cbn in Hx, Hy; simplify_eq; try done; exfalso; lia.
Qed.
