(** Enum numbering (C47) and compile-time range loops (C59). *)
From Coq Require Import ZArith Lia ZifyBool.
From stdpp Require Import numbers list.
From Verif Require Import PrimModel PrimProofs CtLoopModel CtLoopSpec CtLoopProofs.
Local Open Scope Z_scope.

(** Options without a value are numbered from the value before, whenever the values are
    integer literals of the i64 range. *)
Theorem C47_numbering_partial : forall opts vs, Forall lit_ok opts -> bind_enum opts = Done vs -> numbered opts vs.
Proof. intros opts vs. apply number_ok. Qed.
Print Assumptions C47_numbering_partial.
(** The numbering succeeds exactly when every value is an integer literal or absent and no
    value reaches the largest i64. *)
Theorem C47_success_exact : forall opts, Forall lit_ok opts ->
  (exists vs, bind_enum opts = Done vs) <->
  OtherInit ∉ opts /\ forall vs, numbered opts vs -> Forall (fun v => v < 2 ^ 63 - 1) vs.
Proof.
  intros opts F. split.
  - intros [vs H]. split.
    + intros O. by apply (number_other opts 0 O vs).
    + intros vs' N. pose proof (number_ok _ _ _ F H) as [L I]. pose proof (number_bound _ _ _ H) as B.
      assert (vs' = vs) as ->; [|done]. destruct N as [L' I']. apply list_eq. intros i. induction i as [|i IH].
      * destruct (opts !! 0%nat) as [o|] eqn:E.
        { rewrite (I' _ _ E), (I _ _ E). done. }
        { apply lookup_ge_None in E. rewrite !lookup_ge_None_2 by lia. done. }
      * destruct (opts !! S i) as [o|] eqn:E.
        { rewrite (I' _ _ E), (I _ _ E), IH. done. }
        { apply lookup_ge_None in E. rewrite !lookup_ge_None_2 by lia. done. }
  - intros [O B]. by apply number_total.
Qed.
Print Assumptions C47_success_exact.
(** The largest value of i64, although it fits the enum, overflows the counter, even on the
    last option. *)
Theorem C47_last_value_refuted : bind_enum [NoInit; IntInit false 9223372036854775807] = Overflow.
Proof. by vm_compute. Qed.
Print Assumptions C47_last_value_refuted.
(** An explicit value that is not a bare literal (a sum, a character) stops the compiler. *)
Theorem C47_expression_refuted : forall pre rest, Forall lit_ok pre -> (forall vs, bind_enum (pre ++ OtherInit :: rest) <> Done vs).
Proof. intros pre rest _. apply number_other. apply elem_of_app. right. left. Qed.
Print Assumptions C47_expression_refuted.
(** A literal of the u64 range is kept as a negative number. *)
Theorem C47_unsigned_refuted : bind_enum [IntInit false 18446744073709551615; NoInit] = Done [-1; 0].
Proof. by vm_compute. Qed.
Print Assumptions C47_unsigned_refuted.
Example C47_ex : bind_enum [NoInit; IntInit false 5; NoInit; IntInit true 2; NoInit; NoInit; NoInit] = Done [0; 5; 6; -2; -1; 0; 1].
Proof. by vm_compute. Qed.
Example C47_ex_spec : numbered [NoInit; IntInit false 5; NoInit; IntInit true 2; NoInit] [0; 5; 6; -2; -1].
Proof.
  apply C47_numbering_partial; [|by vm_compute]. repeat (apply Forall_cons; split); try done; cbn; lia.
Qed.

(** Without a step the loop takes the values from start up to and without end, for all
    bounds. *)
Theorem C59_range_partial : forall start end_, - 2 ^ 63 <= start < 2 ^ 63 -> - 2 ^ 63 <= end_ < 2 ^ 63 ->
  exists fuel l, range_loop fuel start end_ NoStep = Some (Done l) /\ progression start end_ 1 l /\ range_reports NoStep = false.
Proof.
  intros start end_ Hs He. exists (S (Z.to_nat (end_ - start))). destruct (loop_ok (Z.to_nat (end_ - start)) start end_ 1) as (l & H & P); [lia..|].
  by exists l.
Qed.
Print Assumptions C59_range_partial.
(** With a positive step too, unless the last addition overflows... *)
Theorem C59_step_partial : forall start end_ s, - 2 ^ 63 <= start < 2 ^ 63 -> 0 < s -> end_ <= 2 ^ 63 - s ->
  exists fuel l, range_loop fuel start end_ (IntStep s) = Some (Done l) /\ progression start end_ s l.
Proof. intros start end_ s Hs P He. exists (S (Z.to_nat (end_ - start))). by apply loop_ok; try lia. Qed.
Print Assumptions C59_step_partial.
(** ... but every explicit step is rejected: an integer one with an error (the test is
    inverted), any other one with an assertion. *)
Theorem C59_step_refuted : forall s, s <> NoStep -> range_reports s = true \/ forall fuel a b, range_loop fuel a b s = Some Todo.
Proof. intros [|v|] H; [done|by left|by right]. Qed.
Print Assumptions C59_step_refuted.
(** A step that is not positive is not rejected as such: the loop never delivers, and with
    step 0 the compiler does not stop. *)
Theorem C59_backward_refuted : forall start end_ s fuel l, s <= 0 -> start < end_ -> range_loop fuel start end_ (IntStep s) <> Some (Done l).
Proof. intros start end_ s fuel l. apply loop_down. Qed.
Print Assumptions C59_backward_refuted.
Theorem C59_zero_step_refuted : forall start end_ fuel, - 2 ^ 63 <= start < 2 ^ 63 -> start < end_ -> range_loop fuel start end_ (IntStep 0) = None.
Proof. intros start end_ fuel R H. by apply loop_zero. Qed.
Print Assumptions C59_zero_step_refuted.
(** A downward range with negative step, which the run-time loop supports, gives nothing. *)
Theorem C59_downward_empty : forall start end_ s fuel, end_ <= start -> range_loop (S fuel) start end_ (IntStep s) = Some (Done []).
Proof. intros start end_ s fuel H. cbn. by replace (start <? end_) with false by lia. Qed.
Print Assumptions C59_downward_empty.
Theorem C59_overflow_refuted : range_loop 3 (2 ^ 63 - 2) (2 ^ 63 - 1) (IntStep 5) = Some Overflow.
Proof. by vm_compute. Qed.
Print Assumptions C59_overflow_refuted.
Example C59_ex : range_loop 9 (-2) 4 NoStep = Some (Done [-2; -1; 0; 1; 2; 3]) /\ range_loop 9 0 10 (IntStep 3) = Some (Done [0; 3; 6; 9]).
Proof. by vm_compute. Qed.
