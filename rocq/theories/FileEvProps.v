(** C23: registration of file events. *)
From Coq Require Import ZArith NArith.
From stdpp Require Import numbers gmap list.
From Verif Require Import FileEvModel FileEvSpec FileEvProofs.

(** After every history of registrations (also failing ones), removals and resizings on
    descriptors that are not negative: each mask is the union of the interests registered
    and not removed, [maxfd] is the largest descriptor with an interest or -1, and the
    kernel is asked for exactly the reading and writing interests.  No operation touches
    memory outside the table. *)
Theorem C23_interests (n : nat) (os : list fop) : Forall op_ok os ->
  exists l bs, frun (aeCreateEventLoop n) os = FOk (l, bs) /\
    let f := spec_run (fun _ => 0%N) os bs in
    (forall fd, (0 <= fd)%Z -> aeGetFileEvents l fd = FOk (f fd)) /\
    largest f (maxfd l) /\
    (forall i, kern l !! i = if decide (f (Z.of_nat i) = 0%N) then None else Some (N.land (f (Z.of_nat i)) 3)).
Proof.
  intros H. destruct (run_ok os _ _ H (init_inv n)) as (l & bs & E & [I1 I2 I3]). exists l, bs. split; [done|].
  cbv zeta. split; [|split; [done|]].
  - intros fd Hfd. unfold aeGetFileEvents. rewrite I1. unfold mask_at, setsize. destruct (_ <=? fd)%Z eqn:E1.
    + f_equal. replace (fd <? 0)%Z with false by lia. symmetry. apply nth_beyond. lia.
    + by replace (fd <? 0)%Z with false by lia.
  - intros i. rewrite I3, !I1. unfold mask_at. replace (Z.of_nat i <? 0)%Z with false by lia. rewrite Nat2Z.id.
    destruct (nth i (masks l) 0 =? 0)%N eqn:E1; [rewrite decide_True by lia|rewrite decide_False by lia]; done.
Qed.
Print Assumptions C23_interests.
(** A successful registration is one for a descriptor inside the table that the kernel
    accepts. *)
Theorem C23_success (n : nat) (os : list fop) (l : floop) (bs : list bool) (fd : Z) (m : N) (ok : bool) :
  Forall op_ok os -> frun (aeCreateEventLoop n) os = FOk (l, bs) -> (0 <= fd)%Z -> m <> 0%N ->
  exists l', aeCreateFileEvent l fd m ok = FOk (l', ok && (fd <? setsize l)%Z).
Proof.
  intros H E Hfd Hm. destruct (run_ok os _ _ H (init_inv n)) as (l1 & bs1 & E1 & I). rewrite E in E1. injection E1 as <- <-.
  destruct (step_ok l _ (FCreate fd m ok) (conj Hfd Hm) I) as (l' & b & E1 & _). exists l'. cbn [fstep] in E1. rewrite E1.
  do 2 f_equal. unfold aeCreateFileEvent in E1. destruct (setsize l <=? fd)%Z eqn:Es.
  - injection E1 as <- <-. replace (fd <? setsize l)%Z with false by lia. by rewrite andb_false_r.
  - replace (fd <? setsize l)%Z with true by lia. rewrite andb_true_r. destruct (fd <? 0)%Z; [done|].
    unfold aeApiAddEvent in E1. destruct ok; repeat case_match; simplify_eq; done.
Qed.
Print Assumptions C23_success.
(** With a negative descriptor memory outside the table is read. *)
Theorem C23_negative_refuted : aeDeleteFileEvent (aeCreateEventLoop 4) (-1) 1 = FBad.
Proof. by vm_compute. Qed.
Print Assumptions C23_negative_refuted.

Definition C23_ops : list fop := [FCreate 2 1 true; FCreate 5 2 true; FCreate 5 1 true; FCreate 9 1 true; FDelete 5 2; FDelete 5 1; FResize 3].
Example C23_ex : Forall op_ok C23_ops /\
  exists l, frun (aeCreateEventLoop 8) C23_ops = FOk (l, [true; true; true; false; true; true; true]) /\ maxfd l = 2%Z /\
  masks l = [0; 0; 1]%N /\ spec_run (fun _ => 0%N) C23_ops [true; true; true; false; true; true; true] 2%Z = 1%N.
Proof. split; [by repeat constructor|]. vm_compute. eexists. by repeat split. Qed.
