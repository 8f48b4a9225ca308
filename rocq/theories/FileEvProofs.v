(** Proofs about file event registration. *)
From Coq Require Import ZArith NArith Lia ZifyBool ZifyNat ZifyN.
From stdpp Require Import numbers gmap list.
From Verif Require Import FileEvModel FileEvSpec.

Definition mask_at (l : floop) (d : Z) : N := if (d <? 0)%Z then 0%N else nth (Z.to_nat d) (masks l) 0%N.

Record inv (l : floop) (f : interest) : Prop := {
  inv_mask : forall d, f d = mask_at l d;
  inv_max : largest f (maxfd l);
  inv_kern : forall i, kern l !! i = (if (nth i (masks l) 0 =? 0)%N then None else Some (epoll_bits (nth i (masks l) 0%N)));
}.

Lemma nth_insert (ms : list N) i j x : (i < length ms)%nat -> nth j (<[i := x]> ms) 0%N = if decide (j = i) then x else nth j ms 0%N.
Proof.
  intros H. rewrite !nth_lookup. destruct (decide (j = i)) as [-> |Hn]; [by rewrite list_lookup_insert|by rewrite list_lookup_insert_ne].
Qed.
Lemma nth_beyond (ms : list N) i : (length ms <= i)%nat -> nth i ms 0%N = 0%N.
Proof. apply nth_overflow. Qed.
Lemma last_used_spec ms n : (forall d, (last_used ms n < d < Z.of_nat n)%Z -> nth (Z.to_nat d) ms 0%N = 0%N) /\
  (last_used ms n = -1 \/ (0 <= last_used ms n < Z.of_nat n)%Z /\ nth (Z.to_nat (last_used ms n)) ms 0%N <> 0%N)%Z.
Proof.
  induction n as [|n [IH1 IH2]]; cbn [last_used].
  - split; [intros; lia|by left].
  - unfold AE_NONE. destruct (nth n ms 0 =? 0)%N eqn:E.
    + split.
      * intros d Hd. destruct (decide (d = Z.of_nat n)) as [-> |]; [rewrite Nat2Z.id; lia|]. apply IH1. lia.
      * destruct IH2 as [H|[H1 H2]]; [by left|right]. split; [lia|done].
    + split; [intros; lia|]. right. rewrite Nat2Z.id. lia.
Qed.

Lemma lor_nonzero a b : b <> 0%N -> N.lor a b <> 0%N.
Proof. intros H E. apply N.lor_eq_0_iff in E. tauto. Qed.
Lemma testbit1 m : (N.land m AE_WRITABLE =? 0)%N = negb (N.testbit m 1).
Proof.
  unfold AE_WRITABLE. destruct (N.testbit m 1) eqn:E; cbn [negb].
  - apply N.eqb_neq. intros H. assert (X : N.testbit (N.land m 2) 1 = true) by (rewrite N.land_spec, E; done). by rewrite H in X.
  - apply N.eqb_eq. apply N.bits_inj. intros i. rewrite N.land_spec, N.bits_0.
    destruct (N.eq_dec i 1) as [-> |Hi]; [by rewrite E|]. change 2%N with (2 ^ 1)%N.
    rewrite N.pow2_bits_false by lia. apply andb_false_r.
Qed.

Lemma inv_ext l f g : (forall d, g d = f d) -> inv l f -> inv l g.
Proof.
  intros E [Im [I1 I2] Ik]. split; [| |done].
  - intros d. by rewrite E.
  - split; [intros d Hd; rewrite E; by apply I1|by rewrite E].
Qed.
Lemma step_ok l f o : op_ok o -> inv l f -> exists l' b, fstep l o = FOk (l', b) /\ inv l' (spec_step f o b).
Proof.
  intros Ho [Im Imax Ik]. destruct o as [fd m ok|fd m|n]; cbn [fstep op_ok] in *.
  - destruct Ho as [Hfd Hm]. unfold aeCreateFileEvent. destruct (setsize l <=? fd)%Z eqn:Es.
    { exists l, false. split; [done|]. apply (inv_ext l f); [|by split]. intros d. cbn. by destruct (decide (d = fd)). }
    replace (fd <? 0)%Z with false by lia. unfold setsize in Es.
    set (i := Z.to_nat fd). assert (Hi : (i < length (masks l))%nat) by lia.
    set (old := nth i (masks l) AE_NONE). assert (Fold : f fd = old).
    { rewrite Im. unfold mask_at. by replace (fd <? 0)%Z with false by lia. }
    assert (A : aeApiAddEvent l i old m ok = if ok then FOk (Some (<[i := epoll_bits (N.lor m old)]> (kern l))) else FOk None).
    { unfold aeApiAddEvent. rewrite Ik. fold AE_NONE. fold old. by destruct (old =? AE_NONE)%N. }
    rewrite A. destruct ok.
    2: { exists l, false. split; [done|]. apply (inv_ext l f); [|by split]. intros d. cbn. by destruct (decide (d = fd)). }
    eexists _, true. split; [done|]. split; cbn [masks maxfd kern].
    + intros d. unfold mask_at. cbn [masks maxfd kern spec_step]. destruct (decide (d = fd)) as [-> |Hd].
      * replace (fd <? 0)%Z with false by lia. rewrite nth_insert by done. rewrite decide_True by done. by rewrite Fold.
      * rewrite Im. unfold mask_at. destruct (d <? 0)%Z eqn:Ed; [done|]. rewrite nth_insert by done. rewrite decide_False by lia. done.
    + destruct Imax as [I1 I2]. split.
      * intros d Hd. cbn [spec_step]. destruct (decide (d = fd)) as [-> |]; [destruct (maxfd l <? fd)%Z eqn:E; lia|]. apply I1. destruct (maxfd l <? fd)%Z eqn:E; lia.
      * destruct (maxfd l <? fd)%Z eqn:E.
        -- right. split; [done|]. cbn [spec_step]. rewrite decide_True by done. by apply lor_nonzero.
        -- right. destruct I2 as [I2|[I2 I3]]; [lia|]. split; [done|]. cbn [spec_step]. destruct (decide (maxfd l = fd)); [by apply lor_nonzero|done].
    + intros j. rewrite nth_insert by done. destruct (decide (j = i)) as [-> |Hj].
      * rewrite lookup_insert. rewrite N.lor_comm. destruct (N.lor old m =? 0)%N eqn:E; [|done].
        exfalso. apply (lor_nonzero old m Hm). lia.
      * by rewrite lookup_insert_ne.
  - unfold aeDeleteFileEvent. destruct (setsize l <=? fd)%Z eqn:Es.
    { exists l, true. unfold setsize in Es.
      assert (F0 : f fd = 0%N) by (rewrite Im; unfold mask_at; replace (fd <? 0)%Z with false by lia; apply nth_beyond; lia).
      assert (Eq : forall d, spec_step f (FDelete fd m) true d = f d).
      { intros d. cbn. destruct (decide (d = fd)) as [-> |]; [|done]. by rewrite F0, N.ldiff_0_l. }
      split; [done|]. destruct Imax as [I1 I2]. split; [|split|done].
      - intros d. by rewrite Eq.
      - intros d Hd. rewrite Eq. by apply I1.
      - by rewrite Eq. }
    replace (fd <? 0)%Z with false by lia. unfold setsize in Es.
    set (i := Z.to_nat fd). assert (Hi : (i < length (masks l))%nat) by lia.
    set (old := nth i (masks l) AE_NONE). assert (Fold : f fd = old).
    { rewrite Im. unfold mask_at. by replace (fd <? 0)%Z with false by lia. }
    destruct (old =? AE_NONE)%N eqn:E0.
    { exists l, true.
      assert (Eq : forall d, spec_step f (FDelete fd m) true d = f d).
      { intros d. cbn. destruct (decide (d = fd)) as [-> |]; [|done]. unfold AE_NONE in E0. replace (f fd) with 0%N by lia. by rewrite N.ldiff_0_l. }
      split; [done|]. destruct Imax as [I1 I2]. split; [|split|done].
      - intros d. by rewrite Eq.
      - intros d Hd. rewrite Eq. by apply I1.
      - by rewrite Eq. }
    cbv zeta. rewrite testbit1.
    set (mm := if negb (N.testbit m 1) then m else N.lor m AE_BARRIER).
    assert (Hmm : (if N.testbit m 1 then N.lor m AE_BARRIER else m) = mm) by (unfold mm; by destruct (N.testbit m 1)).
    unfold aeApiDelEvent. rewrite Ik. fold AE_NONE. fold old. rewrite E0. unfold AE_NONE in E0.
    eexists _, true. split; [done|]. split; cbn [masks maxfd kern].
    + intros d. unfold mask_at. cbn [masks maxfd kern spec_step]. rewrite Hmm. destruct (decide (d = fd)) as [-> |Hd].
      * replace (fd <? 0)%Z with false by lia. rewrite nth_insert by done. rewrite decide_True by done. by rewrite Fold.
      * rewrite Im. unfold mask_at. destruct (d <? 0)%Z eqn:Ed; [done|]. rewrite nth_insert by done. rewrite decide_False by lia. done.
    + destruct Imax as [I1 I2]. assert (Hle : (fd <= maxfd l)%Z).
      { destruct (decide (maxfd l < fd)%Z) as [H|]; [|lia]. specialize (I1 _ H). rewrite Fold in I1. lia. }
      destruct ((fd =? maxfd l)%Z && (N.ldiff old mm =? AE_NONE)%N) eqn:E.
      * unfold AE_NONE in E. apply andb_prop in E as [E1 E2].
        destruct (last_used_spec (<[i:=N.ldiff old mm]> (masks l)) (Z.to_nat (maxfd l))) as [L1 L2].
        set (j := last_used (<[i:=N.ldiff old mm]> (masks l)) (Z.to_nat (maxfd l))) in *.
        split.
        -- intros d Hd. cbn [spec_step]. rewrite Hmm. destruct (decide (d = fd)) as [-> |Hdf]; [rewrite Fold; lia|].
           destruct (decide (maxfd l < d)%Z); [by apply I1|].
           assert (X := L1 d ltac:(lia)). rewrite nth_insert in X by done.
           destruct (decide (d < 0)%Z); [rewrite Im; unfold mask_at; by replace (d <? 0)%Z with true by lia|].
           rewrite decide_False in X by lia. rewrite Im. unfold mask_at. replace (d <? 0)%Z with false by lia. done.
        -- destruct L2 as [L2|[L2 L3]]; [by left|right]. split; [lia|]. cbn [spec_step]. rewrite decide_False by lia.
           rewrite Im. unfold mask_at. replace (j <? 0)%Z with false by lia. rewrite nth_insert in L3 by done.
           rewrite decide_False in L3 by lia. done.
      * split.
        -- intros d Hd. cbn [spec_step]. rewrite decide_False by lia. by apply I1.
        -- right. destruct I2 as [I2|[I2 I3]]; [lia|]. split; [done|]. cbn [spec_step]. rewrite Hmm.
           destruct (decide (maxfd l = fd)) as [E1|]; [|done]. rewrite E1, Fold. unfold AE_NONE in E. lia.
    + intros j. rewrite nth_insert by done. unfold AE_NONE. destruct (decide (j = i)) as [-> |Hj].
      * destruct (N.ldiff old mm =? 0)%N; [by rewrite lookup_delete|by rewrite lookup_insert].
      * destruct (N.ldiff old mm =? 0)%N; [by rewrite lookup_delete_ne|by rewrite lookup_insert_ne].
  - unfold aeResizeSetSize. destruct (Z.of_nat n =? setsize l)%Z eqn:E1; [by exists l, true|].
    destruct (Z.of_nat n <=? maxfd l)%Z eqn:E2; [by exists l, false|].
    eexists _, true. split; [done|].
    assert (Hn : forall j, nth j (take (Z.to_nat (maxfd l + 1)) (masks l) ++ replicate (n - Z.to_nat (maxfd l + 1)) AE_NONE) 0%N = nth j (masks l) 0%N).
    { intros j. destruct Imax as [I1 I2].
      assert (Hlen : (Z.to_nat (maxfd l + 1) <= length (masks l))%nat).
      { destruct I2 as [I2|[I2 I3]]; [lia|]. rewrite Im in I3. unfold mask_at in I3. replace (maxfd l <? 0)%Z with false in I3 by lia.
        destruct (decide (Z.to_nat (maxfd l) < length (masks l))%nat); [lia|]. rewrite nth_beyond in I3 by lia. done. }
      rewrite !nth_lookup. destruct (decide (j < Z.to_nat (maxfd l + 1))%nat).
      - rewrite lookup_app_l by (rewrite take_length; lia). by rewrite lookup_take by lia.
      - rewrite lookup_app_r by (rewrite take_length; lia).
        replace (default 0%N (masks l !! j)) with 0%N.
        2: { assert (X := I1 (Z.of_nat j) ltac:(lia)). rewrite Im in X. unfold mask_at in X. replace (Z.of_nat j <? 0)%Z with false in X by lia.
             rewrite Nat2Z.id, nth_lookup in X. by rewrite X. }
        destruct (replicate _ _ !! _) as [x|] eqn:E; [|done]. apply lookup_replicate in E as [-> _]. done. }
    split; cbn; [|done|].
    + intros d. rewrite Im. unfold mask_at. cbn. destruct (d <? 0)%Z; [done|]. by rewrite Hn.
    + intros j. by rewrite Hn, Ik.
Qed.
Lemma run_ok os : forall l f, Forall op_ok os -> inv l f -> exists l' bs, frun l os = FOk (l', bs) /\ inv l' (spec_run f os bs).
Proof.
  induction os as [|o os IH]; intros l f Ho I; cbn [frun].
  - by exists l, [].
  - apply Forall_cons_1 in Ho as [H1 H2]. destruct (step_ok l f o H1 I) as (l1 & b & E & I1). rewrite E.
    destruct (IH l1 _ H2 I1) as (l2 & bs & E2 & I2). rewrite E2. by exists l2, (b :: bs).
Qed.
Lemma init_inv n : inv (aeCreateEventLoop n) (fun _ => 0%N).
Proof.
  assert (X : forall i, nth i (replicate n AE_NONE) 0%N = 0%N).
  { intros i. rewrite nth_lookup. destruct (_ !! _) as [x|] eqn:E; [|done]. apply lookup_replicate in E as [-> _]. done. }
  split.
  - intros d. unfold mask_at. cbn. destruct (d <? 0)%Z; [done|]. by rewrite X.
  - split; [done|by left].
  - intros i. cbn. by rewrite X.
Qed.
