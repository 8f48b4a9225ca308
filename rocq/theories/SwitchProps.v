(** C49: duplicate switch cases are rejected, distinct ones accepted. *)
From Coq Require Import ZArith List Bool Permutation Lia.
From stdpp Require Import tactics.
From Verif Require Import SwitchModel SwitchSpec SwitchProofs.
Import ListNotations.
Local Open Scope Z_scope.

(** Cases that match different values are accepted, however they are sorted. *)
Theorem C49_accepts q t l : is_qsort q -> machine t -> Forall (sensible t) l -> ~ overlapping l -> checkSwitch q t l = Accepted.
Proof.
  intros Q M S O. unfold checkSwitch. rewrite check_cases by assumption.
  destruct (checkDuplicateCaseMatches (q compareLiteralNode l)) eqn:D; [|reflexivity]. exfalso.
  destruct (Q compareLiteralNode l) as [P _].
  apply dup_overlapping in D.
  - apply D. eapply pairwise_perm; [exact P|]. by apply overlapping_pairwise.
  - eapply Permutation_Forall; [exact P|]. eapply Forall_impl; [|exact S]. intros c. by apply sensible_fits.
Qed.
Print Assumptions C49_accepts.
(** Of cases that are single values duplicates are found. *)
Theorem C49_values q t l : is_qsort q -> machine t -> Forall (sensible t) l -> Forall value l ->
  (checkSwitch q t l = Rejected <-> overlapping l).
Proof.
  intros Q M S V. destruct (Q compareLiteralNode l) as [P O].
  assert (Forall fits l) as F by (eapply Forall_impl; [|exact S]; intros c; by apply sensible_fits).
  assert (Forall fits (q compareLiteralNode l)) as Fq by (eapply Permutation_Forall; eassumption).
  unfold checkSwitch. rewrite check_cases by assumption.
  destruct (checkDuplicateCaseMatches (q compareLiteralNode l)) eqn:D.
  - split; [intros _|reflexivity]. apply dup_overlapping in D; [|assumption].
    destruct (checkDuplicateCaseMatches (msort compareLiteralNode l)) eqn:Dm.
    + (* overlapping is decidable: look for it with the merge sort *)
      clear Dm. revert D. assert (pairwise l \/ overlapping l) as [H|H]; [|intros D; exfalso; apply D; by eapply pairwise_perm|done].
      clear -V. induction V as [|a l [v ->] V IH]; [left; constructor|].
      destruct IH as [IH|(i & j & x & y & w & L & Hx & Hy & A & B)].
      * destruct (In_dec Z.eq_dec v (map lo l)) as [I|I].
        -- right. apply in_map_iff in I as (c & E & I). apply In_nth_error in I as [j Hj].
           rewrite Forall_forall in V. destruct (V c (nth_error_In _ _ Hj)) as [u ->]. cbn in E. subst u.
           exists 0%nat, (S j), (CVal v), (CVal v), v. repeat split; try assumption. lia.
        -- left. constructor; [|assumption]. rewrite Forall_forall. intros c Hc (u & A & B). apply I, in_map_iff.
           exists c. split; [|assumption]. rewrite Forall_forall in V. destruct (V c Hc) as [z ->]. cbn in *. congruence.
      * right. exists (S i), (S j), x, y, w. repeat split; try assumption. lia.
    + exfalso. apply D. eapply pairwise_perm; [exact P|].
      assert (Permutation l (msort compareLiteralNode l)) as Pm by apply msort_perm.
      eapply pairwise_perm; [symmetry; exact Pm|]. apply dup_none; [by eapply Permutation_Forall|left; by eapply Permutation_Forall| |assumption].
      apply msort_order; [reflexivity|]. intros a b Ha Hb H. rewrite Forall_forall in F.
      rewrite (compare_anti a b) by (by apply F). lia.
  - split; [discriminate|]. intros H. exfalso.
    assert (pairwise (q compareLiteralNode l)) as G.
    { apply dup_none; [assumption|left; by eapply Permutation_Forall| |assumption]. apply O. rewrite Forall_forall in F, V. split.
      - intros a b Ha Hb. rewrite (compare_anti a b) by (by apply F). lia.
      - intros a b c Ha Hb Hc. specialize (F a Ha) as Fa. specialize (F b Hb) as Fb. specialize (F c Hc) as Fc.
        destruct (V a Ha) as [x ->], (V b Hb) as [y ->], (V c Hc) as [z ->]. unfold fits in *. cbn -[Z.pow] in *.
        rewrite !i64_id by lia. repeat match goal with |- context [?x <? ?y] => destruct (Z.ltb_spec x y) end; lia. }
    eapply pairwise_overlapping; [|exact H]. eapply pairwise_perm; [symmetry; exact P|exact G].
Qed.
Print Assumptions C49_values.
(** Of cases that are ranges overlapping ones are found with the merge sort (the comparison
    is not an order then, and C promises nothing). *)
Theorem C49_ranges_partial t l : machine t -> Forall (sensible t) l -> Forall range l ->
  overlapping l -> checkSwitch msort t l = Rejected.
Proof.
  intros M S R H. assert (Forall fits l) as F by (eapply Forall_impl; [|exact S]; intros c; by apply sensible_fits).
  unfold checkSwitch. rewrite check_cases by assumption.
  destruct (checkDuplicateCaseMatches (msort compareLiteralNode l)) eqn:D; [reflexivity|]. exfalso.
  assert (Permutation l (msort compareLiteralNode l)) as Pm by apply msort_perm.
  eapply pairwise_overlapping; [|exact H]. eapply pairwise_perm; [symmetry; exact Pm|].
  apply dup_none; [by eapply Permutation_Forall|right; by eapply Permutation_Forall| |assumption].
  apply msort_order; [reflexivity|]. intros a b Ha Hb G. rewrite Forall_forall in F.
  rewrite (compare_anti a b) by (by apply F). lia.
Qed.
Print Assumptions C49_ranges_partial.

(** False with values and ranges together: 1, 5 and the range from 1 to 4 are accepted, *)
Theorem C49_mixed_refuted : is_qsort msort /\ machine tI32 /\
  checkSwitch msort tI32 [CVal 1; CVal 5; CRange 1 4] = Accepted /\ overlapping [CVal 1; CVal 5; CRange 1 4] /\
  checkSwitch msort tI32 [CVal 1; CVal 3; CVal 5; CVal 1; CRange 2 2] = Accepted /\
  overlapping [CVal 1; CVal 3; CVal 5; CVal 1; CRange 2 2].
Proof.
  split; [apply msort_qsort|]. split; [left; exists 32; split; [lia|reflexivity]|]. split; [by vm_compute|].
  split; [exists 0%nat, 2%nat, (CVal 1), (CRange 1 4), 1; cbn; repeat split; lia|]. split; [by vm_compute|].
  exists 0%nat, 3%nat, (CVal 1), (CVal 1), 1. cbn. repeat split; lia.
Qed.
Print Assumptions C49_mixed_refuted.
(** Which cases pass the check against the type of the condition: those that match at least
    one of its values. *)
Theorem C49_type_check t c : machine t -> (exists v, matches c v) -> (forall v, matches c v -> - 2 ^ 63 <= v < 2 ^ 63) ->
  sgn t = true \/ (forall v, matches c v -> 0 <= v) ->
  checkCase t c <> None /\ (checkCase t c = Some true <-> exists v, matches c v /\ least t <= v <= most t).
Proof.
  intros M [v0 V] B U. pose proof (machine_bounds t M) as MB.
  assert (lo c <= hi c /\ - 2 ^ 63 <= lo c /\ hi c < 2 ^ 63) as (L & L1 & L2).
  { destruct c as [w|a b]; cbn -[Z.pow] in *; [specialize (B w eq_refl); lia|].
    pose proof (B a ltac:(lia)). pose proof (B b ltac:(lia)). lia. }
  assert (sgn t = true \/ 0 <= lo c) as U'.
  { destruct U as [U|U]; [by left|right]. apply U. destruct c; cbn in *; lia. }
  assert (checkCase t c = isIntegerTypeInRange t (lo c) (hi c)) as ->.
  { destruct c; cbn -[Z.pow] in *; rewrite ?i64_id by lia; reflexivity. }
  assert ((exists v, matches c v /\ least t <= v <= most t) <-> lo c <= most t /\ least t <= hi c) as ->.
  { assert (least t <= most t) as LM.
    { destruct M as [(n & Hn & ->)|(n & Hn & ->)]; cbn -[Z.pow]; [pose proof (Z.pow_pos_nonneg 2 (n - 1))|pose proof (Z.pow_pos_nonneg 2 n)]; lia. }
    destruct c as [w|a b]; cbn -[Z.pow] in *; split.
    - intros (v & -> & H). lia.
    - intros H. exists w. lia.
    - intros (v & H & H'). lia.
    - intros H. exists (Z.max a (least t)). lia. }
  unfold isIntegerTypeInRange. destruct (Z.ltb_spec (hi c) (lo c)); [lia|].
  destruct M as [(n & Hn & ->)|(n & Hn & ->)]; cbn -[Z.pow] in *.
  - rewrite i64_id by lia. split; [done|]. split; [intros [= H']|intros H'; f_equal]; lia.
  - unfold u64. destruct U' as [U'|U']; [done|]. rewrite Z.mod_small by lia. split; [done|]. split; [intros [= H']|intros H'; f_equal]; lia.
Qed.
Print Assumptions C49_type_check.
(** So a range that goes beyond the type is accepted. *)
Theorem C49_beyond_refuted : checkSwitch msort (Ity true (-128) 127) [CRange 100 300] = Accepted /\
  ~ sensible (Ity true (-128) 127) (CRange 100 300).
Proof. split; [by vm_compute|]. intros [_ H]. specialize (H 300). cbn in H. lia. Qed.
Print Assumptions C49_beyond_refuted.
(** a range that goes down fails an assertion, the values of u64 from 2^63 on are refused,
    and so is a range that matches some values of an unsigned type. *)
Theorem C49_types_refuted : checkSwitch msort tI32 [CRange 5 1] = Crashed /\
  checkSwitch msort tU64 [CVal (2 ^ 63)] = Rejected /\ sensible tU64 (CVal (2 ^ 63)) /\
  checkSwitch msort tU8 [CRange (-1) 5] = Rejected.
Proof.
  split; [by vm_compute|]. split; [by vm_compute|]. split; [|by vm_compute].
  split; [by exists (2 ^ 63)|]. intros v. cbn -[Z.pow]. lia.
Qed.
Print Assumptions C49_types_refuted.

Example C49_ex1 : checkSwitch msort tI8 [CVal 7; CRange 1 4; CVal (-3); CVal 5] = Accepted /\
  checkSwitch msort tI8 [CRange 1 4; CRange 10 20; CRange 4 7] = Rejected /\
  checkSwitch msort tI8 [CVal 3; CVal 9; CVal 3] = Rejected /\ checkSwitch msort tI8 [CVal 200] = Rejected.
Proof. by vm_compute. Qed.
