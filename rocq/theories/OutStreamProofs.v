From Coq Require Import ZArith ZifyBool ZifyNat ZifyN.
From stdpp Require Import numbers list.
From Verif Require Import FormatModel FormatSpec FormatProofs OutStreamModel OutStreamSpec.
Ltac Zify.zify_post_hook ::= Z.div_mod_to_equations.
Local Open Scope nat_scope.

Definition all_bytes (s : ostream) : list N := o_out s ++ o_buf s.
Definition wf (s : ostream) : Prop := o_buf s = [] \/ length (o_buf s) < o_cap s.

Lemma sync_ok s : all_bytes (sync s) = all_bytes s /\ o_buf (sync s) = [] /\ o_cap (sync s) = o_cap s.
Proof.
  unfold sync, all_bytes, flush. destruct (o_buf s) as [|b buf] eqn:E; cbn; rewrite ?E; [done|]. by rewrite app_nil_r.
Qed.
Lemma o_append_cases s d : wf s ->
  wf (o_append s d) /\ o_cap (o_append s d) = o_cap s /\
  (exact_fill s d -> all_bytes (o_append s d) = o_out s ++ d ++ o_buf s) /\
  (~ exact_fill s d -> all_bytes (o_append s d) = all_bytes s ++ d).
Proof.
  intros W. unfold o_append, exact_fill.
  destruct ((o_cap s - length (o_buf s) <? length d) && (0 <? length (o_buf s))) eqn:E.
  - destruct (sync_ok s) as (S1 & S2 & S3). rewrite S2, S3.
    destruct (length d <? o_cap s) eqn:E2.
    + unfold wf, all_bytes in *. cbn. rewrite S2 in S1. rewrite app_nil_r in S1.
      split; [right; lia|]. split; [done|]. split; [intros [? ?]; lia|]. intros _. by rewrite S1.
    + unfold wf, all_bytes, flush in *. cbn. rewrite S2 in *. rewrite app_nil_r in *.
      split; [by left|]. split; [done|]. split; [intros [? ?]; lia|]. intros _. by rewrite S1.
  - destruct (length d <? o_cap s - length (o_buf s)) eqn:E2.
    + unfold wf, all_bytes. cbn. split; [right; rewrite app_length; lia|]. split; [done|].
      split; [intros [? ?]; lia|]. intros _. by rewrite app_assoc.
    + unfold wf, all_bytes, flush in *. cbn. split; [done|]. split; [done|]. split.
      * intros _. by rewrite app_assoc.
      * intros Hn. destruct (o_buf s) as [|b buf] eqn:Eb; [by rewrite !app_nil_r|].
        exfalso. apply Hn. split; [done|]. cbn [length] in *. destruct W as [?|W]; [done|]. lia.
Qed.
Lemma written_app a b : written (a ++ b) = written a ++ written b.
Proof. induction a as [|[d|] a IH]; cbn; [done| |done]. by rewrite IH, app_assoc. Qed.
Lemma run_snoc cap ops o : o_run cap (ops ++ [o]) = o_step (o_run cap ops) o.
Proof. unfold o_run. by rewrite foldl_app. Qed.
Lemma run_wf cap ops : wf (o_run cap ops) /\ o_cap (o_run cap ops) = cap.
Proof.
  induction ops as [|o ops [W C]] using rev_ind; [by split; [left|]|].
  rewrite run_snoc. destruct o as [d|]; cbn.
  - destruct (o_append_cases (o_run cap ops) d W) as (W' & C' & _). by rewrite C'.
  - destruct (sync_ok (o_run cap ops)) as (_ & B & C'). split; [by left|]. by rewrite C'.
Qed.
Lemma run_ordered cap ops :
  (forall pre d post, ops = pre ++ OAppend d :: post -> ~ exact_fill (o_run cap pre) d) ->
  all_bytes (o_run cap ops) = written ops.
Proof.
  induction ops as [|o ops IH] using rev_ind; intros H; [done|].
  assert (IH' : all_bytes (o_run cap ops) = written ops).
  { apply IH. intros pre d post ->. apply (H pre d (post ++ [o])). by rewrite <- app_assoc. }
  rewrite run_snoc, written_app. destruct (run_wf cap ops) as [W _]. destruct o as [d|]; cbn.
  - rewrite app_nil_r. destruct (o_append_cases (o_run cap ops) d W) as (_ & _ & _ & Ha).
    rewrite Ha, IH'; [done|]. by apply (H ops d []).
  - rewrite app_nil_r. by rewrite (proj1 (sync_ok _)).
Qed.
(** Nothing is ever lost or duplicated. *)
Lemma run_perm cap ops : all_bytes (o_run cap ops) ≡ₚ written ops.
Proof.
  induction ops as [|o ops IH] using rev_ind; [done|].
  rewrite run_snoc, written_app. destruct (run_wf cap ops) as [W _]. destruct o as [d|]; cbn.
  - rewrite app_nil_r, <- IH. destruct (o_append_cases (o_run cap ops) d W) as (_ & _ & Ha & Hb).
    assert (Dec : exact_fill (o_run cap ops) d \/ ~ exact_fill (o_run cap ops) d).
    { unfold exact_fill. destruct (o_buf (o_run cap ops)); [by right; intros []|].
      destruct (decide (length (n :: l) + length d = o_cap (o_run cap ops))); [by left|by right; intros []]. }
    destruct Dec as [D|D].
    + rewrite (Ha D). unfold all_bytes. rewrite <- app_assoc. f_equiv. apply Permutation_app_comm.
    + by rewrite (Hb D).
  - rewrite app_nil_r. by rewrite (proj1 (sync_ok _)).
Qed.

(** ** Integers *)
Lemma to_i64_small z : (- 2 ^ 63 <= z < 2 ^ 63)%Z -> to_i64 z = z.
Proof. unfold to_i64. change (2 ^ 63)%Z with 9223372036854775808%Z. change (2 ^ 64)%Z with 18446744073709551616%Z. lia. Qed.
Lemma to_i64_big z : (2 ^ 63 <= z < 2 ^ 64)%Z -> to_i64 z = (z - 2 ^ 64)%Z.
Proof. unfold to_i64. change (2 ^ 63)%Z with 9223372036854775808%Z. change (2 ^ 64)%Z with 18446744073709551616%Z. lia. Qed.
Lemma print_signed_ok z : (- 2 ^ 63 <= z < 2 ^ 63)%Z -> is_decimal_Z z (print_signed z).
Proof.
  intros H. change (2 ^ 63)%Z with 9223372036854775808%Z in H.
  assert (B : forall n, (n < 10000000000000000000)%N -> is_decimal n (digits 20 n)).
  { intros n Hn. apply digits_is_decimal. change (10 ^ (N.of_nat 20 + 1))%N with 1000000000000000000000%N. lia. }
  unfold print_signed, is_decimal_Z. destruct (Z.ltb_spec z 0).
  - right. split; [done|]. eexists. split; [done|]. apply B. lia.
  - left. split; [done|]. apply B. lia.
Qed.
Lemma minus_not_decimal n t : ~ is_decimal n (45%N :: t).
Proof.
  intros H. unfold is_decimal in H. destruct H as (_ & H & _). revert H. cbn. rewrite ?Forall_cons. intuition lia.
Qed.
Lemma print_integer_exact z : (- 2 ^ 63 <= z < 2 ^ 64)%Z ->
  is_decimal_Z z (print_integer z) <-> (z < 2 ^ 63)%Z.
Proof.
  intros H. unfold print_integer. split.
  - intros D. destruct (Z.lt_ge_cases z (2 ^ 63)) as [|Hge]; [done|]. exfalso.
    rewrite to_i64_big in D by lia. unfold print_signed in D.
    rewrite (proj2 (Z.ltb_lt _ _)) in D by lia.
    destruct D as [[_ D]|[Hz _]]; [|lia]. by apply minus_not_decimal in D.
  - intros Hz. rewrite to_i64_small by lia. apply print_signed_ok. lia.
Qed.
