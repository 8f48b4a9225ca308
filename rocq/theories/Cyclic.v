(** Arithmetic of positions in a circular table of [cap] slots. *)
From stdpp Require Import list numbers.

(** Slot reached from [h] after [e] steps, number of steps from [h] to [i], and
    the slot after [i]. *)
Definition pos (cap h e : nat) : nat :=
  if (h + e <? cap)%nat then h + e else h + e - cap.
Definition dist (cap h i : nat) : nat :=
  if (h <=? i)%nat then i - h else i + cap - h.
Definition succ_wrap (cap i : nat) : nat := if (S i <? cap)%nat then S i else 0%nat.

Ltac cyc := unfold pos, dist, succ_wrap in *;
  repeat match goal with
  | |- context [(?a <? ?b)%nat] => destruct (Nat.ltb_spec a b)
  | |- context [(?a <=? ?b)%nat] => destruct (Nat.leb_spec a b)
  | H : context [(?a <? ?b)%nat] |- _ => destruct (Nat.ltb_spec a b)
  | H : context [(?a <=? ?b)%nat] |- _ => destruct (Nat.leb_spec a b)
  end; try lia.

Lemma succ_wrap_pos cap h e : (h < cap)%nat → (e < cap)%nat →
  succ_wrap cap (pos cap h e) = pos cap h (S e).
Proof. intros. cyc. Qed.
Lemma pos_lt cap h e : (h < cap)%nat → (e < cap)%nat → (pos cap h e < cap)%nat.
Proof. intros. cyc. Qed.
Lemma pos_dist cap h i : (h < cap)%nat → (i < cap)%nat → pos cap h (dist cap h i) = i.
Proof. intros. cyc. Qed.
Lemma dist_pos cap h e : (h < cap)%nat → (e < cap)%nat → dist cap h (pos cap h e) = e.
Proof. intros. cyc. Qed.
Lemma dist_lt cap h i : (h < cap)%nat → (i < cap)%nat → (dist cap h i < cap)%nat.
Proof. intros. cyc. Qed.
Lemma pos_0 cap h : (h < cap)%nat → pos cap h 0 = h.
Proof. intros. cyc. Qed.
Lemma pos_inj cap h e1 e2 : (h < cap)%nat → (e1 < cap)%nat → (e2 < cap)%nat →
  pos cap h e1 = pos cap h e2 → e1 = e2.
Proof. intros ??? E. rewrite <- (dist_pos cap h e1), <- (dist_pos cap h e2), E; done. Qed.
Lemma succ_wrap_lt cap i : (i < cap)%nat → (succ_wrap cap i < cap)%nat.
Proof. intros. cyc. Qed.
Lemma dist_succ_wrap cap h i : (h < cap)%nat → (i < cap)%nat → (S (dist cap h i) < cap)%nat →
  dist cap h (succ_wrap cap i) = S (dist cap h i).
Proof. intros. cyc. Qed.
Lemma dist_from_succ_wrap cap i s : (s < cap)%nat → (i < cap)%nat → s ≠ i →
  S (dist cap (succ_wrap cap i) s) = dist cap i s.
Proof. intros. cyc. Qed.
Lemma dist_self cap i : dist cap i i = 0%nat.
Proof. cyc. Qed.
Lemma dist_0 cap h i : (h < cap)%nat → (i < cap)%nat → dist cap h i = 0%nat → i = h.
Proof. intros. cyc. Qed.
