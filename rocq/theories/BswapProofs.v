From Coq Require Import ZifyBool ZifyNat ZifyN.
From stdpp Require Import list numbers.
From Verif Require Import FnvSpec BswapModel BswapSpec.
Ltac Zify.zify_post_hook ::= Z.div_mod_to_equations.
Local Open Scope N_scope.

Lemma land_byte x k : N.land x (N.shiftl 255 k) = ((x / 2 ^ k) mod 256) * 2 ^ k.
Proof.
  change 255 with (N.ones 8). rewrite <- N.shiftl_mul_pow2, <- N.shiftr_div_pow2.
  change 256 with (2 ^ 8). rewrite <- N.land_ones.
  apply N.bits_inj. intros i. rewrite N.land_spec.
  destruct (N.le_gt_cases k i) as [Hk|Hk].
  - rewrite !N.shiftl_spec_high' by done. rewrite N.land_spec, N.shiftr_spec'.
    by replace (i - k + k) with i by lia.
  - rewrite !N.shiftl_spec_low by done. by rewrite andb_false_r.
Qed.

Lemma lor_add a b k : a < 2 ^ k -> N.lor a (b * 2 ^ k) = a + b * 2 ^ k.
Proof.
  intros Ha. rewrite <- N.shiftl_mul_pow2. symmetry. apply N.lxor_lor || idtac.
  all: rewrite <- N.lxor_lor; [apply N.add_nocarry_lxor|].
  all: apply N.bits_inj; intros i; rewrite N.land_spec, N.bits_0.
  all: destruct (N.le_gt_cases k i) as [Hk|Hk];
    [|rewrite (N.shiftl_spec_low b) by done; by rewrite andb_false_r].
  all: rewrite <- (N.mod_small a (2 ^ k)) by done;
    rewrite N.mod_pow2_bits_high by done; done.
Qed.

Lemma lor_byte acc b k n :
  acc < 2 ^ k -> b < 256 -> n = k + 8 ->
  N.lor acc (b * 2 ^ k) = acc + b * 2 ^ k /\ acc + b * 2 ^ k < 2 ^ n.
Proof.
  intros Ha Hb ->. split; [by apply lor_add|].
  rewrite N.pow_add_r. change (2 ^ 8) with 256. nia.
Qed.

Ltac byte_term := rewrite N.mod_lt by done.

Lemma div_mul_pow a b c k : k = b + c -> (a * 2 ^ k) / 2 ^ b = a * 2 ^ c.
Proof.
  intros ->. rewrite N.pow_add_r, (N.mul_comm (2 ^ b)), N.mul_assoc.
  apply N.div_mul. apply N.pow_nonzero. done.
Qed.
Lemma shl_byte a k s w c :
  a < 256 -> c = k + s -> c + 8 <= w -> N.shiftl (a * 2 ^ k) s mod 2 ^ w = a * 2 ^ c.
Proof.
  intros Ha -> Hw. rewrite N.shiftl_mul_pow2, <- N.mul_assoc, <- N.pow_add_r.
  apply N.mod_small.
  assert (2 ^ (k + s + 8) <= 2 ^ w) by (apply N.pow_le_mono_r; lia).
  rewrite N.pow_add_r in H. change (2 ^ 8) with 256 in H.
  assert (0 < 2 ^ (k + s)) by (apply N.neq_0_lt_0, N.pow_nonzero; done). nia.
Qed.

Lemma shr_byte x k s c : k = s + c ->
  N.shiftr (N.land x (N.shiftl 255 k)) s = ((x / 2 ^ k) mod 256) * 2 ^ c.
Proof. intros. rewrite land_byte, N.shiftr_div_pow2. by apply div_mul_pow. Qed.
Lemma shl_byte' x k s w c : c = k + s -> c + 8 <= w ->
  N.shiftl (N.land x (N.shiftl 255 k)) s mod 2 ^ w = ((x / 2 ^ k) mod 256) * 2 ^ c.
Proof. intros. rewrite land_byte. apply shl_byte; [by apply N.mod_lt|done..]. Qed.

(** Value of a little-endian byte list. *)
Fixpoint le_value (l : list N) : N :=
  match l with [] => 0 | b :: l' => b + 256 * le_value l' end.

Lemma le_value_bytes n x : le_value (le_bytes n x) = x mod 256 ^ N.of_nat n.
Proof.
  revert x. induction n as [|n IH]; intros x; cbn [le_bytes le_value].
  - by rewrite N.mod_1_r.
  - rewrite IH. rewrite Nat2N.inj_succ, N.pow_succ_r'.
    rewrite N.mod_mul_r; [done|done|]. apply N.pow_nonzero. done.
Qed.
Lemma le_bytes_value l : is_bytes l -> le_bytes (length l) (le_value l) = l.
Proof.
  induction 1 as [|b l Hb Hl IH]; cbn [length le_bytes le_value]; [done|].
  f_equal.
  - rewrite (N.mul_comm 256), N.mod_add by done. by apply N.mod_small.
  - rewrite (N.mul_comm 256), N.div_add by done.
    rewrite (N.div_small b) by done. by rewrite N.add_0_l.
Qed.
Lemma le_bytes_is_bytes n x : is_bytes (le_bytes n x).
Proof.
  revert x. induction n as [|n IH]; intros x; constructor; [by apply N.mod_lt|apply IH].
Qed.
Lemma le_bytes_length n x : length (le_bytes n x) = n.
Proof. revert x. induction n as [|n IH]; intros x; cbn; by f_equal. Qed.
Lemma le_bytes_inj n x y :
  x < 256 ^ N.of_nat n -> y < 256 ^ N.of_nat n -> le_bytes n x = le_bytes n y -> x = y.
Proof.
  intros Hx Hy H. apply (f_equal le_value) in H. rewrite !le_value_bytes in H.
  by rewrite !N.mod_small in H.
Qed.

Lemma bswap_from_value n x y :
  y = le_value (rev (le_bytes n x)) ->
  le_bytes n y = rev (le_bytes n x) /\ y < 256 ^ N.of_nat n.
Proof.
  intros ->.
  assert (L : length (rev (le_bytes n x)) = n) by (rewrite rev_length; apply le_bytes_length).
  assert (B : is_bytes (rev (le_bytes n x))).
  { apply Forall_rev. apply le_bytes_is_bytes. }
  assert (E := le_bytes_value _ B). rewrite L in E. split; [done|].
  rewrite <- E, le_value_bytes. apply N.mod_lt. apply N.pow_nonzero. done.
Qed.

Ltac dm := repeat match goal with
  | |- context [(?x / ?k) mod 256] =>
    let b := fresh "b" in set (b := (x / k) mod 256); 
    assert (b < 256) by (by apply N.mod_lt); clearbody b
  end.

Ltac cpow := repeat match goal with
  | |- context [2 ^ ?k] => let v := eval vm_compute in (2 ^ k) in change (2 ^ k) with v end.

Lemma le_bytes_2 x : le_bytes 2 x = [(x / 2 ^ 0) mod 256; (x / 2 ^ 8) mod 256].
Proof. cbn [le_bytes]. change (2 ^ 0) with 1. by rewrite N.div_1_r. Qed.
Lemma le_bytes_4 x : le_bytes 4 x =
  [(x / 2 ^ 0) mod 256; (x / 2 ^ 8) mod 256; (x / 2 ^ 16) mod 256; (x / 2 ^ 24) mod 256].
Proof. cbn [le_bytes]. rewrite !N.div_div by done. change (2 ^ 0) with 1. by rewrite N.div_1_r. Qed.
Lemma le_bytes_8 x : le_bytes 8 x =
  [(x / 2 ^ 0) mod 256; (x / 2 ^ 8) mod 256; (x / 2 ^ 16) mod 256; (x / 2 ^ 24) mod 256;
   (x / 2 ^ 32) mod 256; (x / 2 ^ 40) mod 256; (x / 2 ^ 48) mod 256; (x / 2 ^ 56) mod 256].
Proof. cbn [le_bytes]. rewrite !N.div_div by done. change (2 ^ 0) with 1. by rewrite N.div_1_r. Qed.

Lemma bswap16_value x : bswap16 x = le_value (rev (le_bytes 2 x)).
Proof.
  unfold bswap16.
  replace (N.land (N.shiftr x 8) 255) with (((x / 2 ^ 8) mod 256) * 2 ^ 0).
  2: { rewrite <- (shr_byte x 8 8 0) by done. rewrite N.shiftr_land. by rewrite N.shiftr_shiftl_r. }
  change 255 with (N.shiftl 255 0). rewrite land_byte, le_bytes_2. cbn [rev app le_value].
  dm. rewrite N.shiftl_mul_pow2, <- N.mul_assoc, <- N.pow_add_r. cbn [N.add].
  change (2 ^ 0) with 1. rewrite N.mul_1_r. rewrite lor_add by lia.
  change (2 ^ 8) with 256. rewrite N.mod_small by lia. lia.
Qed.

Lemma bswap32_value x : bswap32 x = le_value (rev (le_bytes 4 x)).
Proof.
  unfold bswap32. cbn zeta.
  change 0xff000000 with (N.shiftl 255 24). change 0x00ff0000 with (N.shiftl 255 16).
  change 0x0000ff00 with (N.shiftl 255 8). change (N.land x 255) with (N.land x (N.shiftl 255 0)).
  rewrite (shr_byte x 24 24 0), (shr_byte x 16 8 8), (shl_byte' x 8 8 32 16),
    (shl_byte' x 0 24 32 24) by done.
  rewrite le_bytes_4. cbn [rev app le_value]. dm.
  change (2 ^ 0) with 1. rewrite N.mul_1_r.
  rewrite (lor_add _ _ 8) by (cpow; lia). rewrite (lor_add _ _ 16) by (cpow; lia). rewrite (lor_add _ _ 24) by (cpow; lia). cpow. lia.
Qed.

Lemma bswap64_value x : bswap64 x = le_value (rev (le_bytes 8 x)).
Proof.
  unfold bswap64. cbn zeta.
  change 0xff00000000000000 with (N.shiftl 255 56). change 0xff000000000000 with (N.shiftl 255 48).
  change 0xff0000000000 with (N.shiftl 255 40). change 0xff00000000 with (N.shiftl 255 32).
  change 0xff000000 with (N.shiftl 255 24). change 0x00ff0000 with (N.shiftl 255 16).
  change 0x0000ff00 with (N.shiftl 255 8). change (N.land x 255) with (N.land x (N.shiftl 255 0)).
  rewrite (shr_byte x 56 56 0), (shr_byte x 48 40 8), (shr_byte x 40 24 16), (shr_byte x 32 8 24),
    (shl_byte' x 24 8 64 32), (shl_byte' x 16 24 64 40), (shl_byte' x 8 40 64 48),
    (shl_byte' x 0 56 64 56) by done.
  rewrite le_bytes_8. cbn [rev app le_value]. dm.
  change (2 ^ 0) with 1. rewrite N.mul_1_r.
  rewrite (lor_add _ _ 8) by (cpow; lia). rewrite (lor_add _ _ 16) by (cpow; lia). rewrite (lor_add _ _ 24) by (cpow; lia). rewrite (lor_add _ _ 32) by (cpow; lia). rewrite (lor_add _ _ 40) by (cpow; lia). rewrite (lor_add _ _ 48) by (cpow; lia). rewrite (lor_add _ _ 56) by (cpow; lia). cpow. lia.
Qed.

Lemma bswap_involution n f x :
  (forall x, f x = le_value (rev (le_bytes n x))) ->
  x < 256 ^ N.of_nat n -> f (f x) = x.
Proof.
  intros Hf Hx. destruct (bswap_from_value n x (f x) (Hf x)) as [E1 L1].
  destruct (bswap_from_value n (f x) (f (f x)) (Hf (f x))) as [E2 L2].
  apply (le_bytes_inj n); [done|done|]. by rewrite E2, E1, rev_involutive.
Qed.
