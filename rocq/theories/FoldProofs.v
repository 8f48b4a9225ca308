From Coq Require Import ZArith Lia ZifyBool.
From stdpp Require Import numbers list.
From Verif Require Import PrimModel PrimSpec LlvmModel LlvmSpec FoldModel FoldSpec.
Local Open Scope Z_scope.
Ltac Zify.zify_post_hook ::= Z.div_mod_to_equations.

(** * Rounding *)
Lemma rnd_small z : small z -> rnd z = z.
Proof. unfold small, rnd. intros H. cbv zeta. destruct (_ <=? _) eqn:E; [done|lia]. Qed.
Definition near (a m : Z) : Z :=
  let q := a / m in let r := a mod m in
  (if 2 * r <? m then q else if m <? 2 * r then q + 1 else if Z.even q then q else q + 1) * m.
Lemma rnd_big z : ~ small z -> rnd z = Z.sgn z * near (Z.abs z) (2 ^ (Z.log2 (Z.abs z) - 52)).
Proof. unfold small, rnd. intros H. cbv zeta. destruct (_ <=? _) eqn:E; [lia|done]. Qed.
Lemma near_nearest a m k : 0 < m -> Z.abs (near a m - a) <= Z.abs (k * m - a).
Proof.
  intros Hm. unfold near. cbv zeta. assert (D := Z.div_mod a m). assert (B := Z.mod_pos_bound a m Hm).
  set (q := a / m) in *. set (r := a mod m) in *. assert (Ea : a = m * q + r) by lia. clearbody q r. subst a. clear D.
  assert (K : k <= q \/ q + 1 <= k) by lia.
  assert (K1 : k <= q -> r <= Z.abs (k * m - (m * q + r))) by (intros; nia).
  assert (K2 : q + 1 <= k -> m - r <= Z.abs (k * m - (m * q + r))) by (intros; nia).
  set (x := Z.abs (k * m - (m * q + r))) in *. clearbody x.
  destruct (2 * r <? m) eqn:E1; [|destruct (m <? 2 * r) eqn:E2; [|destruct (Z.even q)]];
    match goal with |- Z.abs ?t <= _ => ring_simplify t end; lia.
Qed.
Lemma big_scale a : 2 ^ 53 < a -> let m := 2 ^ (Z.log2 a - 52) in 0 < m /\ 2 ^ 52 * m <= a < 2 ^ 53 * m.
Proof.
  intros H m. assert (P : 0 < a) by (change (2 ^ 53) with 9007199254740992 in H; lia). assert (L := Z.log2_spec a P).
  assert (53 <= Z.log2 a). { apply Z.log2_le_pow2; lia. }
  unfold m. rewrite <- !Z.pow_add_r by lia. replace (52 + (Z.log2 a - 52)) with (Z.log2 a) by lia. replace (53 + (Z.log2 a - 52)) with (Z.succ (Z.log2 a)) by lia.
  split; [|done]. apply Z.pow_pos_nonneg; lia.
Qed.
Lemma near_range a m : 0 < m -> 2 ^ 52 * m <= a < 2 ^ 53 * m -> exists q, near a m = q * m /\ 2 ^ 52 <= q <= 2 ^ 53.
Proof.
  intros Hm H. unfold near. cbv zeta. assert (B1 : 2 ^ 52 <= a / m) by (apply Z.div_le_lower_bound; lia).
  assert (B2 : a / m < 2 ^ 53) by (apply Z.div_lt_upper_bound; lia). eexists. split; [done|].
  destruct (_ <? _); [lia|]. destruct (_ <? _); [lia|]. destruct (Z.even _); lia.
Qed.
Lemma near_sign a : 2 ^ 53 < a -> 0 < near a (2 ^ (Z.log2 a - 52)).
Proof. intros H. destruct (big_scale a H) as [Hm Ha]. destruct (near_range _ _ Hm Ha) as (q & -> & Hq). change (2 ^ 52) with 4503599627370496 in Hq. nia. Qed.
(** Large floats are multiples of the scale. *)
Lemma exact_multiple y E : 0 <= E -> float_exact 53 y -> 2 ^ 52 * 2 ^ E <= y -> exists k, y = k * 2 ^ E.
Proof.
  intros HE (m & e & He & -> & Hm) H. assert (P : 0 < 2 ^ e) by (apply Z.pow_pos_nonneg; lia).
  destruct (Z_le_dec E e) as [L|L].
  - exists (m * 2 ^ (e - E)). rewrite <- Z.mul_assoc, <- Z.pow_add_r by lia. do 2 f_equal. lia.
  - assert (Ee : 2 ^ E = 2 ^ e * 2 ^ (E - e)) by (rewrite <- Z.pow_add_r by lia; f_equal; lia).
    assert (G : 2 ^ 1 <= 2 ^ (E - e)) by (apply Z.pow_le_mono_r; lia). change (2 ^ 1) with 2 in G.
    set (g := 2 ^ (E - e)) in *. set (p := 2 ^ e) in *. change (2 ^ 53) with 9007199254740992 in Hm. change (2 ^ 52) with 4503599627370496 in H.
    rewrite Ee in *. assert (4503599627370496 * g <= m) by nia. exists 4503599627370496. assert (g = 2) by lia. subst. nia.
Qed.
Lemma float_exact_opp b v : float_exact b v -> float_exact b (- v).
Proof. intros (m & e & He & -> & Hm). exists (- m), e. split; [done|]. split; [lia|lia]. Qed.
Lemma rnd_opp z : rnd (- z) = - rnd z.
Proof. unfold rnd. cbv zeta. rewrite Z.abs_opp, Z.sgn_opp. destruct (_ <=? _); lia. Qed.
Lemma rnd_exact z : float_exact 53 (rnd z).
Proof.
  destruct (Z_le_dec (Z.abs z) (2 ^ 53)) as [L|L].
  - rewrite rnd_small by done. by exists z, 0; change (2 ^ 0) with 1; lia.
  - rewrite rnd_big by done. destruct (big_scale (Z.abs z)) as [Hm Ha]; [lia|]. set (E := Z.log2 (Z.abs z) - 52) in *.
    destruct (near_range _ _ Hm Ha) as (q & -> & Hq). exists (Z.sgn z * q), E. split; [|split; [lia|]].
    + unfold E. assert (53 <= Z.log2 (Z.abs z)); [|lia]. apply Z.log2_le_pow2; change (2 ^ 53) with 9007199254740992 in *; lia.
    + change (2 ^ 53) with 9007199254740992 in *. change (2 ^ 52) with 4503599627370496 in *. destruct (Z.sgn_spec z) as [[? ->]|[[? ->]|[? ->]]]; lia.
Qed.
Lemma rnd_nearest_pos z y : 0 < z -> float_exact 53 y -> Z.abs (rnd z - z) <= Z.abs (y - z).
Proof.
  intros Pz Hy. destruct (Z_le_dec z (2 ^ 53)) as [L|L].
  - rewrite rnd_small by (unfold small; lia). lia.
  - rewrite rnd_big by (unfold small; lia). rewrite (Z.abs_eq z), (Z.sgn_pos z) by lia. rewrite Z.mul_1_l.
    destruct (big_scale z) as [Hm Ha]; [lia|]. cbv zeta in Hm, Ha. set (E := Z.log2 z - 52) in *.
    assert (HE : 0 <= E). { unfold E. assert (53 <= Z.log2 z); [|lia]. apply Z.log2_le_pow2; change (2 ^ 53) with 9007199254740992 in *; lia. }
    destruct (Z_le_dec (2 ^ 52 * 2 ^ E) y) as [G|G].
    + destruct (exact_multiple y E HE Hy G) as [k ->]. by apply near_nearest.
    + assert (N := near_nearest z (2 ^ E) (2 ^ 52) Hm). lia.
Qed.
Lemma rnd_nearest z y : float_exact 53 y -> Z.abs (rnd z - z) <= Z.abs (y - z).
Proof.
  intros Hy. destruct (Z_lt_dec 0 z); [by apply rnd_nearest_pos|]. destruct (Z.eq_dec z 0) as [-> |].
  { rewrite rnd_small by (by vm_compute). lia. }
  assert (X := rnd_nearest_pos (- z) (- y)). rewrite rnd_opp in X. apply float_exact_opp in Hy. assert (Z.abs (- rnd z - - z) <= Z.abs (- y - - z)) by (apply X; [lia|done]). lia.
Qed.
Lemma rnd_fix z : rnd z = z <-> float_exact 53 z.
Proof.
  split; [intros <-; apply rnd_exact|]. intros H. assert (N := rnd_nearest z z H). lia.
Qed.
Lemma rnd_mono a b : a <= b -> rnd a <= rnd b.
Proof.
  intros H. destruct (Z.eq_dec a b) as [-> |]; [done|]. assert (N1 := rnd_nearest a (rnd b) (rnd_exact b)). assert (N2 := rnd_nearest b (rnd a) (rnd_exact a)). lia.
Qed.

(** * Expressions *)
Ltac p53 := change (2 ^ 53) with 9007199254740992 in *; change (2 ^ 63) with 9223372036854775808 in *; change (2 ^ 64) with 18446744073709551616 in *.
Lemma to_i64_id v : 0 <= v < 2 ^ 63 -> to_i64 v = v.
Proof. unfold to_i64. p53. cbv zeta. intros H. destruct (_ <? _) eqn:E; lia. Qed.
Lemma f_to_i64_small v : small v -> f_to_i64 v = Ok v.
Proof. unfold small, f_to_i64. p53. intros H. destruct (_ && _) eqn:E; [done|lia]. Qed.
Lemma flagged_small v : small v -> flagged_result v = Ok (LInt v).
Proof.
  intros H. unfold flagged_result. destruct (v <? 0) eqn:E; [by rewrite f_to_i64_small|].
  unfold f_to_u64, small in *. p53. destruct (_ && _) eqn:E2; [|lia]. cbn. rewrite to_i64_id; [done|]. p53. lia.
Qed.
Lemma int_result_small low v : small v -> (low = true \/ 0 <= v) -> int_result low v = Ok (LInt v).
Proof.
  intros H O. unfold int_result. rewrite f_to_i64_small by done. cbn. destruct low; [done|]. destruct O as [?|O]; [done|].
  unfold f_to_u64, small in *. p53. destruct (_ && _) eqn:E2; [|lia]. cbn. rewrite to_i64_id; [done|]. p53. lia.
Qed.
Lemma fold_small low o a b : arithmetic o = true -> small a -> small b -> defined o a b -> small (meaning o a b) ->
  (low = true \/ 0 <= meaning o a b) -> fold_op low o (LInt a) (LInt b) = Ok (LInt (meaning o a b)).
Proof.
  intros A Ha Hb D Hm O. destruct o; try done; cbn [fold_op num bind]; rewrite (rnd_small a), (rnd_small b) by done; cbn [bind].
  1-3: cbn [meaning] in *; rewrite rnd_small by done; cbn [set_num]; by apply int_result_small.
  all: rewrite !f_to_i64_small by done; cbn [bind i64_op meaning defined] in *.
  - replace ((b =? 0) || _) with false by (unfold small in *; p53; lia). cbn [bind]. rewrite rnd_small by done. by apply int_result_small.
  - replace ((b =? 0) || _) with false by (unfold small in *; p53; lia). cbn [bind]. rewrite rnd_small by done. by apply int_result_small.
  - rewrite rnd_small by done. by apply int_result_small.
  - rewrite rnd_small by done. by apply int_result_small.
  - rewrite rnd_small by done. by apply int_result_small.
  - replace ((b <? 0) || _ || _ || _) with false by (unfold small in *; p53; lia). cbn [bind]. rewrite rnd_small by done. by apply int_result_small.
  - replace ((b <? 0) || _) with false by lia. cbn [bind]. rewrite rnd_small by done. by apply int_result_small.
Qed.
Lemma eval_ints e v : ints e v -> small v /\ eval e = Ok (NLit (LInt v)).
Proof.
  induction 1 as [v H|e v L H [IH1 IH2]|e v H [IH1 IH2]|e v H [IH1 IH2]|low o e1 e2 a b A H1 [IH11 IH12] H2 [IH21 IH22] D S O].
  - done.
  - split; [done|]. cbn. by rewrite L.
  - split; [unfold small in *; lia|]. cbn. rewrite IH2. cbn. rewrite rnd_small by done. rewrite flagged_small; [done|]. unfold small in *. lia.
  - split; [done|]. cbn. rewrite IH2. cbn. rewrite rnd_small by done. by rewrite flagged_small.
  - split; [done|]. cbn [eval]. rewrite IH12, IH22. cbn [bind lit_of]. by rewrite fold_small.
Qed.
Lemma eval_bools e P : bools e P -> exists b : bool, eval e = Ok (NLit (LBool b)) /\ (b = true <-> P).
Proof.
  induction 1 as [b|e P L H (b & IH1 & IH2)|low o e1 e2 a b C H1 H2|low e1 e2 P Q H1 (b1 & E1 & I1) H2 (b2 & E2 & I2)
    |e1 e2 P Q H1 (b1 & E1 & I1) H2 (b2 & E2 & I2)|e1 e2 P Q H1 (b1 & E1 & I1) H2 (b2 & E2 & I2)|e P H (b & IH1 & IH2)].
  - by exists b.
  - exists b. cbn. by rewrite L.
  - apply eval_ints in H1 as [S1 E1]. apply eval_ints in H2 as [S2 E2]. cbn [eval]. rewrite E1, E2. cbn [bind lit_of].
    destruct o; try done; cbn [fold_op num bind]; rewrite !rnd_small by done; eexists; (split; [reflexivity|]); cbn [relation]; lia.
  - exists (b2z b1 =? b2z b2). cbn [eval]. rewrite E1, E2. cbn. split; [done|]. rewrite <- I1, <- I2. destruct b1, b2; cbn; intuition congruence.
  - exists (b1 && b2). cbn [eval]. rewrite E1, E2. cbn. split; [by destruct b1, b2|]. rewrite <- I1, <- I2. destruct b1, b2; cbn; intuition congruence.
  - exists (b1 || b2). cbn [eval]. rewrite E1, E2. cbn. split; [by destruct b1, b2|]. rewrite <- I1, <- I2. destruct b1, b2; cbn; intuition congruence.
  - exists (negb b). cbn. rewrite IH1. cbn. split; [done|]. rewrite <- IH2. destruct b; cbn; intuition congruence.
Qed.
