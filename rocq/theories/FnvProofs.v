(** Proofs about FnvModel. *)
From Coq Require Import ZifyBool ZifyNat ZifyN.
From stdpp Require Import list numbers.
From Verif Require Import FnvModel FnvSpec.
Ltac Zify.zify_post_hook ::= Z.div_mod_to_equations.
Local Open Scope N_scope.
Local Arguments N.modulo : simpl never.
Local Arguments N.div : simpl never.
Local Arguments N.mul : simpl never.
Local Arguments N.add : simpl never.
Local Arguments N.sub : simpl never.
Local Arguments N.pow : simpl never.
Local Arguments N.eqb : simpl never.
Local Arguments N.ltb : simpl never.

Lemma mul_prime_inj a b :
  a < 2 ^ 32 -> b < 2 ^ 32 ->
  (a * 0x01000193) mod 2 ^ 32 = (b * 0x01000193) mod 2 ^ 32 -> a = b.
Proof.
  intros Ha Hb H.
  assert (E : forall x, x < 2 ^ 32 ->
    (((x * 0x01000193) mod 2 ^ 32) * 899433627) mod 2 ^ 32 = x).
  { intros x Hx. rewrite N.mul_mod_idemp_l by done. rewrite <- N.mul_assoc.
    change (0x01000193 * 899433627) with (1 + 3513497 * 2 ^ 32).
    replace (x * (1 + 3513497 * 2 ^ 32)) with (x + x * 3513497 * 2 ^ 32) by lia.
    rewrite N.mod_add by done. by apply N.mod_small. }
  rewrite <- (E a), <- (E b), H by done. done.
Qed.

Lemma lxor_lt h x : h < 2 ^ 32 -> x < 2 ^ 32 -> N.lxor h x < 2 ^ 32.
Proof.
  intros Hh Hx. destruct (decide (N.lxor h x = 0)) as [->|Hn]; [done|].
  apply N.log2_lt_pow2; [lia|].
  eapply N.le_lt_trans; [apply N.log2_lxor|].
  apply N.max_lub_lt.
  - destruct (decide (h = 0)) as [->|?]; [done|]. apply N.log2_lt_pow2; lia.
  - destruct (decide (x = 0)) as [->|?]; [done|]. apply N.log2_lt_pow2; lia.
Qed.

Lemma fnv_byte_lt h x : fnv_byte h x < 2 ^ 32.
Proof. unfold fnv_byte. by apply N.mod_lt. Qed.

Lemma fnv_byte_inj h h' x y :
  h < 2 ^ 32 -> h' < 2 ^ 32 -> x < 256 -> y < 256 ->
  fnv_byte h x = fnv_byte h' y -> N.lxor h x = N.lxor h' y.
Proof.
  unfold fnv_byte. intros ???? H. apply mul_prime_inj in H; [done| |];
    apply lxor_lt; lia.
Qed.

Lemma lxor_inj_l h h' x : N.lxor h x = N.lxor h' x -> h = h'.
Proof.
  intros H. apply (f_equal (fun z => N.lxor z x)) in H.
  by rewrite !N.lxor_assoc, N.lxor_nilpotent, !N.lxor_0_r in H.
Qed.
Lemma lxor_inj_r h x y : N.lxor h x = N.lxor h y -> x = y.
Proof. rewrite !(N.lxor_comm h). apply lxor_inj_l. Qed.

Lemma raw_lt h s : h < 2 ^ 32 -> hash_raw_bytes h s < 2 ^ 32.
Proof.
  revert h. induction s as [|x s IH]; intros h Hh; [done|]. cbn.
  apply IH, fnv_byte_lt.
Qed.
Lemma raw_app h a b : hash_raw_bytes h (a ++ b) = hash_raw_bytes (hash_raw_bytes h a) b.
Proof. unfold hash_raw_bytes. by rewrite fold_left_app. Qed.

Lemma raw_inj h h' s :
  h < 2 ^ 32 -> h' < 2 ^ 32 -> is_bytes s ->
  hash_raw_bytes h s = hash_raw_bytes h' s -> h = h'.
Proof.
  revert h h'. induction s as [|x s IH]; intros h h' Hh Hh' Hs H; [done|].
  apply Forall_cons_1 in Hs as [Hx Hs]. cbn in H.
  apply IH in H; [|apply fnv_byte_lt..|done].
  apply fnv_byte_inj in H; [|done..]. by eapply lxor_inj_l.
Qed.

Lemma raw_one_byte h a b :
  h < 2 ^ 32 -> is_bytes a -> is_bytes b -> one_byte_differs a b ->
  hash_raw_bytes h a <> hash_raw_bytes h b.
Proof.
  intros Hh Ha Hb (p & x & y & q & -> & -> & Hne) H.
  apply Forall_app in Ha as [Hp [Hx Hq]%Forall_cons_1].
  apply Forall_app in Hb as [_ [Hy _]%Forall_cons_1].
  rewrite !raw_app in H. cbn in H. apply raw_inj in H; [|apply fnv_byte_lt..|done].
  apply fnv_byte_inj in H; [|by apply raw_lt..|done|done].
  by apply lxor_inj_r in H.
Qed.

Lemma raw_fnv1a h s : hash_raw_bytes h s = fnv1a h s.
Proof. revert h. induction s as [|x s IH]; intros h; cbn; [done|]. apply IH. Qed.

Lemma hash_uint8_byte h x : x < 256 -> hash_uint8 h x = fnv_byte h x.
Proof. intros. unfold hash_uint8. by rewrite N.mod_small. Qed.

Lemma hash_str_spec h s rest :
  is_bytes s -> 0 ∉ s -> hash_str h (s ++ 0 :: rest) = Some (fnv1a h s).
Proof.
  revert h. induction s as [|x s IH]; intros h Hs Hn; [done|].
  apply Forall_cons_1 in Hs as [Hx Hs]. apply not_elem_of_cons in Hn as [Hn0 Hn].
  cbn. destruct (N.eqb_spec x 0) as [->|_]; [done|].
  rewrite hash_uint8_byte by done. rewrite IH by done. done.
Qed.
Lemma hash_str_unterminated h s : 0 ∉ s -> hash_str h s = None.
Proof.
  revert h. induction s as [|x s IH]; intros h Hn; [done|].
  apply not_elem_of_cons in Hn as [Hn0 Hn]. cbn.
  destruct (N.eqb_spec x 0) as [->|_]; [done|]. by apply IH.
Qed.

Lemma n_string_loop_spec h s rest i len :
  is_bytes s -> len = i + N.of_nat (length s) ->
  n_string_loop h (s ++ rest) i len = Some (fnv1a h s).
Proof.
  revert h i. induction s as [|x s IH]; intros h i Hs Hlen.
  - cbn in Hlen. assert (E : (i <? len) = false) by lia.
    destruct rest; cbn; by rewrite E.
  - apply Forall_cons_1 in Hs as [Hx Hs]. cbn [length] in Hlen. cbn.
    assert (E : (i <? len) = true) by lia. rewrite E.
    rewrite hash_uint8_byte by done. rewrite (IH _ (i + 1)) by (done || lia). done.
Qed.

Lemma bytes_loop_spec h s rest i last :
  is_bytes s -> last = i + N.of_nat (length s) ->
  bytes_loop h (s ++ rest) i last = Some (fnv1a h s).
Proof.
  revert h i. induction s as [|x s IH]; intros h i Hs Hlen.
  - cbn in Hlen. assert (E : (i =? last) = true) by lia.
    destruct rest; cbn; by rewrite E.
  - apply Forall_cons_1 in Hs as [Hx Hs]. cbn [length] in Hlen. cbn.
    assert (E : (i =? last) = false) by lia. rewrite E.
    rewrite hash_uint8_byte by done. rewrite (IH _ (i + 1)) by (done || lia). done.
Qed.
Lemma bytes_loop_oob h mem i last :
  i + N.of_nat (length mem) < last -> bytes_loop h mem i last = None.
Proof.
  revert h i. induction mem as [|x mem IH]; intros h i Hl; cbn.
  - cbn in Hl. by assert ((i =? last) = false) as -> by lia.
  - cbn [length] in Hl. assert ((i =? last) = false) as -> by lia. apply IH. lia.
Qed.

Lemma wrap_pred n : 0 < n -> n < 2 ^ 64 -> (n + (2 ^ 64 - 1)) mod 2 ^ 64 = n - 1.
Proof.
  intros. replace (n + (2 ^ 64 - 1)) with ((n - 1) + 1 * 2 ^ 64) by lia.
  rewrite N.mod_add by done. apply N.mod_small. lia.
Qed.

Lemma string_hash_last h s x rest :
  is_bytes s -> N.of_nat (length s) + 1 < 2 ^ 64 ->
  hash_fnv1a_bytes h (s ++ x :: rest) (N.of_nat (length s) + 1) = Some (fnv1a h s).
Proof.
  intros Hs Hl. unfold hash_fnv1a_bytes. rewrite wrap_pred by lia.
  apply bytes_loop_spec; [done|lia].
Qed.
Lemma string_hash_empty h mem :
  N.of_nat (length mem) < 2 ^ 64 - 1 -> hash_fnv1a_bytes h mem 0 = None.
Proof.
  intros Hl. unfold hash_fnv1a_bytes.
  change ((0 + (2 ^ 64 - 1)) mod 2 ^ 64) with (2 ^ 64 - 1).
  apply bytes_loop_oob. lia.
Qed.

(** Integers. *)
Lemma shiftr_div x n : N.shiftr x n = x / 2 ^ n.
Proof. apply N.shiftr_div_pow2. Qed.
Lemma land_mask x n : N.land x (N.ones n) = x mod 2 ^ n.
Proof. apply N.land_ones. Qed.

Lemma hash_uint16_le h x : x < 2 ^ 16 -> hash_uint16 h x = fnv1a h (le_bytes 2 x).
Proof.
  intros Hx. unfold hash_uint16. rewrite (N.mod_small x) by done.
  rewrite shiftr_div. change (2 ^ 8) with 256. unfold hash_uint8. cbn. done.
Qed.
Lemma le_bytes_app n m x :
  le_bytes (n + m) x = le_bytes n x ++ le_bytes m (x / 256 ^ N.of_nat n).
Proof.
  revert x. induction n as [|n IH]; intros x; cbn.
  - by rewrite N.div_1_r.
  - f_equal. rewrite IH. f_equal. f_equal.
    rewrite N.div_div by (try done; apply N.pow_nonzero; done).
    f_equal. rewrite <- N.pow_succ_r'. f_equal. lia.
Qed.
Lemma le_bytes_mod n x : le_bytes n (x mod 256 ^ N.of_nat n) = le_bytes n x.
Proof.
  revert x. induction n as [|n IH]; intros x; cbn; [done|].
  assert (P : 256 ^ N.pos (Pos.of_succ_nat n) = 256 * 256 ^ N.of_nat n).
  { rewrite <- N.pow_succ_r'. f_equal. lia. }
  rewrite P. assert (Hnz : 256 ^ N.of_nat n <> 0) by (apply N.pow_nonzero; done).
  rewrite N.mod_mul_r by done.
  f_equal.
  - rewrite N.mul_comm, N.mod_add by done. by rewrite N.mod_mod.
  - rewrite N.mul_comm, N.div_add by done.
    rewrite (N.div_small (x mod 256)) by (by apply N.mod_lt).
    rewrite N.add_0_l. apply IH.
Qed.
Lemma fnv1a_app h a b : fnv1a h (a ++ b) = fnv1a (fnv1a h a) b.
Proof. revert h. induction a as [|x a IH]; intros h; cbn; [done|apply IH]. Qed.

Lemma hash_uint16_le' h x : hash_uint16 h x = fnv1a h (le_bytes 2 x).
Proof.
  transitivity (hash_uint16 h (x mod 2 ^ 16)).
  - unfold hash_uint16. by rewrite N.mod_mod.
  - rewrite hash_uint16_le by (by apply N.mod_lt).
    change (2 ^ 16) with (256 ^ N.of_nat 2). by rewrite le_bytes_mod.
Qed.
Lemma hash_uint32_le h x : hash_uint32 h x = fnv1a h (le_bytes 4 x).
Proof.
  unfold hash_uint32. rewrite !hash_uint16_le', shiftr_div, <- fnv1a_app.
  change (2 ^ 16) with (256 ^ N.of_nat 2). rewrite <- le_bytes_app. cbn [Nat.add].
  change (2 ^ 32) with (256 ^ N.of_nat 4). by rewrite le_bytes_mod.
Qed.
Lemma hash_uint64_le h x : hash_uint64 h x = fnv1a h (le_bytes 8 x).
Proof.
  unfold hash_uint64. rewrite !hash_uint32_le, shiftr_div, <- fnv1a_app.
  change (2 ^ 32) with (256 ^ N.of_nat 4). rewrite <- le_bytes_app. cbn [Nat.add].
  change (2 ^ 64) with (256 ^ N.of_nat 8). by rewrite le_bytes_mod.
Qed.

Lemma rt_uint16_le h x : rt_hash_uint16 h x = fnv1a h (le_bytes 2 x).
Proof.
  unfold rt_hash_uint16. change 0xff with (N.ones 8). rewrite land_mask, shiftr_div.
  change (2 ^ 8) with 256. unfold hash_uint8. rewrite N.mod_mod by done. cbn. done.
Qed.
Lemma rt_uint32_le h x : rt_hash_uint32 h x = fnv1a h (le_bytes 4 x).
Proof.
  unfold rt_hash_uint32. change 0xffff with (N.ones 16). rewrite land_mask.
  rewrite !rt_uint16_le, shiftr_div, <- fnv1a_app.
  change (2 ^ 16) with (256 ^ N.of_nat 2). rewrite le_bytes_mod.
  rewrite <- le_bytes_app. done.
Qed.
Lemma rt_uint64_le h x : rt_hash_uint64 h x = fnv1a h (le_bytes 8 x).
Proof.
  unfold rt_hash_uint64. change 0xffffffff with (N.ones 32). rewrite land_mask.
  rewrite !rt_uint32_le, shiftr_div, <- fnv1a_app.
  change (2 ^ 32) with (256 ^ N.of_nat 4). rewrite le_bytes_mod.
  rewrite <- le_bytes_app. done.
Qed.
