From Coq Require Import ZifyBool ZifyNat ZifyN.
From stdpp Require Import numbers list.
From Verif Require Import Utf8Model Utf8Spec BswapProofs.
Ltac Zify.zify_post_hook ::= Z.div_mod_to_equations.
Local Open Scope N_scope.
Local Arguments N.modulo : simpl never.
Local Arguments N.div : simpl never.
Local Arguments N.land : simpl never.
Local Arguments N.lor : simpl never.
Local Arguments N.shiftl : simpl never.
Local Arguments N.shiftr : simpl never.
Local Arguments N.add : simpl never.
Local Arguments N.mul : simpl never.
Local Arguments N.eqb : simpl never.
Local Arguments N.ltb : simpl never.
Local Arguments N.leb : simpl never.

(** Finite sweeps. *)
Definition all_below (n : nat) (f : N -> bool) : bool := forallb (fun i => f (N.of_nat i)) (seq 0 n).
Lemma all_below_spec n f : all_below n f = true -> forall x, x < N.of_nat n -> f x = true.
Proof.
  unfold all_below. intros H x Hx. rewrite forallb_forall in H.
  specialize (H (N.to_nat x)). rewrite N2Nat.id in H. apply H.
  apply in_seq. lia.
Qed.

Lemma lor_C0 x : x < 32 -> to_char (N.lor 0xC0 x) = 192 + x.
Proof. intros H. apply N.eqb_eq. revert x H. apply (all_below_spec 32 (fun x => to_char (N.lor 0xC0 x) =? 192 + x)). by vm_compute. Qed.
Lemma lor_E0 x : x < 16 -> to_char (N.lor 0xE0 x) = 224 + x.
Proof. intros H. apply N.eqb_eq. revert x H. apply (all_below_spec 16 (fun x => to_char (N.lor 0xE0 x) =? 224 + x)). by vm_compute. Qed.
Lemma lor_F0 x : x < 8 -> to_char (N.lor 0xF0 x) = 240 + x.
Proof. intros H. apply N.eqb_eq. revert x H. apply (all_below_spec 8 (fun x => to_char (N.lor 0xF0 x) =? 240 + x)). by vm_compute. Qed.
Lemma lor_80 x : x < 64 -> to_char (N.lor 0x80 x) = 128 + x.
Proof. intros H. apply N.eqb_eq. revert x H. apply (all_below_spec 64 (fun x => to_char (N.lor 0x80 x) =? 128 + x)). by vm_compute. Qed.
Lemma land_3F x : N.land x 0x3F = x mod 64.
Proof. change 0x3F with (N.ones 6). by rewrite N.land_ones. Qed.
Lemma cont_byte x : to_char (N.lor 0x80 (N.land x 0x3F)) = 128 + x mod 64.
Proof. rewrite land_3F. apply lor_80. by apply N.mod_lt. Qed.
Lemma shiftr_div x n : N.shiftr x n = x / 2 ^ n.
Proof. apply N.shiftr_div_pow2. Qed.

Lemma wcharToStr_utf8 c : c < 0x200000 -> wcharToStr c = COk (utf8 c).
Proof.
  intros Hc. unfold wcharToStr, utf8. rewrite !cont_byte, !shiftr_div.
  change 0x80 with 128. change 0x800 with 2048. change 0x10000 with 65536.
  destruct (N.ltb_spec c 128).
  { unfold to_char. by rewrite N.mod_small by lia. }
  destruct (N.ltb_spec c 2048).
  { rewrite lor_C0 by (change (2 ^ 6) with 64; lia). done. }
  destruct (N.ltb_spec c 65536).
  { rewrite lor_E0 by (change (2 ^ 12) with 4096; lia). done. }
  rewrite (proj2 (N.ltb_lt _ _)) by done.
  rewrite lor_F0 by (change (2 ^ 18) with 262144; lia). done.
Qed.
Lemma appendChar_utf8 c : c < 0x10000 -> appendChar c = utf8 c.
Proof.
  intros Hc. unfold appendChar, utf8. rewrite !cont_byte, !shiftr_div.
  change 0x80 with 128. change 0x800 with 2048. change 0x10000 with 65536.
  destruct (N.ltb_spec c 128).
  { unfold to_char. by rewrite N.mod_small by lia. }
  destruct (N.ltb_spec c 2048).
  { rewrite lor_C0 by (change (2 ^ 6) with 64; lia). done. }
  rewrite (proj2 (N.ltb_lt c _)) by lia.
  rewrite lor_E0 by (change (2 ^ 12) with 4096; lia). done.
Qed.
(** In the supplementary planes the first byte takes [c >> 16] instead of
    [c >> 18]. *)
Lemma appendChar_supplementary c : 0x10000 <= c < 0x110000 ->
  appendChar c = [to_char (N.lor 0xF0 (c / 65536)); 128 + c / 4096 mod 64; 128 + c / 64 mod 64; 128 + c mod 64].
Proof.
  intros Hc. unfold appendChar. rewrite !cont_byte, !shiftr_div.
  rewrite !(proj2 (N.ltb_ge c _)) by lia. by rewrite (proj2 (N.ltb_lt c _)) by lia.
Qed.
Lemma appendChar_sup_right c : 0x10000 <= c < 0x110000 ->
  (appendChar c = utf8 c <-> to_char (N.lor 0xF0 (c / 65536)) = 240 + c / 262144).
Proof.
  intros Hc. rewrite appendChar_supplementary by done. unfold utf8.
  rewrite !(proj2 (N.ltb_ge c _)) by lia. split; [intros H; by injection H|intros ->; done].
Qed.

(** The finite part: the first byte is wrong in every supplementary plane. *)
Lemma plane_check p : 1 <= p -> p < 17 -> to_char (N.lor 0xF0 p) <> 240 + p / 4.
Proof.
  intros H1 Hp. apply N.eqb_neq.
  assert (H : negb (to_char (N.lor 0xF0 p) =? 240 + p / 4) || (p =? 0) = true).
  { clear H1. revert p Hp.
    apply (all_below_spec 17 (fun p => negb (to_char (N.lor 0xF0 p) =? 240 + p / 4) || (p =? 0))).
    by vm_compute. }
  apply orb_true_iff in H as [H|H]; [by apply negb_true_iff in H|lia].
Qed.
Lemma appendChar_exact c : c < 0x110000 -> appendChar c = utf8 c <-> c < 0x10000.
Proof.
  intros Hc. split; [|apply appendChar_utf8].
  intros H. destruct (N.lt_ge_cases c 0x10000) as [|Hge]; [done|exfalso].
  apply appendChar_sup_right in H; [|lia].
  replace (c / 262144) with ((c / 65536) / 4) in H by (rewrite N.div_div by done; done).
  apply plane_check in H; [done|lia|lia].
Qed.

(** Decoding. *)
Lemma clz_C0 a : a < 32 -> countLeadingZeros (192 + a) = 2.
Proof. intros H. apply N.eqb_eq. revert a H. apply (all_below_spec 32 (fun a => countLeadingZeros (192 + a) =? 2)). by vm_compute. Qed.
Lemma clz_E0 a : a < 16 -> countLeadingZeros (224 + a) = 3.
Proof. intros H. apply N.eqb_eq. revert a H. apply (all_below_spec 16 (fun a => countLeadingZeros (224 + a) =? 3)). by vm_compute. Qed.
Lemma clz_F0 a : a < 8 -> countLeadingZeros (240 + a) = 4.
Proof. intros H. apply N.eqb_eq. revert a H. apply (all_below_spec 8 (fun a => countLeadingZeros (240 + a) =? 4)). by vm_compute. Qed.
Lemma land_1F a : a < 32 -> N.land (192 + a) 0x1F = a.
Proof. intros H. change 0x1F with (N.ones 5). rewrite N.land_ones. change (2 ^ 5) with 32. lia. Qed.
Lemma land_0F a : a < 16 -> N.land (224 + a) 0xF = a.
Proof. intros H. change 0xF with (N.ones 4). rewrite N.land_ones. change (2 ^ 4) with 16. lia. Qed.
Lemma land_07 a : a < 8 -> N.land (240 + a) 0x7 = a.
Proof. intros H. change 0x7 with (N.ones 3). rewrite N.land_ones. change (2 ^ 3) with 8. lia. Qed.
Lemma land_cont b : b < 64 -> N.land (128 + b) 0x3F = b.
Proof. intros H. rewrite land_3F. lia. Qed.

Lemma glue2 a b : b < 64 -> N.lor (N.shiftl a 6) b = a * 64 + b.
Proof.
  intros H. rewrite N.shiftl_mul_pow2, N.lor_comm, lor_add by (change (2 ^ 6) with 64; lia).
  change (2 ^ 6) with 64. lia.
Qed.
Lemma glue3 a b c : b < 64 -> c < 64 ->
  N.lor (N.lor (N.shiftl a 12) (N.shiftl b 6)) c = a * 4096 + b * 64 + c.
Proof.
  intros Hb Hc.
  assert (E : N.shiftl a 12 = N.shiftl (N.shiftl a 6) 6) by (by rewrite N.shiftl_shiftl).
  rewrite E, <- N.shiftl_lor, glue2 by done. rewrite glue2 by done. lia.
Qed.
Lemma glue4 a b c d : b < 64 -> c < 64 -> d < 64 ->
  N.lor (N.lor (N.lor (N.shiftl a 18) (N.shiftl b 12)) (N.shiftl c 6)) d
  = a * 262144 + b * 4096 + c * 64 + d.
Proof.
  intros Hb Hc Hd.
  assert (E : N.shiftl a 18 = N.shiftl (N.shiftl a 12) 6) by (by rewrite N.shiftl_shiftl).
  assert (E2 : N.shiftl b 12 = N.shiftl (N.shiftl b 6) 6) by (by rewrite N.shiftl_shiftl).
  rewrite E, E2, <- !N.shiftl_lor, glue3 by done. rewrite glue2 by done. lia.
Qed.

Lemma ones_pos s0 k : countLeadingZeros s0 = k -> k <> 0 -> s0 < 256 -> 128 <= s0.
Proof.
  intros H Hk Hs. destruct (N.le_gt_cases 128 s0) as [|Hlt]; [done|exfalso].
  assert (E : (countLeadingZeros s0 =? 0) = true).
  { clear -Hlt. revert s0 Hlt. apply (all_below_spec 128 (fun a => countLeadingZeros a =? 0)). by vm_compute. }
  lia.
Qed.

Lemma readChar_utf8 c rest len :
  c < 0x200000 -> c <> 92 -> N.of_nat (length (utf8 c)) <= len ->
  readChar (utf8 c ++ rest) len = COk (N.of_nat (length (utf8 c)), Some c).
Proof.
  intros Hc Hne. unfold utf8.
  destruct (N.ltb_spec c 128) as [H1|H1].
  { intros Hl. cbn in Hl. cbn [app readChar].
    rewrite (proj2 (N.leb_gt 128 c)) by lia. unfold convertEscapeSeq.
    rewrite (proj2 (N.eqb_neq len 0)) by lia.
    rewrite (proj2 (N.eqb_neq c 92)) by lia.
    by rewrite (proj2 (N.leb_gt 128 c)) by lia. }
  destruct (N.ltb_spec c 2048) as [H2|H2].
  { intros Hl. cbn in Hl. cbn [app readChar].
    assert (Ha : c / 64 < 32) by lia. assert (Hb : c mod 64 < 64) by lia.
    rewrite (proj2 (N.leb_le 128 _)) by lia. rewrite clz_C0 by done.
    rewrite (proj2 (N.ltb_ge _ _)) by lia. unfold convertEscapeSeq.
    rewrite (proj2 (N.eqb_neq (192 + c / 64) 92)) by lia.
    rewrite (proj2 (N.leb_le 128 _)) by lia. unfold convertStrToUtf32. rewrite clz_C0 by done.
    cbn -[N.lor N.shiftl N.land N.div N.modulo N.add].
    rewrite land_1F, land_cont, glue2 by done. repeat f_equal. lia. }
  destruct (N.ltb_spec c 65536) as [H3|H3].
  { intros Hl. cbn in Hl. cbn [app readChar].
    assert (Ha : c / 4096 < 16) by lia. assert (Hb : c / 64 mod 64 < 64) by lia.
    assert (Hd : c mod 64 < 64) by lia.
    rewrite (proj2 (N.leb_le 128 _)) by lia. rewrite clz_E0 by done.
    rewrite (proj2 (N.ltb_ge _ _)) by lia. unfold convertEscapeSeq.
    rewrite (proj2 (N.eqb_neq (224 + c / 4096) 92)) by lia.
    rewrite (proj2 (N.leb_le 128 _)) by lia. unfold convertStrToUtf32. rewrite clz_E0 by done.
    cbn -[N.lor N.shiftl N.land N.div N.modulo N.add].
    rewrite land_0F, !land_cont, glue3 by done. repeat f_equal. lia. }
  { intros Hl. cbn in Hl. cbn [app readChar].
    assert (Ha : c / 262144 < 8) by lia. assert (Hb : c / 4096 mod 64 < 64) by lia.
    assert (Hd : c / 64 mod 64 < 64) by lia. assert (He : c mod 64 < 64) by lia.
    rewrite (proj2 (N.leb_le 128 _)) by lia. rewrite clz_F0 by done.
    rewrite (proj2 (N.ltb_ge _ _)) by lia. unfold convertEscapeSeq.
    rewrite (proj2 (N.eqb_neq (240 + c / 262144) 92)) by lia.
    rewrite (proj2 (N.leb_le 128 _)) by lia. unfold convertStrToUtf32. rewrite clz_F0 by done.
    cbn -[N.lor N.shiftl N.land N.div N.modulo N.add].
    rewrite land_07, !land_cont, glue4 by done. repeat f_equal. lia. }
Qed.
