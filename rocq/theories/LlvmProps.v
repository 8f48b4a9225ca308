(** C72, C73: run-time casts and operators on primitive types. *)
From Coq Require Import ZArith Lia ZifyBool.
From stdpp Require Import numbers list.
From Verif Require Import PrimModel PrimSpec PrimProofs LlvmModel LlvmSpec LlvmProofs.
Local Open Scope Z_scope.

(** * C72: casts *)
(** Between integer and character types a cast gives the value of the target that the
    operand wraps around to. *)
Theorem C72_integers : forall to from v, integral to = true -> integral from = true -> holds from v ->
  exists x, run_cast to from (Reg (enc from v)) = Reg x /\ wraps_to to v (dec to x).
Proof.
  intros to from v It If H. exists (enc to v). split; [by apply cast_enc|]. unfold enc, trunc_to. by apply dec_wraps.
Qed.
Print Assumptions C72_integers.
(** A value that fits is unchanged. *)
Theorem C72_fitting : forall to from v, integral to = true -> integral from = true -> holds from v -> holds to v ->
  exists x, run_cast to from (Reg (enc from v)) = Reg x /\ dec to x = v.
Proof. intros to from v It If H1 H2. exists (enc to v). split; [by apply cast_enc|by apply dec_enc]. Qed.
Print Assumptions C72_fitting.
(** From an integer to a float, the number converted is the operand exactly when the top
    bit is clear: the signed and the unsigned instruction are swapped. *)
Theorem C72_to_float_exact : forall to from v, is_float to = true -> integral from = true -> holds from v ->
  (run_cast to from (Reg (enc from v)) = Flt v 1 <-> 0 <= v < 2 ^ (width from - 1)).
Proof.
  intros to from v Ft If H. unfold run_cast, cast_instr. destruct (decide (to = from)) as [-> |]; [by destruct from|]. rewrite Ft.
  rewrite (integral_nf from) by done. assert (Hh := half from). assert (Hp : 0 < 2 ^ (width from - 1)) by (destruct from; by vm_compute).
  destruct (is_unsigned from || is_char from) eqn:U.
  - assert (S : is_signed_int from = false) by (by destruct from). apply holds_unsigned in H; [|done|done].
    unfold enc, trunc_to. rewrite Z.mod_small by done. unfold as_signed. split.
    + intros E. injection E as E. destruct (_ <? _) eqn:L in E; lia.
    + intros B. destruct (_ <? _) eqn:L; [done|lia].
  - assert (S : is_signed_int from = true) by (by destruct from). apply holds_signed in H; [|done]. unfold enc, trunc_to. split.
    + intros E. injection E as E. assert (X := Z.mod_pos_bound v (2 ^ width from)). lia.
    + intros B. rewrite Z.mod_small by lia. done.
Qed.
Print Assumptions C72_to_float_exact.
(** From a float to an integer type, a fraction whose whole part fits is truncated. *)
Theorem C72_from_float : forall to from n d, is_integer to = true -> is_float from = true ->
  holds to (Z.quot n (Z.pos d)) -> exists x, run_cast to from (Flt n d) = Reg x /\ dec to x = Z.quot n (Z.pos d).
Proof.
  intros to from n d It Ff H. exists (enc to (Z.quot n (Z.pos d))). split; [|apply dec_enc; [by apply int_integral|done]].
  unfold run_cast, cast_instr. destruct (decide (to = from)) as [-> |]; [by destruct from|].
  rewrite (integral_nf to) by (by apply int_integral). rewrite It. cbn [orb].
  replace (is_unsigned from || is_char from) with false by (by destruct from). replace (is_signed_int from) with false by (by destruct from). rewrite Ff.
  set (t := Z.quot n (Z.pos d)) in *. unfold int_or_undefined, enc, trunc_to.
  destruct (is_unsigned to) eqn:U.
  - assert (S : is_signed_int to = false) by (by destruct to). apply holds_unsigned in H; [|by apply int_integral|done].
    destruct (_ && _) eqn:B; [|lia]. by rewrite Z.mod_small.
  - assert (S : is_signed_int to = true) by (by destruct to). apply holds_signed in H; [|done]. cbv zeta. destruct (_ && _) eqn:B; [done|lia].
Qed.
Print Assumptions C72_from_float.
(** A permitted cast stops the compiler exactly when it takes a boolean to an integer. *)
Theorem C72_unreachable_exact : forall to from, castable to from = true ->
  (cast_instr to from = Unreachable <-> is_integer to = true /\ from = Bool).
Proof.
  intros to from A. destruct to, from; vm_compute in A; try discriminate A; (split; [intros E; vm_compute in E; first [discriminate E|done]|intros [E1 E2]; first [discriminate E2|vm_compute in E1; discriminate E1|reflexivity]]).
Qed.
Print Assumptions C72_unreachable_exact.
Theorem C72_to_float_refuted :
  run_cast F64 I32 (Reg (enc I32 (-1))) = Flt 4294967295 1 /\ run_cast F64 U8 (Reg (enc U8 200)) = Flt (-56) 1.
Proof. by vm_compute. Qed.
Print Assumptions C72_to_float_refuted.
Theorem C72_bool_refuted : castable I32 Bool = true /\ run_cast I32 Bool (Reg (enc Bool 1)) = Invalid.
Proof. by vm_compute. Qed.
Print Assumptions C72_bool_refuted.
Example C72_example : run_cast I64 I8 (Reg (enc I8 (-3))) = Reg 18446744073709551613 /\ dec I64 18446744073709551613 = -3 /\
  run_cast U8 I32 (Reg (enc I32 300)) = Reg 44 /\ run_cast I16 F64 (Flt (-7) 2) = Reg (enc I16 (-3)) /\ run_cast U8 F32 (Flt 300 1) = Undefined.
Proof. by vm_compute. Qed.

(** * C73: operators *)
(** Sums, differences, products and bit operations of integers are right modulo the size
    of the result, whatever the signs of the operand types. *)
Theorem C73_modular : forall o p q r a b, o ∈ [Add; Sub; Mul; BAnd; BOr; BXor] -> is_integer p = true -> is_integer q = true ->
  promote p q = Some r -> holds p a -> holds q b ->
  exists x, run_binary o p q (Reg (enc p a)) (Reg (enc q b)) = Reg x /\ wraps_to r (meaning o a b) (dec r x).
Proof.
  intros o p q r a b O. apply modular_ok. repeat (apply elem_of_cons in O as [-> |O]; [done|]). by apply elem_of_nil in O.
Qed.
Print Assumptions C73_modular.
(** Division and remainder are those of the operands when the promoted type holds both. *)
Theorem C73_division : forall o p q r a b, (o = Div \/ o = Mod) -> is_integer p = true -> is_integer q = true ->
  promote p q = Some r -> keeps r p -> keeps r q -> holds p a -> holds q b -> b <> 0 ->
  ~ (is_signed_int r = true /\ a = - 2 ^ (width r - 1) /\ b = -1) ->
  exists x, run_binary o p q (Reg (enc p a)) (Reg (enc q b)) = Reg x /\ dec r x = meaning o a b.
Proof. exact div_ok. Qed.
Print Assumptions C73_division.
(** Comparisons of different integer types are right when the promoted type holds both. *)
Theorem C73_comparison_mixed : forall o p q r a b, is_comparison o = true -> p <> q -> is_integer p = true -> is_integer q = true ->
  promote p q = Some r -> keeps r p -> keeps r q -> holds p a -> holds q b ->
  run_binary o p q (Reg (enc p a)) (Reg (enc q b)) = Reg (meaning o a b).
Proof. exact compare_ok. Qed.
Print Assumptions C73_comparison_mixed.
(** Equality within one type is always right, and so is order within an unsigned type. *)
Theorem C73_equality : forall o p a b, (o = Eq \/ o = Ne) -> integral p = true -> holds p a -> holds p b ->
  run_binary o p p (Reg (enc p a)) (Reg (enc p b)) = Reg (meaning o a b).
Proof. intros o p a b O I Ha Hb. rewrite compare_same by (try done; by destruct O as [-> | ->]). by destruct O as [-> | ->]. Qed.
Print Assumptions C73_equality.
Theorem C73_order_unsigned : forall o p a b, o ∈ [Lt; Gt; Le; Ge] -> integral p = true -> is_signed_int p = false -> holds p a -> holds p b ->
  run_binary o p p (Reg (enc p a)) (Reg (enc p b)) = Reg (meaning o a b).
Proof.
  intros o p a b O I S Ha Hb. assert (C : is_comparison o = true). { repeat (apply elem_of_cons in O as [-> |O]; [done|]). by apply elem_of_nil in O. }
  rewrite compare_same by done. apply holds_unsigned in Ha; [|done|done]. apply holds_unsigned in Hb; [|done|done].
  rewrite !Z.mod_small by done. by destruct o.
Qed.
Print Assumptions C73_order_unsigned.
(** Order within one signed type is right exactly when both operands have the same sign. *)
Theorem C73_order_signed_exact : forall o p a b, o ∈ [Lt; Gt; Le; Ge] -> is_signed_int p = true -> holds p a -> holds p b ->
  (run_binary o p p (Reg (enc p a)) (Reg (enc p b)) = Reg (meaning o a b) <-> (a < 0 <-> b < 0)).
Proof.
  intros o p a b O S Ha Hb. assert (I : integral p = true) by (by destruct p).
  assert (C : is_comparison o = true). { repeat (apply elem_of_cons in O as [-> |O]; [done|]). by apply elem_of_nil in O. }
  rewrite compare_same by done. assert (Hh := half p). assert (P : 0 < 2 ^ (width p - 1)) by (destruct p; by vm_compute).
  apply holds_signed in Ha; [|done]. apply holds_signed in Hb; [|done].
  assert (M : forall v, - 2 ^ (width p - 1) <= v < 2 ^ (width p - 1) -> v mod 2 ^ width p = if v <? 0 then v + 2 ^ width p else v).
  { intros v Hv. destruct (v <? 0) eqn:L; [|apply Z.mod_small; lia]. symmetry. apply Z.mod_unique with (-1); lia. }
  rewrite (M a Ha), (M b Hb). clear M. set (h := 2 ^ (width p - 1)) in *. set (m := 2 ^ width p) in *.
  split.
  - intros E. injection E as E. destruct (a <? 0) eqn:La, (b <? 0) eqn:Lb; try lia; exfalso;
      repeat (apply elem_of_cons in O as [-> |O]; [cbn [meaning] in E; repeat case_decide; lia|]); by apply elem_of_nil in O.
  - intros E. f_equal. destruct (a <? 0) eqn:La, (b <? 0) eqn:Lb; try lia;
      (repeat (apply elem_of_cons in O as [-> |O]; [cbn [meaning]; repeat case_decide; lia|]); by apply elem_of_nil in O).
Qed.
Print Assumptions C73_order_signed_exact.
(** Shifts by less than the width: left ones are right; right ones are the floor of the
    quotient exactly when the operand is not negative or is not moved at all. *)
Theorem C73_shl : forall p q r a b, is_integer p = true -> is_integer q = true -> promote p q = Some r -> keeps r p -> keeps r q ->
  holds p a -> holds q b -> 0 <= b < width r ->
  exists x, run_binary Shl p q (Reg (enc p a)) (Reg (enc q b)) = Reg x /\ wraps_to r (meaning Shl a b) (dec r x).
Proof. exact shl_int. Qed.
Print Assumptions C73_shl.
Theorem C73_shr_exact : forall p q r a b, is_integer p = true -> is_integer q = true -> promote p q = Some r -> keeps r p -> keeps r q ->
  holds p a -> holds q b -> 0 <= b < width r ->
  exists x, run_binary Shr p q (Reg (enc p a)) (Reg (enc q b)) = Reg x /\ (dec r x = meaning Shr a b <-> 0 <= a \/ b = 0).
Proof.
  intros p q r a b Ip Iq E K1 K2 Ha Hb B. eexists. split; [by apply shr_int|]. destruct (operand_width p q r Ip Iq E) as [_ Ir]. apply K1 in Ha.
  assert (I := int_integral r Ir). assert (Hh := half r). assert (P : 0 < 2 ^ (width r - 1)) by (destruct r; by vm_compute).
  assert (Pb : 0 < 2 ^ b) by (apply Z.pow_pos_nonneg; lia). cbn [meaning].
  destruct (Z_lt_dec a 0) as [Na|Na].
  - assert (S : is_signed_int r = true). { destruct (is_signed_int r) eqn:S; [done|]. apply holds_unsigned in Ha; [lia|done|done]. }
    apply holds_signed in Ha; [|done]. assert (Am : a mod 2 ^ width r = a + 2 ^ width r) by (symmetry; apply Z.mod_unique with (-1); lia).
    split.
    + intros D. right. destruct (Z.eq_dec b 0) as [|Nb]; [done|]. exfalso.
      assert (B2 : 2 ^ b = 2 * 2 ^ (b - 1)). { replace b with (1 + (b - 1)) at 1 by lia. rewrite Z.pow_add_r by lia. done. }
      assert (Pb1 : 0 < 2 ^ (b - 1)) by (apply Z.pow_pos_nonneg; lia).
      assert (L : a mod 2 ^ width r / 2 ^ b < 2 ^ (width r - 1)). { apply Z.div_lt_upper_bound; [lia|]. rewrite Am. nia. }
      assert (G : 0 <= a mod 2 ^ width r / 2 ^ b) by (apply Z.div_pos; lia).
      unfold dec in D. rewrite S in D. unfold as_signed in D. destruct (_ <? _) eqn:LL in D; [|lia].
      assert (a / 2 ^ b < 0) by (apply Z.div_lt_upper_bound; lia). lia.
    + intros [?| ->]; [lia|]. change (2 ^ 0) with 1. rewrite !Z.div_1_r. change (a mod 2 ^ width r) with (enc r a). apply dec_enc; [done|]. by apply holds_signed.
  - split; [intros _; left; lia|intros _]. assert (As : a < 2 ^ width r /\ (is_signed_int r = true -> a < 2 ^ (width r - 1))).
    { destruct (is_signed_int r) eqn:S; [apply holds_signed in Ha; [|done]|apply holds_unsigned in Ha; [|done|done]]; split; try done; lia. }
    rewrite Z.mod_small by lia. assert (a / 2 ^ b <= a) by (apply Z.div_le_upper_bound; nia). assert (0 <= a / 2 ^ b) by (apply Z.div_pos; lia).
    unfold dec. destruct (is_signed_int r); [|done]. unfold as_signed. destruct (_ <? _) eqn:L; [done|]. destruct As as [_ As]. specialize (As eq_refl). lia.
Qed.
Print Assumptions C73_shr_exact.
(** [-1 < 0] in i8 (the literal 0 has type i8), and [-8 >> 1] in i32 by an i32. *)
Theorem C73_signed_order_refuted : run_binary Lt I8 I8 (Reg (enc I8 (-1))) (Reg (enc I8 0)) = Reg 0 /\ meaning Lt (-1) 0 = 1.
Proof. by vm_compute. Qed.
Print Assumptions C73_signed_order_refuted.
Theorem C73_shift_refuted : exists x, run_binary Shr I32 I32 (Reg (enc I32 (-8))) (Reg (enc I32 1)) = Reg x /\
  dec I32 x = 2147483644 /\ meaning Shr (-8) 1 = -4.
Proof. eexists. split; [by vm_compute|]. by vm_compute. Qed.
Print Assumptions C73_shift_refuted.
(** Division in types of one size and different sign is done in the right operand's type
    though the result has the left one's. *)
Theorem C73_division_refuted : exists x, promote I32 U32 = Some I32 /\
  run_binary Div I32 U32 (Reg (enc I32 (-6))) (Reg (enc U32 2)) = Reg x /\ dec I32 x = 2147483645 /\ meaning Div (-6) 2 = -3.
Proof. eexists. split; [done|]. split; [by vm_compute|]. by vm_compute. Qed.
Print Assumptions C73_division_refuted.
(** Two floats of the same type are compared by an integer instruction, which is no valid
    code; floats of different types are compared by one that holds for a NaN. *)
Theorem C73_float_refuted : forall p, is_float p = true ->
  (forall o, is_comparison o = true -> node_type o p p = Some Bool /\ instr_flavour o (deciding_type o p p Bool) = UnsignedOp) /\
  instr_flavour Lt (deciding_type Lt F32 F64 Bool) = FloatOp /\ run_fcmp Lt None (Some 1) = true /\ run_fcmp Eq None None = true.
Proof. intros p F. split; [|by vm_compute]. intros o C. destruct p; try done; by destruct o. Qed.
Print Assumptions C73_float_refuted.
Theorem C73_float_ordered : forall o a b, is_comparison o = true -> run_fcmp o (Some a) (Some b) = true <-> meaning o a b = 1.
Proof. intros o a b C. destruct o; try done; cbn; case_decide; lia. Qed.
Print Assumptions C73_float_ordered.
Example C73_example : run_binary Add U8 U8 (Reg (enc U8 200)) (Reg (enc U8 100)) = Reg 44 /\
  run_binary Lt I32 I8 (Reg (enc I32 (-5))) (Reg (enc I8 0)) = Reg 1 /\ run_binary Div I64 I8 (Reg (enc I64 (-7))) (Reg (enc I8 2)) = Reg (enc I64 (-3)) /\
  run_binary Div I8 I8 (Reg (enc I8 (-128))) (Reg (enc I8 (-1))) = Undefined.
Proof. by vm_compute. Qed.
