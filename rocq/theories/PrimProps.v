(** C42, C43, C44, C71: conversions, promotion, literals and literal casts. *)
From Coq Require Import ZArith Lia ZifyBool.
From stdpp Require Import numbers list.
From Verif Require Import PrimModel PrimSpec PrimProofs.
Local Open Scope Z_scope.

(** * C42: implicit conversions *)
(** Between integer types a permitted conversion keeps every value unless it goes from a
    signed to an unsigned type, and then it loses the negative ones. *)
Theorem C42_integers_exact : forall to from, is_integer to = true -> is_integer from = true ->
  assignable to from = true ->
  (keeps to from <-> ~ (is_signed_int from = true /\ is_unsigned to = true)).
Proof.
  intros to from. rewrite keeps_iff. destruct to, from; intros I1 I2 A; cbn in I1, I2, A |- *; try done; split; intros H; try done; try (by intros []); exfalso; by apply H.
Qed.
Print Assumptions C42_integers_exact.

(** Every conversion between integer types that keeps all values is permitted. *)
Theorem C42_complete : forall to from, is_integer to = true -> is_integer from = true ->
  keeps to from -> assignable to from = true.
Proof. intros to from. rewrite keeps_iff. destruct to, from; intros; cbn in *; done. Qed.
Print Assumptions C42_complete.

(** All the permitted conversions that lose a value. *)
Definition lossy : list (prim * prim) :=
  [(U8, I8); (U16, I8); (U16, I16); (U32, I8); (U32, I16); (U32, I32); (U64, I8); (U64, I16); (U64, I32); (U64, I64);
   (F32, U32); (F32, U64); (F32, I32); (F32, I64); (F64, U64); (F64, I64); (F32, F64); (CChar, WChar)].
Theorem C42_exact : forall to from, assignable to from = true -> (keeps to from <-> (to, from) ∉ lossy).
Proof.
  intros to from. rewrite keeps_iff.
  destruct to, from; intros A; try (vm_compute in A; discriminate A);
    (split; [intros H; vm_compute in H; try discriminate H; apply (bool_decide_unpack _); vm_compute; done
            |intros H; first [vm_compute; reflexivity|exfalso; apply H; apply (bool_decide_unpack _); vm_compute; done]]).
Qed.
Print Assumptions C42_exact.

Theorem C42_preorder : (forall p, assignable p p = true) /\
  forall p q r, assignable p q = true -> assignable q r = true -> assignable p r = true.
Proof. split; [by intros []|]. intros [] [] []; vm_compute; done. Qed.
Print Assumptions C42_preorder.

Theorem C42_negative_refuted : assignable U64 I8 = true /\ holds I8 (-1) /\ ~ holds U64 (-1).
Proof. split; [done|]. split; [by vm_compute|]. intros [H _]. by vm_compute in H. Qed.
Print Assumptions C42_negative_refuted.
Theorem C42_char_refuted : assignable CChar WChar = true /\ holds WChar 8364 /\ ~ holds CChar 8364.
Proof. split; [done|]. split; [by vm_compute|]. intros [_ H]. by vm_compute in H. Qed.
Print Assumptions C42_char_refuted.
Theorem C42_float_refuted : assignable F32 I32 = true /\ holds I32 33554433 /\ ~ holds F32 33554433.
Proof. split; [done|]. split; [by vm_compute|]. apply (odd_not_exact 24). lia. Qed.
Print Assumptions C42_float_refuted.
Example C42_example : assignable I32 U16 = true /\ assignable U16 I32 = false /\ assignable I16 U16 = false /\ keeps I32 U16 /\ ~ keeps U16 I32.
Proof. split; [done|]. split; [done|]. split; [done|]. rewrite !keeps_iff. by vm_compute. Qed.

(** * C43: promotion *)
(** Two integer types always promote, to one of the two and to the larger one. *)
Theorem C43_integers : forall p q, is_integer p = true -> is_integer q = true ->
  exists r, promote p q = Some r /\ (r = p \/ r = q) /\ size r = Z.max (size p) (size q).
Proof.
  intros [] [] Hp Hq; try done; eexists; (split; [vm_compute; reflexivity|]); (split; [first [by left|by right]|done]).
Qed.
Print Assumptions C43_integers.
(** The result holds the values of both exactly when the signs agree or the signed one is
    strictly larger. *)
Theorem C43_holds_exact : forall p q r, is_integer p = true -> is_integer q = true -> promote p q = Some r ->
  ((keeps r p /\ keeps r q) <->
   (is_signed_int p = is_signed_int q \/
    is_signed_int p = true /\ size q < size p \/ is_signed_int q = true /\ size p < size q)).
Proof.
  intros p q r Hp Hq E. rewrite !keeps_iff.
  destruct p, q; try (vm_compute in Hp; discriminate Hp); try (vm_compute in Hq; discriminate Hq);
    vm_compute in E; injection E as E; subst r; cbn; split; intros H; try done; try lia;
    repeat match goal with H : _ \/ _ |- _ => destruct H | H : _ /\ _ |- _ => destruct H end; try done; try lia.
Qed.
Print Assumptions C43_holds_exact.
(** The order of the operands matters exactly between different integer types of one size. *)
Theorem C43_order_exact : forall p q, is_integer p = true -> is_integer q = true ->
  (promote p q = promote q p <-> p = q \/ size p <> size q).
Proof.
  intros p q Hp Hq.
  destruct p, q; try (vm_compute in Hp; discriminate Hp); try (vm_compute in Hq; discriminate Hq);
    vm_compute; split; intros H; try done; try (by left); try (by right); destruct H; done.
Qed.
Print Assumptions C43_order_exact.
(** Over all primitive types: the pairs with no common type, and the pairs whose order matters. *)
Definition none_pairs : list (prim * prim) :=
  [(Bool, WChar); (Bool, CChar); (Bool, U8); (Bool, U16); (Bool, U32); (Bool, U64); (Bool, I8); (Bool, I16); (Bool, I32); (Bool, I64); (Bool, F32); (Bool, F64);
   (WChar, Bool); (WChar, CChar); (WChar, F32); (WChar, F64);
   (CChar, Bool); (CChar, WChar); (CChar, U8); (CChar, U16); (CChar, U32); (CChar, U64); (CChar, I8); (CChar, I16); (CChar, I32); (CChar, I64); (CChar, F32); (CChar, F64);
   (U8, Bool); (U8, CChar); (U16, Bool); (U16, CChar); (U32, Bool); (U32, CChar); (U64, Bool); (U64, CChar);
   (I8, Bool); (I8, CChar); (I16, Bool); (I16, CChar); (I32, Bool); (I32, CChar); (I64, Bool); (I64, CChar);
   (F32, Bool); (F32, CChar); (F64, Bool); (F64, CChar)].
Theorem C43_defined_exact : forall p q, promote p q = None <-> (p, q) ∈ none_pairs.
Proof.
  intros p q; destruct p, q;
    (split; [intros H; vm_compute in H; try discriminate H; apply (bool_decide_unpack _); vm_compute; done
            |intros H; apply (bool_decide_pack _) in H; vm_compute in H; first [vm_compute; reflexivity|exfalso; exact H]]).
Qed.
Print Assumptions C43_defined_exact.
Theorem C43_order_refuted : promote I32 U32 = Some I32 /\ promote U32 I32 = Some U32 /\
  promote F64 WChar = Some F64 /\ promote WChar F64 = None.
Proof. done. Qed.
Print Assumptions C43_order_refuted.
Theorem C43_holds_refuted : promote I8 U8 = Some I8 /\ holds U8 200 /\ ~ holds I8 200.
Proof. split; [done|]. split; [by vm_compute|]. intros [_ H]. by vm_compute in H. Qed.
Print Assumptions C43_holds_refuted.
Example C43_example : promote U16 I32 = Some I32 /\ promote I32 U16 = Some I32 /\ keeps I32 U16 /\ promote I64 F32 = Some F32 /\ ~ keeps F32 I64.
Proof. split; [done|]. split; [done|]. split; [by apply keeps_iff|]. split; [done|]. rewrite keeps_iff. by vm_compute. Qed.

(** * C44: integer literals *)
(** A literal that fits in i64 gets the smallest signed type that holds it. *)
Theorem C44_literal_partial : forall (neg : bool) raw, 0 <= raw < 2 ^ 64 ->
  (neg = false /\ raw < 2 ^ 63 \/ neg = true /\ raw <= 2 ^ 63) ->
  let v := if neg then - raw else raw in
  let t := literal_type neg raw in
  holds t v /\ is_signed_int t = true /\ forall p, is_signed_int p = true -> holds p v -> size t <= size p.
Proof.
  intros neg raw R H v t. unfold t, literal_type. rewrite literal_value_exact by done. fold v. apply type_for_spec.
  unfold v. change (2 ^ 63) with 9223372036854775808 in *. destruct neg; destruct H as [[]|[]]; try done; lia.
Qed.
Print Assumptions C44_literal_partial.
(** No other literal gets a type that holds it. *)
Theorem C44_literal_exact : forall (neg : bool) raw, 0 <= raw < 2 ^ 64 ->
  (holds (literal_type neg raw) (if neg then - raw else raw) <-> (neg = false /\ raw < 2 ^ 63 \/ neg = true /\ raw <= 2 ^ 63)).
Proof.
  intros neg raw R. split.
  - intros H. destruct (type_for_spec (literal_value neg raw)) as (_ & S & _).
    { unfold literal_value. destruct neg; apply to_i64_range. }
    fold (literal_type neg raw) in S. apply holds_int in H; [|by destruct (literal_type neg raw)].
    change (2 ^ 63) with 9223372036854775808. change (2 ^ 64) with 18446744073709551616 in R.
    assert (lo (literal_type neg raw) >= -9223372036854775808 /\ hi (literal_type neg raw) < 9223372036854775808) by (destruct (literal_type neg raw); cbn; try done; lia).
    destruct neg; [right|left]; split; try done; lia.
  - intros H. by apply C44_literal_partial.
Qed.
Print Assumptions C44_literal_exact.
Theorem C44_big_literal_refuted : let raw := 18446744073709551615 in
  0 <= raw < 2 ^ 64 /\ literal_type false raw = I8 /\ ~ holds I8 raw.
Proof. split; [by vm_compute|]. split; [by vm_compute|]. intros [_ H]. by vm_compute in H. Qed.
Print Assumptions C44_big_literal_refuted.

(** A literal that fits in i64 is accepted for an integer type exactly when in range. *)
Theorem C44_accept_partial : forall p (neg : bool) raw, is_integer p = true -> 0 <= raw < 2 ^ 64 ->
  (neg = false /\ raw < 2 ^ 63 \/ neg = true /\ raw <= 2 ^ 63) ->
  let v := literal_value neg raw in
  (in_range p v v = Some true <-> holds p (if neg then - raw else raw)).
Proof.
  intros p neg raw Ip R H v. unfold v. assert (X := to_i64_range). assert (- 2 ^ 63 <= literal_value neg raw < 2 ^ 63) by (unfold literal_value; destruct neg; apply X).
  rewrite in_range_one by done. by rewrite literal_value_exact by done.
Qed.
Print Assumptions C44_accept_partial.
(** A range of literals [a..b] is accepted exactly when it meets the type, for signed
    types; for unsigned ones it is, besides, rejected when it starts below 0, except for u64. *)
Theorem C44_range_signed : forall p a b, is_signed_int p = true -> - 2 ^ 63 <= a -> b < 2 ^ 63 -> a <= b ->
  (in_range p a b = Some true <-> exists v, a <= v <= b /\ holds p v).
Proof. exact in_range_signed. Qed.
Print Assumptions C44_range_signed.
Theorem C44_range_unsigned_exact : forall p a b, is_unsigned p = true -> - 2 ^ 63 <= a -> b < 2 ^ 63 -> a <= b ->
  (in_range p a b = Some true <-> (exists v, a <= v <= b /\ holds p v) /\ (0 <= a \/ p = U64)).
Proof. exact in_range_unsigned. Qed.
Print Assumptions C44_range_unsigned_exact.
Theorem C44_accept_refuted :
  (in_range U8 (-1) 5 = Some false /\ holds U8 3) /\
  (let v := literal_value false 18446744073709551615 in
   in_range U64 v v = Some false /\ holds U64 18446744073709551615 /\
   in_range I8 v v = Some true /\ ~ holds I8 18446744073709551615) /\
  in_range I32 5 1 = None.
Proof.
  split; [by vm_compute|]. split; [|by vm_compute]. cbv zeta. split; [by vm_compute|]. split; [by vm_compute|]. split; [by vm_compute|].
  intros [_ H]. by vm_compute in H.
Qed.
Print Assumptions C44_accept_refuted.
Example C44_example : literal_type false 127 = I8 /\ literal_type false 128 = I16 /\ literal_type true 128 = I8 /\
  literal_type false 2147483648 = I64 /\ literal_type true 9223372036854775808 = I64 /\
  in_range U8 255 255 = Some true /\ in_range U8 256 256 = Some false /\ in_range I8 100 200 = Some true /\ in_range I8 128 200 = Some false.
Proof. by vm_compute. Qed.

(** * C71: a cast of an integer literal *)
(** To every integer type but u64 the cast gives the value of the type congruent to the literal. *)
Theorem C71_cast : forall p (neg : bool) raw, is_integer p = true -> p <> U64 -> 0 <= raw < 2 ^ 64 ->
  holds p (cast_literal p neg raw) /\ (cast_literal p neg raw - (if neg then - raw else raw)) mod 2 ^ (8 * size p) = 0.
Proof. exact cast_exact. Qed.
Print Assumptions C71_cast.
(** A literal in range of the type is unchanged. *)
Theorem C71_cast_id : forall p (neg : bool) raw, is_integer p = true -> p <> U64 -> 0 <= raw < 2 ^ 64 ->
  holds p (if neg then - raw else raw) -> cast_literal p neg raw = (if neg then - raw else raw).
Proof.
  intros p neg raw Ip Np R H. destruct (cast_exact p neg raw Ip Np R) as [H1 H2].
  rewrite (holds_int p) in H, H1 by (by destruct p).
  apply Z.mod_divide in H2; [|by destruct p]. destruct H2 as [k Hk].
  assert (hi p - lo p < 2 ^ (8 * size p)) by (destruct p; by vm_compute).
  assert (0 < 2 ^ (8 * size p)) by (destruct p; by vm_compute).
  assert (k = 0); [|subst k; lia]. set (m := 2 ^ (8 * size p)) in *. nia.
Qed.
Print Assumptions C71_cast_id.
(** Read as a signed number, a large literal cast to u64 changes sign. *)
Theorem C71_u64_refuted : holds U64 18446744073709551615 /\ cast_literal U64 false 18446744073709551615 = -1.
Proof. by vm_compute. Qed.
Print Assumptions C71_u64_refuted.
Example C71_example : cast_literal I8 false 200 = -56 /\ cast_literal U8 true 1 = 255 /\ cast_literal U16 false 65537 = 1 /\ cast_literal I32 true 5 = -5.
Proof. by vm_compute. Qed.
