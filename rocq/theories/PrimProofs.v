From Coq Require Import ZArith Lia ZifyBool.
From stdpp Require Import numbers list.
From Verif Require Import PrimModel PrimSpec.
Local Open Scope Z_scope.
Ltac Zify.zify_post_hook ::= Z.div_mod_to_equations.

Definition lo (p : prim) : Z :=
  match p with I8 => -128 | I16 => -32768 | I32 => -2147483648 | I64 => -9223372036854775808 | _ => 0 end.
Definition hi (p : prim) : Z :=
  match p with
  | Bool => 1 | CChar | U8 => 255 | U16 => 65535 | WChar | U32 => 4294967295 | U64 => 18446744073709551615
  | I8 => 127 | I16 => 32767 | I32 => 2147483647 | I64 => 9223372036854775807 | _ => 0
  end.
Definition bits (p : prim) : Z := match p with F32 => 24 | _ => 53 end.
Lemma holds_int p v : is_float p = false -> holds p v <-> lo p <= v <= hi p.
Proof.
  destruct p; intros H; try done; cbn; unfold unsigned_range, signed_range;
    repeat match goal with |- context [2 ^ ?k] => let r := eval vm_compute in (2 ^ k) in change (2 ^ k) with r end; lia.
Qed.
Lemma holds_float p v : is_float p = true -> holds p v <-> float_exact (bits p) v.
Proof. by destruct p. Qed.
Lemma odd_not_exact b : 0 <= b -> ~ float_exact b (2 ^ b * 2 + 1).
Proof.
  intros Hb (m & e & He & E & Hm). assert (0 < 2 ^ b) by (apply Z.pow_pos_nonneg; lia). destruct (Z.eq_dec e 0) as [-> |].
  - change (2 ^ 0) with 1 in E. lia.
  - replace e with (1 + (e - 1)) in E by lia. rewrite Z.pow_add_r in E by lia. change (2 ^ 1) with 2 in E.
    set (x := 2 ^ (e - 1)) in *. replace (m * (2 * x)) with (2 * (m * x)) in E by ring. lia.
Qed.
Lemma small_exact b v : Z.abs v <= 2 ^ b -> float_exact b v.
Proof. intros H. exists v, 0. change (2 ^ 0) with 1. lia. Qed.
Definition contains (to from : prim) : bool :=
  if is_float from then is_float to && (bits from <=? bits to)
  else if is_float to then (- 2 ^ bits to <=? lo from) && (hi from <=? 2 ^ bits to)
  else (lo to <=? lo from) && (hi from <=? hi to).
Lemma keeps_iff to from : keeps to from <-> contains to from = true.
Proof.
  unfold keeps, contains. destruct (is_float from) eqn:Ff.
  - destruct (is_float to) eqn:Ft; cbn.
    + split.
      * intros H. destruct (bits from <=? bits to) eqn:E; [done|]. exfalso.
        assert (bits to = 24 /\ bits from = 53) as [B1 B2] by (destruct to, from; cbn in *; lia || done).
        apply (odd_not_exact 24); [lia|]. rewrite <- B1. apply holds_float; [done|]. apply H. apply holds_float; [done|]. rewrite B1, B2.
        apply small_exact. vm_compute. done.
      * intros H v. rewrite !holds_float by done. intros (m & e & He & E & Hm). exists m, e. split; [done|]. split; [done|].
        assert (2 ^ bits from <= 2 ^ bits to) by (apply Z.pow_le_mono_r; lia). lia.
    + split; [|done]. intros H. exfalso. specialize (H (2 ^ 70)). rewrite (holds_int to) in H by done. rewrite (holds_float from) in H by done.
      assert (X : float_exact (bits from) (2 ^ 70)). { exists 1, 70. split; [lia|]. split; [reflexivity|]. by destruct from. }
      apply H in X. change (2 ^ 70) with 1180591620717411303424 in X. destruct to; cbn in X; lia.
  - destruct (is_float to) eqn:Ft.
    + split.
      * intros H. destruct (_ && _) eqn:E; [done|]. exfalso.
        apply (odd_not_exact (bits to)); [by destruct to|]. apply holds_float; [done|]. apply H. apply holds_int; [done|].
        destruct to; try done; destruct from; try done;
          repeat match goal with |- context [2 ^ ?k] => let r := eval vm_compute in (2 ^ k) in change (2 ^ k) with r end; cbn; try lia; vm_compute in E; done.
      * intros H v. rewrite (holds_int from), (holds_float to) by done. intros Hv. apply small_exact. lia.
    + split.
      * intros H. assert (H1 := H (lo from)). assert (H2 := H (hi from)). rewrite !holds_int in H1, H2 by done.
        assert (lo from <= hi from) by (destruct from; cbn; lia). lia.
      * intros H v. rewrite !holds_int by done. lia.
Qed.

Definition all_prims : list prim := [Bool; WChar; CChar; U8; U16; U32; U64; I8; I16; I32; I64; F32; F64].
Lemma to_i64_small v : - 2 ^ 63 <= v < 2 ^ 63 -> to_i64 v = v.
Proof. unfold to_i64. change (2 ^ 63) with 9223372036854775808. change (2 ^ 64) with 18446744073709551616. cbv zeta. intros H. destruct (_ <? _) eqn:E; lia. Qed.
Lemma to_i64_range v : - 2 ^ 63 <= to_i64 v < 2 ^ 63.
Proof. unfold to_i64. change (2 ^ 63) with 9223372036854775808. change (2 ^ 64) with 18446744073709551616. cbv zeta. destruct (_ <? _) eqn:E; lia. Qed.
Lemma type_for_spec v : - 2 ^ 63 <= v < 2 ^ 63 ->
  holds (type_for_literal v) v /\ is_signed_int (type_for_literal v) = true /\
  forall p, is_signed_int p = true -> holds p v -> size (type_for_literal v) <= size p.
Proof.
  change (2 ^ 63) with 9223372036854775808. intros H. unfold type_for_literal.
  repeat match goal with |- context [if ?b then _ else _] => destruct b eqn:?; [|]; [shelve|] end.
  Unshelve.
  all: (split; [apply holds_int; [done|]; cbn; lia|]); (split; [done|]); intros p Hp Hv; apply holds_int in Hv; destruct p; cbn in *; try done; try lia.
Qed.
Lemma all_prims_spec p : p ∈ all_prims.
Proof. destruct p; apply (bool_decide_unpack _); vm_compute; done. Qed.
Lemma contains_of b to from : contains to from = b -> if b then keeps to from else ~ keeps to from.
Proof. destruct b; intros H; [by apply keeps_iff|]. intros K. apply keeps_iff in K. congruence. Qed.
Ltac decide_keeps :=
  repeat match goal with
  | |- context [keeps ?a ?b] =>
      let r := eval vm_compute in (contains a b) in
      let H := fresh in assert (H := contains_of r a b eq_refl); cbv iota in H;
      match r with true => generalize H | false => generalize H end; clear H; generalize (keeps a b)
  end.
Lemma literal_value_exact neg raw : 0 <= raw < 2 ^ 64 ->
  (neg = false /\ raw < 2 ^ 63 \/ neg = true /\ raw <= 2 ^ 63) ->
  literal_value neg raw = (if neg then - raw else raw).
Proof.
  change (2 ^ 64) with 18446744073709551616. change (2 ^ 63) with 9223372036854775808. intros R H. unfold literal_value.
  destruct neg; apply to_i64_small; change (2 ^ 63) with 9223372036854775808; destruct H as [[]|[]]; try done; lia.
Qed.
Lemma in_range_one p v : is_integer p = true -> - 2 ^ 63 <= v < 2 ^ 63 -> in_range p v v = Some true <-> holds p v.
Proof.
  intros Ip. change (2 ^ 63) with 9223372036854775808. intros R. rewrite (holds_int p) by (by destruct p).
  unfold in_range. rewrite Z.leb_refl.
  assert (W : wrap64 v = if v <? 0 then v + 18446744073709551616 else v) by (unfold wrap64; change (2 ^ 64) with 18446744073709551616; destruct (_ <? _) eqn:E; lia).
  destruct p; try done; cbn; rewrite ?W; change (to_i64 127) with 127; change (to_i64 32767) with 32767; change (to_i64 2147483647) with 2147483647;
    change (to_i64 9223372036854775807) with 9223372036854775807; destruct (v <? 0) eqn:E; (split; [intros H; injection H as H|intros H; f_equal]); lia.
Qed.
Lemma in_range_signed p a b : is_signed_int p = true -> - 2 ^ 63 <= a -> b < 2 ^ 63 -> a <= b ->
  in_range p a b = Some true <-> exists v, a <= v <= b /\ holds p v.
Proof.
  intros Ip. change (2 ^ 63) with 9223372036854775808. intros Ra Rb Hab.
  assert (A : (a <=? b) = true) by lia. unfold in_range. rewrite A.
  transitivity (a <= hi p /\ lo p <= b).
  - destruct p; try done; cbn; change (to_i64 127) with 127; change (to_i64 32767) with 32767; change (to_i64 2147483647) with 2147483647;
      change (to_i64 9223372036854775807) with 9223372036854775807; (split; [intros H; injection H as H|intros H; f_equal]); lia.
  - split.
    + intros [H1 H2]. exists (Z.max a (lo p)). split; [lia|]. apply holds_int; [by destruct p|]. assert (lo p <= hi p) by (destruct p; cbn; lia). lia.
    + intros (v & Hv & H). apply holds_int in H; [|by destruct p]. lia.
Qed.
Lemma in_range_unsigned p a b : is_unsigned p = true -> - 2 ^ 63 <= a -> b < 2 ^ 63 -> a <= b ->
  in_range p a b = Some true <-> (exists v, a <= v <= b /\ holds p v) /\ (0 <= a \/ p = U64).
Proof.
  intros Ip. change (2 ^ 63) with 9223372036854775808. intros Ra Rb Hab.
  assert (A : (a <=? b) = true) by lia. unfold in_range. rewrite A.
  transitivity ((a <= hi p /\ lo p <= b) /\ (0 <= a \/ p = U64)).
  - assert (W : wrap64 a = if a <? 0 then a + 18446744073709551616 else a) by (unfold wrap64; change (2 ^ 64) with 18446744073709551616; destruct (_ <? _) eqn:E; lia).
    destruct p; try done; cbn; rewrite W; destruct (a <? 0) eqn:E; (split; [intros H; injection H as H|intros [H [?|?]]; f_equal]); try done; first [lia|split; [lia|first [by right|lia]]].
  - split.
    + intros [[H1 H2] O]. split; [|done]. exists (Z.max a (lo p)). split; [lia|]. apply holds_int; [by destruct p|]. assert (lo p <= hi p) by (destruct p; cbn; lia). lia.
    + intros [(v & Hv & H) O]. split; [|done]. apply holds_int in H; [|by destruct p]. lia.
Qed.
Lemma cast_exact p neg raw : is_integer p = true -> p <> U64 -> 0 <= raw < 2 ^ 64 ->
  holds p (cast_literal p neg raw) /\ (cast_literal p neg raw - (if neg then - raw else raw)) mod 2 ^ (8 * size p) = 0.
Proof.
  intros Ip Np R. set (x := if neg then - raw else raw). unfold cast_literal. fold x. rewrite (holds_int p) by (by destruct p).
  destruct p; try done; cbn [cast_word lo hi size]; unfold to_i64, wrap64; cbv zeta;
    repeat match goal with |- context [2 ^ ?k] => let r := eval vm_compute in (2 ^ k) in change (2 ^ k) with r end;
    destruct (_ <? _) eqn:E; lia.
Qed.
