(** C45, C46: compile-time arithmetic, comparisons and logic. *)
From Coq Require Import ZArith Lia ZifyBool.
From stdpp Require Import numbers list.
From Verif Require Import PrimModel PrimSpec LlvmModel LlvmSpec FoldModel FoldSpec FoldProofs.
Local Open Scope Z_scope.

(** * C45: arithmetic *)
(** Integer expressions whose values all stay within 2^53 evaluate to their value. *)
Theorem C45_arithmetic_partial : forall e v, ints e v -> eval e = Ok (NLit (LInt v)).
Proof. intros e v H. by apply eval_ints. Qed.
Print Assumptions C45_arithmetic_partial.
(** The conversion to float in the model is to the nearest number with 53 bits. *)
Theorem C45_rounding : forall z, float_exact 53 (rnd z) /\ forall y, float_exact 53 y -> Z.abs (rnd z - z) <= Z.abs (y - z).
Proof. intros z. split; [apply rnd_exact|]. intros y. apply rnd_nearest. Qed.
Print Assumptions C45_rounding.
(** Adding 0 to a literal gives it back exactly when it has at most 53 significant bits
    (and, if negative, when the sign flag happens to read as set). *)
Theorem C45_literal_exact : forall low a, - 2 ^ 63 <= a < 2 ^ 63 ->
  (eval (Bin low Add (Lit (LInt a)) (Lit (LInt 0))) = Ok (NLit (LInt a)) <-> float_exact 53 a /\ (low = true \/ 0 <= a)).
Proof.
  intros low a R. cbn [eval bind lit_of fold_op num]. rewrite (rnd_small 0) by (by vm_compute). rewrite Z.add_0_r.
  assert (Idem : rnd (rnd a) = rnd a) by (apply rnd_fix, rnd_exact). rewrite Idem. cbn [set_num]. unfold int_result, f_to_i64.
  split.
  - destruct (_ && _) eqn:B; [|done]. cbn. destruct low.
    + intros H. injection H as H. split; [by apply rnd_fix|by left].
    + unfold f_to_u64. destruct ((0 <=? rnd a) && _) eqn:B2; [|done]. cbn. intros H. injection H as H. rewrite to_i64_id in H by lia.
      split; [by apply rnd_fix|]. right. rewrite <- H. lia.
  - intros [F O]. apply rnd_fix in F. rewrite F. replace ((- 2 ^ 63 <=? a) && (a <? 2 ^ 63)) with true by lia. cbn [bind]. destruct low; [done|].
    destruct O as [?|O]; [done|]. unfold f_to_u64. change (2 ^ 64) with 18446744073709551616. change (2 ^ 63) with 9223372036854775808 in R.
    replace ((0 <=? a) && (a <? 18446744073709551616)) with true by lia. cbn. rewrite to_i64_id; [done|]. change (2 ^ 63) with 9223372036854775808. lia.
Qed.
Print Assumptions C45_literal_exact.
(** Division by zero is never reported. *)
Theorem C45_zero_refuted : forall low a o, small a -> (o = Div \/ o = Mod) -> eval (Bin low o (Lit (LInt a)) (Lit (LInt 0))) = UB.
Proof.
  intros low a o S O. cbn [eval bind lit_of]. destruct O as [-> | ->]; cbn [fold_op num bind]; rewrite !rnd_small by (try done; by vm_compute); cbn [bind];
    rewrite !f_to_i64_small by (try done; by vm_compute); done.
Qed.
Print Assumptions C45_zero_refuted.
Theorem C45_precision_refuted : forall low, eval (Bin low Add (Lit (LInt 9007199254740993)) (Lit (LInt 0))) = Ok (NLit (LInt 9007199254740992)).
Proof. intros []; by vm_compute. Qed.
Print Assumptions C45_precision_refuted.
(** Overflow of i64, shifts by 64, differences below 0, parentheses around a literal, and
    prefix minus on a float. *)
Theorem C45_others_refuted :
  (forall low, eval (Bin low Mul (Lit (LInt 4611686018427387904)) (Lit (LInt 2))) = UB) /\
  (forall low, eval (Bin low Shl (Lit (LInt 1)) (Lit (LInt 64))) = UB) /\
  eval (Bin false Sub (Lit (LInt 1)) (Lit (LInt 2))) = UB /\
  (forall low, eval (Bin low Add (Group (Lit (LInt 1))) (Lit (LInt 2))) = Crash) /\
  eval (Un Neg (Lit (LFloat 3 2))) = Ok (NLit (LInt (-1))) /\
  eval (Un Compl (Lit (LInt 1))) = Err.
Proof. repeat split; try (intros []); by vm_compute. Qed.
Print Assumptions C45_others_refuted.
Example C45_example : let e := Bin true Mul (Group (Bin true Sub (Lit (LInt 3)) (Lit (LInt 10)))) (Bin true Shl (Lit (LInt 1)) (Lit (LInt 4))) in
  eval e = Ok (NLit (LInt (-112))) /\ ints e (-112).
Proof.
  split; [by vm_compute|]. change (-112) with (meaning Mul (-7) 16).
  apply IBin; [done| | |done|by vm_compute|by left].
  - apply IGroup; [done|]. change (-7) with (meaning Sub 3 10). apply IBin; [done|apply ILit; by vm_compute|apply ILit; by vm_compute|done|by vm_compute|by left].
  - change 16 with (meaning Shl 1 4). apply IBin; [done|apply ILit; by vm_compute|apply ILit; by vm_compute|by vm_compute|by vm_compute|by left].
Qed.

(** * C46: comparisons and logic *)
Theorem C46_boolean_partial : forall e P, bools e P -> exists b : bool, eval e = Ok (NLit (LBool b)) /\ (b = true <-> P).
Proof. exact eval_bools. Qed.
Print Assumptions C46_boolean_partial.
(** Comparisons of any two literals: those of their roundings. A comparison is wrong
    exactly when two different numbers, in the order that matters to it, round to the same
    float. *)
Theorem C46_comparison_exact : forall low o a b, is_comparison o = true ->
  exists r : bool, eval (Bin low o (Lit (LInt a)) (Lit (LInt b))) = Ok (NLit (LBool r)) /\
  ((r = true <-> relation o a b) <->
   ~ (rnd a = rnd b /\ match o with Lt | Ge => a < b | Gt | Le => b < a | _ => a <> b end)).
Proof.
  intros low o a b C. assert (M1 := rnd_mono a b). assert (M2 := rnd_mono b a).
  assert (M3 : a = b -> rnd a = rnd b) by (by intros ->). set (x := rnd a) in *. set (y := rnd b) in *.
  destruct o; try done; eexists; (split; [cbn; reflexivity|]); cbn [relation]; fold x y; lia.
Qed.
Print Assumptions C46_comparison_exact.
Theorem C46_precision_refuted : forall low,
  eval (Bin low Lt (Lit (LInt 9007199254740992)) (Lit (LInt 9007199254740993))) = Ok (NLit (LBool false)) /\
  eval (Bin low Eq (Lit (LInt 9007199254740992)) (Lit (LInt 9007199254740993))) = Ok (NLit (LBool true)).
Proof. intros []; by vm_compute. Qed.
Print Assumptions C46_precision_refuted.
(** A literal above 2^63 is read as negative. *)
Theorem C46_unsigned_refuted : forall low,
  eval (Bin low Gt (Lit (LInt (literal_value false 18446744073709551615))) (Lit (LInt 1))) = Ok (NLit (LBool false)).
Proof. intros []; by vm_compute. Qed.
Print Assumptions C46_unsigned_refuted.
(** Bit operators and products on two booleans give the negation of what they should. *)
Theorem C46_bits_inverted_refuted : forall low p q,
  eval (Bin low BAnd (Lit (LBool p)) (Lit (LBool q))) = Ok (NLit (LBool (negb (p && q)))) /\
  eval (Bin low BOr (Lit (LBool p)) (Lit (LBool q))) = Ok (NLit (LBool (negb (p || q)))) /\
  eval (Bin low BXor (Lit (LBool p)) (Lit (LBool q))) = Ok (NLit (LBool (negb (xorb p q)))).
Proof. intros [] [] []; by vm_compute. Qed.
Print Assumptions C46_bits_inverted_refuted.
Theorem C46_group_refuted : eval (And (Group (Lit (LBool true))) (Lit (LBool true))) = Crash /\ eval (Un Not (Group (Lit (LBool true)))) = Err.
Proof. by vm_compute. Qed.
Print Assumptions C46_group_refuted.
Example C46_example : let e := And (Bin false Lt (Lit (LInt (-3))) (Lit (LInt 5))) (Un Not (Group (Or (Lit (LBool false)) (Bin false Eq (Lit (LInt 1)) (Lit (LInt 2)))))) in
  eval e = Ok (NLit (LBool true)) /\ bools e (-3 < 5 /\ ~ (false = true \/ 1 = 2)).
Proof.
  split; [by vm_compute|]. apply B_And.
  - apply (B_Cmp false Lt); [done|apply ILit; by vm_compute|apply ILit; by vm_compute].
  - apply B_Not, B_Group; [done|]. apply B_Or; [apply B_Lit|]. apply (B_Cmp false Eq); [done|apply ILit; by vm_compute|apply ILit; by vm_compute].
Qed.
