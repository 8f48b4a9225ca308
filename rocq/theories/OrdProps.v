(** Operands are evaluated once, in order, and only when they are needed. *)
From Coq Require Import ZArith List Bool Arith Lia.
From Verif Require Import OrdModel OrdSpec OrdProofs.
Import ListNotations.
Local Open Scope Z_scope.

(** * Operands from left to right in the target, as with one fixed compiler *)
Theorem C86_order_kept_partial : forall h fuel b n (s t : state h),
  ordered_block false b = true -> (forall x, In x (vars_block b) -> (x < n)%nat) -> agree n s t ->
  same_result n (exec_block h left_to_right left_to_right_args fuel (compile b n) s)
                (exec_block h left_to_right left_to_right_args fuel b t).
Proof.
  intros h fuel b n s t Ho Hv E. unfold compile. destruct (low_block (shake_block b) n) as [n' b'] eqn:L. cbn [snd].
  refine (proj2 (stmt_correct h left_to_right left_to_right_args false n _ fuel) b n n' b' L Ho Hv (Nat.le_refl n) s t E).
  right. split; reflexivity.
Qed.
Print Assumptions C86_order_kept_partial.

(** * Whatever order the compiler of C takes for operands and for arguments *)
Theorem C86_any_order_partial : forall h pick pick_args fuel b n (s t : state h),
  ordered_block true b = true -> (forall x, In x (vars_block b) -> (x < n)%nat) -> agree n s t ->
  same_result n (exec_block h pick pick_args fuel (compile b n) s)
                (exec_block h left_to_right left_to_right_args fuel b t).
Proof.
  intros h pick pick_args fuel b n s t Ho Hv E. unfold compile.
  destruct (low_block (shake_block b) n) as [n' b'] eqn:L. cbn [snd].
  refine (proj2 (stmt_correct h pick pick_args true n _ fuel) b n n' b' L Ho Hv (Nat.le_refl n) s t E).
  left. reflexivity.
Qed.
Print Assumptions C86_any_order_partial.

(** * A program whose order is lost: the world is the list of calls so far, latest first *)
Definition trace : host :=
  Host (list (nat * list Z)) (fun w g => Z.of_nat (length w)) (fun w g i => if (0 <=? i) && (i <? 2) then Some (10 + i) else None)
    (fun g i z w => Some ((g, [i; z]) :: w)) (fun f l w => Some (Z.of_nat (length w), (f, l) :: w)) (fun z => Z.to_nat z).

Definition start : state trace := State (fun _ => 0) ([] : world trace).
Definition source (b : block) := exec_block trace left_to_right left_to_right_args 10 b start.
Definition target (b : block) (n : nat) := exec_block trace left_to_right left_to_right_args 10 (compile b n) start.
Definition calls (r : res trace) : option (list (nat * list Z)) :=
  match r with Done _ s => Some (rev (wd s : list (nat * list Z))) | _ => None end.

Definition one (s : stmt) : block := BCons s BNil.
Notation "f '()'" := (Call f ANil) (at level 1, format "f '()'").
Definition call1 f e := Call f (ACons e ANil).
Definition call2 f e1 e2 := Call f (ACons e1 (ACons e2 ANil)).

(** [0 && f(g())] calls [g]. *)
Definition skipped := one (Do (And (Num 0) (call1 1 (2())))).
Example C86_and : calls (source skipped) = Some [] /\ calls (target skipped 0) = Some [(2%nat, [])].
Proof. split; reflexivity. Qed.

(** [c ? f(g()) : h(k())] calls both [g] and [k]. *)
Definition both_branches := one (Do (Cond (Num 1) (call1 1 (2())) (call1 3 (4())))).
Example C86_cond : calls (source both_branches) = Some [(2%nat, []); (1%nat, [0])] /\
  calls (target both_branches 0) = Some [(2%nat, []); (4%nat, []); (1%nat, [0])].
Proof. split; reflexivity. Qed.

(** [if (f()) { } else if (g(h())) { }]: [h] is called before [f] and even if [f] holds. *)
Definition else_if := one (If (1()) Skip (If (call1 2 (3())) Skip Skip)).
Example C86_else_if : calls (source else_if) = Some [(1%nat, []); (3%nat, []); (2%nat, [1])] /\
  calls (target else_if 0) = Some [(3%nat, []); (1%nat, [])].
Proof. split; reflexivity. Qed.

(** [i < 2 && f(a[i] + 1)] reads the array out of bounds. *)
Definition guarded := BCons (Assign 0 (Num 2)) (one (Do (And (Bin Lt (Var 0) (Num 2)) (call1 1 (Bin Add (Elem 7 (Var 0)) (Num 1)))))).
Example C86_bounds : calls (source guarded) = Some [] /\ target guarded 1 = Undef.
Proof. split; reflexivity. Qed.

(** [g() as T], a cast to a member of a union, calls [g] twice. *)
Definition cast_call := one (Do (Cast 0 (2()))).
Example C86_cast : calls (source cast_call) = Some [(2%nat, [])] /\ calls (target cast_call 0) = Some [(2%nat, []); (2%nat, [])].
Proof. split; reflexivity. Qed.

(** [f(x++, g(x))]: [g] gets the old value. *)
Definition increment := one (Do (call2 1 (Inc 0) (call1 2 (Var 0)))).
Example C86_increment : calls (source increment) = Some [(2%nat, [1]); (1%nat, [0; 0])] /\
  calls (target increment 1) = Some [(2%nat, [0]); (1%nat, [0; 0])].
Proof. split; reflexivity. Qed.

(** [f(a[g()], h())]: [h] is called before [g]. *)
Definition index_first := one (Do (call2 1 (Elem 7 (2())) (3()))).
Example C86_index : calls (source index_first) = Some [(2%nat, []); (3%nat, []); (1%nat, [10; 1])] /\
  calls (target index_first 0) = Some [(3%nat, []); (2%nat, []); (1%nat, [11; 0])].
Proof. split; reflexivity. Qed.

(** [f() + g(h())]: [h] is called before [f]. *)
Definition sum := one (Do (Bin Add (1()) (call1 2 (3())))).
Example C86_sum : calls (source sum) = Some [(1%nat, []); (3%nat, []); (2%nat, [1])] /\
  calls (target sum 0) = Some [(3%nat, []); (1%nat, []); (2%nat, [0])].
Proof. split; reflexivity. Qed.

Theorem C86_order_kept_refuted : ~ forall h fuel b n (s t : state h),
  (forall x, In x (vars_block b) -> (x < n)%nat) -> agree n s t ->
  same_result n (exec_block h left_to_right left_to_right_args fuel (compile b n) s)
                (exec_block h left_to_right left_to_right_args fuel b t).
Proof.
  intros H. specialize (H trace 10%nat skipped 0%nat start start).
  assert (forall x, In x (vars_block skipped) -> (x < 0)%nat) as V by (intros x []).
  assert (agree 0 start start) as A by (split; reflexivity).
  destruct (H V A) as [_ [_ W]]. discriminate W.
Qed.
Print Assumptions C86_order_kept_refuted.

(** A defined program is made undefined: this is worse than another order. *)
Theorem C86_defined_kept_refuted : exists b n,
  (forall x, In x (vars_block b) -> (x < n)%nat) /\ source b <> Undef /\ target b n = Undef.
Proof.
  exists guarded, 1%nat. repeat split; try reflexivity; [|discriminate].
  cbn. intros x. intuition lia.
Qed.
Print Assumptions C86_defined_kept_refuted.

(** * The order of the compiler of C: [g() + h()] is left as it is *)
Definition two_calls := one (Do (Bin Add (2()) (3()))).

Theorem C86_any_order_refuted : exists b pick,
  ordered_block false b = true /\ vars_block b = [] /\
  calls (exec_block trace pick left_to_right_args 10 (compile b 0) start) <> calls (source b).
Proof.
  exists two_calls, (fun _ => true). repeat split. discriminate.
Qed.
Print Assumptions C86_any_order_refuted.

(** The arguments of a call which are calls have temporaries, so that their order is fixed: [f(g(), h(x + 1))]. *)
Definition nested := one (Do (call2 1 (2()) (call1 3 (Bin Add (Var 0) (Num 1))))).
Example C86_nested : ordered_block true nested = true /\
  calls (target nested 1) = Some [(2%nat, []); (3%nat, [1]); (1%nat, [0; 1])] /\
  (forall pick pick_args, calls (exec_block trace pick pick_args 10 (compile nested 1) start) = calls (source nested)).
Proof.
  split; [reflexivity|]. split; [reflexivity|]. intros p pa.
  pose proof (C86_any_order_partial trace p pa 10 nested 1 start start eq_refl) as H.
  assert (forall x, In x (vars_block nested) -> (x < 1)%nat) as V by (cbn; intros x; intuition lia).
  assert (agree 1 start start) as A by (split; reflexivity). specialize (H V A).
  change (exec_block trace left_to_right left_to_right_args 10 nested start) with (source nested) in H.
  destruct (exec_block trace p pa 10 (compile nested 1) start), (source nested); cbn in H |- *; try contradiction; try reflexivity.
  destruct H as [_ [_ ->]]. reflexivity.
Qed.

(** [while (f(x + 1)) { x++; if (x < 2) continue; g(x); break }]: the temporary of the condition is in the loop. *)
Definition loop := one (While (Bin Lt (call1 1 (Bin Add (Var 0) (Num 1))) (Num 5)) (Block
  (BCons (Do (Inc 0)) (BCons (If (Bin Lt (Var 0) (Num 2)) Continue Skip) (BCons (Do (call1 2 (Var 0))) (one Break)))))).
Example C86_loop : ordered_block true loop = true /\
  calls (target loop 1) = Some [(1%nat, [1]); (1%nat, [2]); (2%nat, [2])] /\ calls (source loop) = calls (target loop 1).
Proof. repeat split; reflexivity. Qed.

(** The condition of the theorem lets [i < n && f(i)], [f(a[i], x)] and [a[f(x)] = g(a[x])] through. *)
Example C86_condition :
  ordered_block true (one (If (And (Bin Lt (Var 0) (Var 1)) (call1 1 (Var 0))) (Do (call2 2 (Elem 7 (Var 0)) (Var 1)))
    (If (call1 3 (Var 1)) (Return (Num 1)) Skip))) = true /\
  ordered_block true (one (Store 7 (call1 1 (Var 0)) (call1 2 (Elem 7 (Var 0))))) = true /\
  forallb (ordered_block false) [skipped; both_branches; else_if; guarded; cast_call; increment; index_first; sum] = false /\
  existsb (ordered_block false) [skipped; both_branches; else_if; guarded; cast_call; increment; index_first; sum] = false.
Proof. repeat split; reflexivity. Qed.
