(** Properties of for loops. *)
From Coq Require Import ZArith List Bool Lia.
From Verif Require Import LoopModel LoopSpec LoopProofs.
Import ListNotations.
Open Scope Z_scope.

Definition any (a b c : Z) : bool := true.

(** C84: a program whose ranges are met exactly by their steps, and whose bounds do not change, does after the
    lowering of its loops what it means.  [exec meets] is [exec any] for such executions (next
    theorem). *)
Theorem C84_loops_keep_meaning_partial f p s g s' :
  steady_loops p = true -> exec meets f p s = End g s' ->
  exists k t, texec k (lower p) s = End g t /\
    (forall v, s_var t v = s_var s' v) /\ (forall a, s_arr t a = s_arr s' a) /\ s_out t = s_out s'.
Proof.
  intros Hl E. destruct (lower_correct f p s s g s' (same_refl s) E Hl) as (t & [k L] & S). exists k, t. auto.
Qed.
Print Assumptions C84_loops_keep_meaning_partial.

Theorem C84_exact_ranges_mean_the_same f p s g s' : exec meets f p s = End g s' -> exec any f p s = End g s'.
Proof. apply exec_mono. reflexivity. Qed.
Print Assumptions C84_exact_ranges_mean_the_same.

Definition show (v : nat) : stmt := Expr (Emit (Var v)).
Definition init (l : list Z) : state := State (fun _ => 0) (fun _ => l) [].
Definition outcome (r : res) : option (signal * list Z) := match r with End g s => Some (g, s_out s) | _ => None end.

(** Nested loops, downwards too, with [continue] and [break] and an array. *)
Definition example : stmt :=
  For i64 0 (Num 0) (Add (Var 5) (Num 6)) (Some (Num 2))
    (Seq (If (Ne (Var 0) (Num 2)) Skip Continue)
      (Seq (For i64 1 (Num 6) (Var 0) (Some (Num (-1)))
             (Seq (show 1) (If (Ne (Var 1) (Num 5)) Skip Break)))
         (If (Lt (Var 0) (Num 4)) (ForArr 2 3 0 2 (Seq (show 3) (show 2))) (Seq (show 0) Return)))).
Example C84_example : steady_loops example = true /\
  outcome (exec meets 50 example (init [7; 8])) = Some (Ret, [6; 5; 0; 7; 1; 8; 6; 5; 4]) /\
  outcome (texec 50 (lower example) (init [7; 8])) = Some (Ret, [6; 5; 0; 7; 1; 8; 6; 5; 4]).
Proof. repeat split. Qed.

(** An unsigned loop ends exactly if the greatest common divisor of step and modulus divides the
    distance ... *)
Theorem C84_unsigned_ends_iff w v a b c s : 0 < w -> 0 <= a < 2 ^ w -> 0 <= b < 2 ^ w ->
  ((exists k g t, texec k (lower (For (Ity false w) v (Num a) (Num b) (Some (Num c)) Skip)) s = End g t) <->
   (Z.gcd c (2 ^ w) | b - a)).
Proof.
  intros Hw Ha Hb. rewrite <- (unsigned_ends_iff w v a b c s Hw Ha Hb). unfold leads. split.
  - intros (k & g & t & E). eauto.
  - intros (g & t & k & E). eauto.
Qed.
Print Assumptions C84_unsigned_ends_iff.

(** ... and a signed one ends without undefined behaviour exactly if the steps meet the end. *)
Theorem C84_signed_ends_iff w v a b c s : fits (Ity true w) a = true -> fits (Ity true w) b = true ->
  ((exists k g t, texec k (lower (For (Ity true w) v (Num a) (Num b) (Some (Num c)) Skip)) s = End g t) <->
   a = b \/ meets a b c = true).
Proof.
  intros Fa Fb. rewrite <- (signed_ends_iff w v a b c s Fa Fb). unfold leads. split.
  - intros (k & g & t & E). eauto.
  - intros (g & t & k & E). eauto.
Qed.
Print Assumptions C84_signed_ends_iff.
Example C84_ends_example :
  (exists k g t, texec k (lower (For (Ity false 8) 0 (Num 250) (Num 4) (Some (Num 2)) Skip)) (init []) = End g t) /\
  ~ (exists k g t, texec k (lower (For u64 0 (Num 0) (Num 5) (Some (Num 2)) Skip)) (init []) = End g t).
Proof.
  split.
  - apply C84_unsigned_ends_iff; [lia|lia|lia|]. exists (-123). reflexivity.
  - intros H. apply C84_unsigned_ends_iff in H; [|lia|lia|lia].
    change (Z.gcd 2 (2 ^ 64)) with 2 in H. destruct H as [k H]. lia.
Qed.

(** A step that passes the end: four rounds are meant, none of the runs ends. *)
Theorem C84_step_passes_end_refuted :
  let p := For i64 0 (Num 0) (Num 10) (Some (Num 3)) Skip in
  (exists s, exec any 3 p (init []) = End Next s) /\ values 0 10 3 = [0; 3; 6; 9] /\
  ~ exists k g t, texec k (lower p) (init []) = End g t.
Proof.
  split; [eexists; reflexivity|]. split; [reflexivity|]. intros H.
  apply C84_signed_ends_iff in H; [|reflexivity|reflexivity]. destruct H as [H|H]; discriminate.
Qed.
Print Assumptions C84_step_passes_end_refuted.

(** ... and for a type of eight bits without sign 174 rounds are made instead of four. *)
Theorem C84_step_wraps_refuted :
  let p := For (Ity false 8) 0 (Num 0) (Num 10) (Some (Num 3)) (Assign 1 (Add (Var 1) (Num 1))) in
  (exists s, exec any 9 p (init []) = End Next s /\ s_var s 1 = 4) /\
  (exists t, texec 200 (lower p) (init []) = End Next t /\ s_var t 1 = 174).
Proof. split; eexists; (split; [vm_compute; reflexivity|vm_compute; reflexivity]). Qed.
Print Assumptions C84_step_wraps_refuted.

(** An empty range: nothing is to be done, but no run ends. *)
Theorem C84_empty_range_refuted :
  let p := For i64 0 (Num 5) (Num 0) None (show 0) in
  values 5 0 1 = [] /\ outcome (exec any 3 p (init [])) = Some (Next, []) /\
  outcome (texec 7 (lower p) (init [])) = None /\
  ~ exists k g t, texec k (lower (For i64 0 (Num 5) (Num 0) (Some (Num 1)) Skip)) (init []) = End g t.
Proof.
  repeat split. intros H. apply C84_signed_ends_iff in H; [|reflexivity|reflexivity].
  destruct H as [H|H]; discriminate.
Qed.
Print Assumptions C84_empty_range_refuted.

(** The end is evaluated again before each round. *)
Theorem C84_end_again_refuted :
  let p := For i64 0 (Num 0) (Emit (Num 2)) None (show 0) in
  let q := Seq (Assign 1 (Num 4)) (For i64 0 (Num 0) (Var 1) None (Seq (show 0) (Assign 1 (Num 2)))) in
  outcome (exec any 9 p (init [])) = Some (Next, [2; 0; 1]) /\
  outcome (texec 9 (lower p) (init [])) = Some (Next, [2; 0; 2; 1; 2]) /\
  outcome (exec any 9 q (init [])) = Some (Next, [0; 1; 2; 3]) /\
  outcome (texec 9 (lower q) (init [])) = Some (Next, [0; 1]).
Proof. repeat split. Qed.
Print Assumptions C84_end_again_refuted.

(** Assignments to the variable are seen by the loop. *)
Theorem C84_variable_assigned_refuted :
  let p := For i64 0 (Num 0) (Num 4) None (Seq (show 0) (Assign 0 (Add (Var 0) (Num 1)))) in
  outcome (exec any 9 p (init [])) = Some (Next, [0; 1; 2; 3]) /\
  outcome (texec 9 (lower p) (init [])) = Some (Next, [0; 2]).
Proof. repeat split. Qed.
Print Assumptions C84_variable_assigned_refuted.

(** [break] in a switch does not leave the loop. *)
Theorem C84_break_in_switch_refuted :
  let p := For i64 0 (Num 0) (Num 4) None (Seq (show 0) (Switch (Var 0) 1 Break Skip)) in
  outcome (exec any 9 p (init [])) = Some (Next, [0; 1]) /\
  outcome (texec 9 (lower p) (init [])) = Some (Next, [0; 1; 2; 3]).
Proof. repeat split. Qed.
Print Assumptions C84_break_in_switch_refuted.

(** C85: a loop over an array runs once for each element, in order, with the index beside it. *)
Theorem C85_array_loop_partial f v i a len body s g s' :
  v <> i -> keeps_var i body = true -> Z.of_nat len + 1 < 2 ^ 64 -> steady_loops body = true ->
  each (fun k s => match nth_z (s_arr s a) k with
          | Some x => unlet v (s_var s v) (unlet i (s_var s i) (exec meets f body (set_var i k (set_var v x s))))
          | None => Undef end) (map Z.of_nat (seq 0 len)) s = End g s' ->
  exists k t, texec k (lower (ForArr v i a len body)) s = End g t /\
    (forall v, s_var t v = s_var s' v) /\ (forall a, s_arr t a = s_arr s' a) /\ s_out t = s_out s'.
Proof.
  intros Hv Hk Hlen Hl E. apply (C84_loops_keep_meaning_partial (S f)); [|exact E].
  cbn [steady_loops]. rewrite Hk, Hl. apply Nat.eqb_neq in Hv. apply Z.ltb_lt in Hlen. rewrite Hv, Hlen. reflexivity.
Qed.
Print Assumptions C85_array_loop_partial.
(** The elements are stored into while the loop runs. *)
Definition array_example : stmt :=
  ForArr 0 1 0 4 (Seq (show 1) (Seq (show 0) (Seq (If (Lt (Var 1) (Num 1)) (Store 0 (Num 2) (Num 50)) Skip)
    (If (Ne (Var 0) (Num 8)) Skip Continue)))).
Example C85_example : steady_loops array_example = true /\
  outcome (exec meets 50 array_example (init [7; 8; 9; 10])) = Some (Next, [0; 7; 1; 8; 2; 50; 3; 10]) /\
  outcome (texec 50 (lower array_example) (init [7; 8; 9; 10])) = Some (Next, [0; 7; 1; 8; 2; 50; 3; 10]).
Proof. repeat split. Qed.

(** A loop over a string never runs. *)
Theorem C85_string_loop_refuted v i l body s : v <> i ->
  exists t, texec 4 (lower (ForStr v i l body)) s = End Next t /\
    (forall x, s_var t x = s_var s x) /\ s_arr t = s_arr s /\ s_out t = s_out s.
Proof.
  intros H. eexists. split; [|split; [|split]].
  - cbn -[with_element]. rewrite upd_same. cbn. reflexivity.
  - intros x. cbn. unfold upd. destruct (Nat.eqb_spec x v) as [->|]; [reflexivity|].
    destruct (Nat.eqb_spec x i) as [->|]; [|reflexivity]. destruct (Nat.eqb_spec i v); congruence.
  - reflexivity.
  - reflexivity.
Qed.
Print Assumptions C85_string_loop_refuted.
Example C85_string_example :
  let p := ForStr 0 1 [104; 105] (show 0) in
  outcome (exec any 9 p (init [])) = Some (Next, [104; 105]) /\ outcome (texec 9 (lower p) (init [])) = Some (Next, []).
Proof. repeat split. Qed.
