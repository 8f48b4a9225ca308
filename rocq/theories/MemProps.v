(** * C53: owned variables are released exactly once on every path *)
From stdpp Require Import numbers list gmap.
From Verif Require Import MemModel MemSpec MemEval MemCalm.

Notation fresh x := (SDecl x (Some DFresh)).

(** Every execution of every function that is accepted, with warnings taken
    as errors, and follows the discipline of [MemSpec] ends with everything
    released or handed over exactly once. Missing for the full property: the
    programs the discipline excludes, on which it fails as shown below. *)
Theorem C53_released_once_partial cls params body code :
  compile true params body = Some code →
  calm_fun cls params body →
  ∀ o d', execs code (call params) o d' → released_once o d'.
Proof. intros H1 H2 o d' H3. by eapply calm_released. Qed.
Print Assumptions C53_released_once_partial.

(** In particular nothing is released, copied or handed over when it is no
    longer there. *)
Theorem C53_never_bad_partial cls params body code :
  compile true params body = Some code →
  calm_fun cls params body →
  ∀ d', ¬ execs code (call params) Bad d'.
Proof. intros H1 H2 d' H3. by apply (calm_released cls params body code Bad d'). Qed.
Print Assumptions C53_never_bad_partial.

(** A function of the discipline: a moved parameter; a variable moved on one
    path and returned early on another; one assigned late in a loop that is
    left by [break]; one replaced in a [switch]; jumps that release. *)
Definition sample : block := blk [
  SMove 9;
  fresh 0;
  fresh 1;
  SDecl 2 None;
  SIf (blk [SMove 1]) (blk [SIf (blk [SReturn (RVar 1)]) BNil]);
  SLoop (blk [
    fresh 3;
    SMove 3;
    fresh 4;
    SAssign 2 (AUsing 4);
    SIf (blk [fresh 5; SAssign 0 AFresh; SMove 5]) BNil;
    SAssign 3 AFresh;
    SBreak]);
  SSwitch (alts [blk [SAssign 0 AFresh]; blk [fresh 6; SUse 6]; BNil]);
  SDecl 7 (Some (DCopy 0));
  SReturn (RVar 7)].

Definition sample_class (x : nat) : class :=
  if decide (x ∈ [1; 3; 5; 7; 9]) then Mobile else if decide (x = 2) then Late else Steady.

Example sample_calm : calm_fun sample_class [8; 9] sample.
Proof.
  split; [|vm_compute; reflexivity].
  repeat constructor; vm_compute; discriminate.
Qed.
Example sample_runs : ∃ code d', compile true [8; 9] sample = Some code ∧
  execs code (call [8; 9]) Returned d' ∧ released_once Returned d'.
Proof. by apply (right_by 100 [0; 0; 1]). Qed.
Example sample_runs_early : ∃ code d', compile true [8; 9] sample = Some code ∧
  execs code (call [8; 9]) Returned d' ∧ released_once Returned d'.
Proof. by apply (right_by 100 [1; 0]). Qed.

(** ** What the discipline excludes is wrong *)

(** [a = b]: both name one resource, which is released twice. *)
Theorem C53_assign_by_name_refuted :
  goes_wrong true [] (blk [fresh 0; fresh 1; SAssign 0 (AName 1)]) Bad.
Proof. by apply (wrong_by 100 []). Qed.
Print Assumptions C53_assign_by_name_refuted.

(** [x = f(x)]: [x] is released before [f] looks at it. *)
Theorem C53_assign_from_itself_refuted :
  goes_wrong true [] (blk [fresh 0; SAssign 0 (AUsing 0)]) Bad.
Proof. by apply (wrong_by 100 []). Qed.
Print Assumptions C53_assign_from_itself_refuted.

(** [fn f(x) { if c { g(&&x) } }]: not released if [c] is false, because the
    flag of a parameter starts out cleared. *)
Theorem C53_parameter_leaks_refuted :
  goes_wrong true [0] (blk [SIf (blk [SMove 0]) BNil]) Fell.
Proof. by apply (wrong_by 100 [1]). Qed.
Print Assumptions C53_parameter_leaks_refuted.

(** [while c { return x }]: [x] is released after it was set aside for the
    caller. *)
Theorem C53_return_in_loop_refuted :
  goes_wrong true [] (blk [fresh 0; SLoop (blk [SReturn (RVar 0)])]) Returned.
Proof. by apply (wrong_by 100 []). Qed.
Print Assumptions C53_return_in_loop_refuted.

(** The same for a variable of the loop, returned from an inner block. *)
Theorem C53_return_of_loop_variable_refuted :
  goes_wrong true [] (blk [SLoop (blk [fresh 0; SIf (blk [SReturn (RVar 0)]) BNil])]) Returned.
Proof. by apply (wrong_by 100 [0]). Qed.
Print Assumptions C53_return_of_loop_variable_refuted.

(** [while c { var x = f(); g(&&x); if d { break } }]: released again at the
    [break]. *)
Theorem C53_moved_then_break_refuted :
  goes_wrong true [] (blk [SLoop (blk [fresh 0; SMove 0; SIf (blk [SBreak]) BNil])]) Bad.
Proof. by apply (wrong_by 100 [0]). Qed.
Print Assumptions C53_moved_then_break_refuted.

(** Moved before a loop, released again at a [return] in the loop. *)
Theorem C53_moved_then_return_in_loop_refuted :
  goes_wrong true [] (blk [fresh 0; SMove 0; SLoop (blk [SReturn RNone])]) Bad.
Proof. by apply (wrong_by 100 []). Qed.
Print Assumptions C53_moved_then_return_in_loop_refuted.

(** Assigned and moved in every round, released again in the next one. *)
Theorem C53_assigned_and_moved_in_loop_refuted :
  goes_wrong true [] (blk [SDecl 0 None;
    SLoop (blk [SIf (blk [SAssign 0 AFresh; SMove 0]) (blk [SBreak])])]) Bad.
Proof. by apply (wrong_by 100 [0; 0; 1]). Qed.
Print Assumptions C53_assigned_and_moved_in_loop_refuted.

(** Assigned, then left by [break] before it is moved: never released. *)
Theorem C53_break_before_move_refuted :
  goes_wrong true [] (blk [SDecl 0 None;
    SLoop (blk [SAssign 0 AFresh; SIf (blk [SBreak]) BNil; SMove 0])]) Fell.
Proof. by apply (wrong_by 100 [0]). Qed.
Print Assumptions C53_break_before_move_refuted.

(** Moved in one case of a [switch]: released again at the end, as no drop
    flag is made. *)
Theorem C53_moved_in_case_refuted :
  goes_wrong true [] (blk [fresh 0; SSwitch (alts [blk [SMove 0]; BNil])]) Bad.
Proof. by apply (wrong_by 100 [0]). Qed.
Print Assumptions C53_moved_in_case_refuted.

(** Moved in the last two of three cases: never released if the first is taken. *)
Theorem C53_moved_in_two_cases_refuted :
  goes_wrong true []
    (blk [fresh 0; SSwitch (alts [BNil; blk [SMove 0]; blk [SMove 0]])]) Fell.
Proof. by apply (wrong_by 100 [0]). Qed.
Print Assumptions C53_moved_in_two_cases_refuted.

(** Assigned in the last case but one only. *)
Theorem C53_assigned_in_case_refuted :
  goes_wrong true []
    (blk [SDecl 0 None; SSwitch (alts [blk [SAssign 0 AFresh]; BNil])]) Fell.
Proof. by apply (wrong_by 100 [0]). Qed.
Print Assumptions C53_assigned_in_case_refuted.

(** A use that is only warned about: what may be moved is moved again. *)
Theorem C53_warning_only_refuted :
  goes_wrong false [] (blk [fresh 0; SIf (blk [SMove 0]) BNil; SMove 0]) Bad ∧
  compile true [] (blk [fresh 0; SIf (blk [SMove 0]) BNil; SMove 0]) = None.
Proof. split; [by apply (wrong_by 100 [0])|done]. Qed.
Print Assumptions C53_warning_only_refuted.

(** [break] in a [switch] in a loop: the variables of the loop are released,
    then the rest of the loop runs, as the C [break] leaves the [switch]. *)
Theorem C53_break_in_switch_refuted :
  goes_wrong true [] (blk [SLoop (blk [fresh 0;
    SSwitch (alts [blk [SBreak]; BNil]); SReturn RNone])]) Bad.
Proof. by apply (wrong_by 100 [0]). Qed.
Print Assumptions C53_break_in_switch_refuted.
