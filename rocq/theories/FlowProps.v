(** Returns: code dropped as unreachable, the return added to [!void] functions, functions left without a return. *)
From Coq Require Import Bool List.
Import ListNotations.
From Verif Require Import FlowModel FlowSpec FlowProofs.

(** * C91: code that is dropped cannot be reached *)
(** If no operand that may be skipped and no deferred code always returns, the body with unreachable code dropped
    does exactly what the body does. *)
Theorem C91_dropped_partial l : tame_l l -> same (den_l (check_body false l)) (den_l l).
Proof. apply body_kept. Qed.
Print Assumptions C91_dropped_partial.

(** The state is set only where the code before has a form that always returns, and such code cannot be left at its end. *)
Theorem C91_state_partial l : tame_l l ->
  (fst (check_l false l) = true -> returns_l l = true) /\ (returns_l l = true -> never_ends (den_l l)).
Proof.
  intros T. split; [|apply returns_never]. intros E.
  destruct (proj1 (proj2 (proj2 state_returns)) l T false E); [discriminate|assumption].
Qed.
Print Assumptions C91_state_partial.

(** Nothing is kept after a return statement. *)
Theorem C91_after_return_partial st e r :
  exists e', check_l st (SCons (SReturn e KReturn) r) = (true, SCons (SReturn e' KReturn) SNil).
Proof.
  exists (snd (check_e st e)). simpl. destruct (check_e st e) as [s1 e']. simpl. rewrite orb_true_r.
  destruct r; reflexivity.
Qed.
Print Assumptions C91_after_return_partial.

(** if (1) { return } else { 2; return; 3 } 4; { 5 } 6 *)
Definition ret (n : nat) : stmt := SReturn (EAtom n) KReturn.
Definition one (s : stmt) : stmts := SCons s SNil.
Definition at_ (n : nat) : stmt := SExpr (EAtom n).
Definition both : stmts :=
  SCons (SIfElse (EAtom 1) (one (ret 7)) (SCons (at_ 2) (SCons (ret 8) (one (at_ 3)))))
    (SCons (SVar (EAtom 4)) (SCons (SBlock (one (at_ 5))) (one (at_ 6)))).
Example C91_both_example : tame_l both /\
  check_body false both = SCons (SIfElse (EAtom 1) (one (ret 7)) (SCons (at_ 2) (one (ret 8))))
    (SCons (SVar (EAtom 4)) (one (SBlock (one (at_ 5))))) /\ den_l both (ORet KReturn) [1; 2; 8].
Proof.
  split; [simpl; tauto|]. split; [reflexivity|].
  left. split; [discriminate|]. right. exists [1], [2; 8]. split; [left; auto|split; [|reflexivity]].
  right. right. exists [2], [8]. split; [left; auto|split; [|reflexivity]].
  left. split; [discriminate|]. right. exists [8], []. split; [left; auto|split; [split; auto|reflexivity]].
Qed.

(** After [n && ({ return; })] all that follows is dropped, although it runs whenever [n] is false. *)
Definition shortcut (n : nat) : stmt := SExpr (ELogic (EAtom n) (EBlock (one (ret 9)))).
Theorem C91_shortcut_refuted n m r :
  check_body false (SCons (shortcut n) (SCons (at_ m) r)) = one (shortcut n) /\
  den_l (SCons (shortcut n) (SCons (at_ m) r)) OStop [n; m] /\
  (m <> 9 -> ~ den_l (one (shortcut n)) OStop [n; m]).
Proof.
  split; [reflexivity|]. split.
  - right. exists [n], [m]. repeat split.
    + right. exists [n], []. split; [left; auto|split; [left; split; auto|reflexivity]].
    + left. split; [discriminate|]. right. auto.
  - intros M h. assert (X : forall o t, den_l (one (shortcut n)) o t -> t = [] \/ t = [n] \/ t = [n; 9]).
    { clear. intros o t [[_ h]|(t1 & t2 & h & [-> _] & ->)]; rewrite ?app_nil_r;
        destruct h as [[_ a]|(u1 & u2 & [[_ ->]|[? _]] & h & ->)]; try discriminate;
        try (destruct a as [[_ ->]|[_ [->| ->]]]; auto; fail);
        destruct h as [[-> _]|h]; auto; right;
        destruct h as [[_ h]|(v1 & v2 & h & [-> _] & ->)]; rewrite ?app_nil_r;
        destruct h as [[_ a]|(w1 & w2 & [[_ ->]|[? _]] & [-> _] & ->)]; try discriminate; auto;
        destruct a as [[_ ->]|[_ [->| ->]]]; auto. }
    destruct (X _ _ h) as [e|[e|e]]; congruence.
Qed.
Print Assumptions C91_shortcut_refuted.

(** [1 ? ({ return; }) : ({ 2; return; })]: the second return is dropped, and what is left can be left at its end. *)
Definition tern : stmts := one (SExpr (ETern (EAtom 1) (EBlock (one (ret 7))) (EBlock (SCons (at_ 2) (one (ret 8)))))).
Theorem C91_ternary_refuted : never_ends (den_l tern) /\
  check_body false tern = one (SExpr (ETern (EAtom 1) (EBlock (one (ret 7))) (EBlock (one (at_ 2))))) /\
  den_l (check_body false tern) ONormal [1; 2].
Proof.
  split; [apply (proj1 (proj2 (proj2 returns_never)) tern eq_refl)|]. split; [reflexivity|].
  right. exists [1; 2], []. split; [|split; [split; auto|reflexivity]].
  right. exists [1], [2]. split; [left; auto|split; [|reflexivity]].
  right. right. exists [2], []. split; [left; auto|split; [split; auto|reflexivity]].
Qed.
Print Assumptions C91_ternary_refuted.

(** After [defer { return; }] everything from the second statement on is dropped. *)
Theorem C91_defer_refuted :
  let b := SCons (SDefer (EBlock (one (ret 7)))) (SCons (at_ 1) (one (at_ 2))) in
  check_body false b = SCons (SDefer (EBlock (one (ret 7)))) (one (at_ 1)) /\
  den_l b (ORet KReturn) [1; 2; 7].
Proof.
  split; [reflexivity|]. right. exists ONormal, [1; 2], (ORet KReturn), [7]. split.
  - right. exists [1], [2]. split; [left; auto|split; [|reflexivity]].
    right. exists [2], []. split; [left; auto|split; [split; auto|reflexivity]].
  - split; [discriminate|]. split; [|auto]. left. split; [discriminate|]. right. exists [7], [].
    split; [left; auto|split; [split; auto|reflexivity]].
Qed.
Print Assumptions C91_defer_refuted.

(** * C92: a function with a type returns *)
(** A function of type [!void] does what its body does and then returns: it cannot be left at its end. *)
Theorem C92_void_result_partial l : tame_l l ->
  same (den_l (check_body true l)) (seq (den_l l) (goes (ORet KImplicit))) /\ never_ends (den_l (check_body true l)).
Proof. intros T. split; [apply body_void|apply body_void_ends]; exact T. Qed.
Print Assumptions C92_void_result_partial.
(** while (1) { if (2) { return } } defer 3: the return is added at the end *)
Definition loops : stmts := SCons (SWhile (EAtom 1) (one (SIf (EAtom 2) (one (ret 7))))) (one (SDefer (EAtom 3))).
Example C92_loops_example : tame_l loops /\
  check_body true loops = snoc loops (SReturn EConst KImplicit) /\
  den_l (check_body true loops) (ORet KImplicit) [1; 3] /\ den_l (check_body true loops) (ORet KReturn) [1; 2; 7].
Proof.
  split; [simpl; tauto|]. split; [reflexivity|]. split.
  - right. exists [1], [3]. split; [apply loop_exit; left; auto|split; [|reflexivity]].
    right. exists (ORet KImplicit), [], ONormal, [3]. repeat split; auto; [|discriminate|left; auto].
    left. split; [discriminate|]. right. exists [], []. repeat split; auto.
  - left. split; [discriminate|]. apply (loop_leave _ _ (ORet KReturn) [1] [2; 7]); [left; auto| |left; eauto].
    left. split; [discriminate|]. right. exists [2], [7]. split; [left; auto|split; [|reflexivity]].
    right. left. split; [discriminate|]. right. exists [7], []. split; [left; auto|split; [split; auto|reflexivity]].
Qed.

(** With [1 && ({ return; })] as the body no return is added, and the function ends without one. *)
Theorem C92_void_result_refuted :
  let b := one (shortcut 1) in check_body true b = b /\ den_l (check_body true b) ONormal [1].
Proof.
  split; [reflexivity|]. right. exists [1], []. split; [|split; [split; auto|reflexivity]].
  right. exists [1], []. split; [left; auto|split; [left; split; auto|reflexivity]].
Qed.
Print Assumptions C92_void_result_refuted.

(** Any other type: a function whose type is written is accepted whatever its body does, also if it ends without a return. *)
Theorem C92_missing_return_refuted assignable t body_ : t <> TAuto ->
  accept_body assignable t (Some t) body_ = true /\
  exists l, tame_l l /\ den_l l (ORet KReturn) [1; 7] /\ den_l (check_body false l) ONormal [1].
Proof.
  intros N. split.
  - unfold accept_body. destruct t; try congruence; simpl; [reflexivity|]. rewrite PeanoNat.Nat.eqb_refl. reflexivity.
  - exists (one (SIf (EAtom 1) (one (ret 7)))). split; [simpl; tauto|]. split.
    + left. split; [discriminate|]. right. exists [1], [7]. split; [left; auto|split; [|reflexivity]].
      right. left. split; [discriminate|]. right. exists [7], []. split; [left; auto|split; [split; auto|reflexivity]].
    + right. exists [1], []. split; [|split; [split; auto|reflexivity]].
      right. exists [1], []. split; [left; auto|split; [left; split; auto|reflexivity]].
Qed.
Print Assumptions C92_missing_return_refuted.
(** A function whose type is not written is checked against what it was found to return. *)
Example C92_accept_example : accept_body (fun _ _ => false) (TOther 1) None (TOther 2) = false /\
  accept_body (fun _ _ => false) (TOther 1) None (TOther 1) = true.
Proof. split; reflexivity. Qed.
