(** Property C96: compile-time [#if] among members and declarations. *)
From Coq Require Import Bool List Arith ZArith String.
Import ListNotations.
From Verif Require Import CtIfModel CtIfSpec CtIfProofs.

Lemma nf_settled i : nf i -> settled i.
Proof.
  induction i as [n| |c t k e Ht He] using item_nested; intros N; [constructor|constructor|].
  inversion N as [| |c0 t0 k0 e0 A Nt Ft Ne Fe Ce]; subst.
  assert (L : forall l, Forall nf l -> Forall (fun i => nf i -> settled i) l -> Forall settled l)
    by (induction 1; intros X; inversion X; subst; constructor; auto).
  constructor; [apply open_none, A| |]; auto.
Qed.

(** * C96 *)
(** The preprocessor ends exactly if no branch taken is empty. Then no decided condition is left, and if branches that stay
    do not begin with a decided [#if] of several nodes (or none), the same members are selected, however the conditions
    that are still open turn out. *)
Theorem C96_members_partial : forall l, Forall wf l ->
  ((exists fuel l', visits (visit fuel) l = Ok l') <-> Forall filled l) /\
  (forall fuel l', visits (visit fuel) l = Ok l' -> Forall settled l' /\
    (Forall safe l -> forall v ns, selects v l' ns <-> selects v l ns)).
Proof.
  intros l W. split; [split|].
  - intros (fuel & l' & V). apply (visits_run _ (run fuel) l l' W V).
  - intros F. apply visits_ends. induction W as [|x r Wx Wr IH]; inversion F; subst; constructor; auto using ends.
  - intros fuel l' V. destruct (visits_run _ (run fuel) l l' W V) as (N & _ & _ & S & _). split.
    + revert N. apply Forall_impl, nf_settled.
    + intros Sf v ns. rewrite !selects_sel, S by exact Sf. tauto.
Qed.
Print Assumptions C96_members_partial.
(** If every condition is decided, that holds without the condition on beginnings, and no condition is left. *)
Theorem C96_decided : forall l, Forall wf l -> Forall closed l -> forall fuel l', visits (visit fuel) l = Ok l' ->
  (forall v ns, selects v l' ns <-> selects v l ns) /\ Forall (fun i => i = Noop \/ exists n, i = Mem n) l'.
Proof.
  assert (S : forall i, closed i -> safe i).
  { induction i as [n| |c t k e Ht He] using item_nested; intros C; [exact I|exact I|]. inversion C; subst.
    assert (L : forall l, Forall closed l -> Forall (fun i => closed i -> safe i) l -> Forall safe l)
      by (induction 1; intros X; inversion X; subst; constructor; auto).
    cbn [safe]. rewrite !all_forall. split; [intros O; contradiction|]. split; intros; apply L; assumption. }
  assert (K : forall fuel i l', closed i -> visit fuel i = Ok l' -> Forall (fun i => i = Noop \/ exists n, i = Mem n) l').
  { induction fuel as [|fuel IH]; intros i l' C V; [discriminate|]. destruct i as [n| |c t k e]; cbn [visit] in V.
    - inversion V. constructor; [right; eauto|constructor].
    - inversion V. repeat constructor.
    - inversion C; subst. rewrite open_none in H2.
      assert (L : forall l l', Forall closed l -> visits (visit fuel) l = Ok l' -> Forall (fun i => i = Noop \/ exists n, i = Mem n) l').
      { clear - IH. induction l as [|x r IHr]; intros l' C V; simpl in V; [inversion V; constructor|]. inversion C; subst.
        destruct (visit fuel x) as [| |xs] eqn:A; try discriminate. cbn [bind] in V.
        destruct (visits (visit fuel) r) as [| |ys] eqn:B; try discriminate. cbn [bind] in V. inversion V.
        apply Forall_app. split; eauto. }
      destruct (as_boolean c) as [[]|]; [| |destruct H2; reflexivity].
      + destruct t; [discriminate|]. exact (L _ _ H4 V).
      + destruct k; [inversion V; repeat constructor| |]; (destruct e; [discriminate|exact (L _ _ H5 V)]). }
  intros l W C fuel l' V. split.
  - apply (proj2 (C96_members_partial l W) fuel l' V). revert C. apply Forall_impl, S.
  - clear - K C V. revert l' V. induction C as [|x r Cx _ IH]; intros l' V; simpl in V; [inversion V; constructor|].
    destruct (visit fuel x) as [| |xs] eqn:A; try discriminate. cbn [bind] in V.
    destruct (visits (visit fuel) r) as [| |ys] eqn:B; try discriminate. cbn [bind] in V. inversion V.
    apply Forall_app. split; eauto.
Qed.
Print Assumptions C96_decided.

(** a; #if (1) { b; #if (null) {c} } else {d}; #if (T) { e; #if ("x") {f; g} } else #if (0) {h} else {i} *)
Definition ex_l : list item :=
  [Mem 1; If (CInt 1) [Mem 2; If CNull [Mem 3] KNone []] KBlock [Mem 4];
   If (CFree 0) [Mem 5; If (CStr "x") [Mem 6; Mem 7] KNone []] KChain [If (CInt 0) [Mem 8] KBlock [Mem 9]]].
Example C96_ex : visits (visit 6) ex_l =
  Ok [Mem 1; Mem 2; Noop; If (CFree 0) [Mem 5; Mem 6; Mem 7] KChain [Mem 9]].
Proof. reflexivity. Qed.
Ltac solve_open := repeat match goal with H : open _ |- _ => destruct H as [? H]; discriminate H end.
Example C96_ex_ok : Forall wf ex_l /\ Forall filled ex_l /\ Forall safe ex_l.
Proof.
  assert (O : forall c, ~ open c <-> as_boolean c <> None) by (intros c; rewrite open_none; tauto).
  assert (H : Forall wf ex_l) by (unfold ex_l; repeat constructor; simpl; eauto 10).
  split; [exact H|]. split.
  - apply (C96_members_partial ex_l H). exists 6. eexists. exact C96_ex.
  - unfold ex_l. repeat constructor; simpl; try tauto; try discriminate; try (intros; solve_open); repeat constructor; simpl;
      try tauto; try discriminate; solve_open; auto; try congruence.
Qed.

(** * What goes wrong *)
(** An empty branch that is taken ends the compiler, though it should select nothing. *)
Theorem C96_empty_branch_refuted : exists i, wf i /\ (forall v, selects v [i] []) /\ visit 3 i = Crash /\
  forall fuel l, visit fuel i <> Ok l.
Proof.
  exists (If (CBool true) [] KBlock [Mem 1]). split; [simpl; auto|]. split; [|split].
  - intros v. apply selects_sel. reflexivity.
  - reflexivity.
  - intros [|fuel] l; discriminate.
Qed.
Print Assumptions C96_empty_branch_refuted.
(** #if (T) { #if (true) {a; b} c }: of the members selected first in a branch that stays, all but one are lost. *)
Theorem C96_first_of_branch_refuted : exists i l, wf i /\ visit 5 i = Ok l /\ filled i /\
  selects (fun _ => true) [i] [1; 2; 3] /\ selects (fun _ => true) l [1; 3].
Proof.
  exists (If (CFree 0) [If (CBool true) [Mem 1; Mem 2] KNone []; Mem 3] KNone []), [If (CFree 0) [Mem 1; Mem 3] KNone []].
  assert (W : wf (If (CFree 0) [If (CBool true) [Mem 1; Mem 2] KNone []; Mem 3] KNone [])) by (simpl; auto 10).
  split; [exact W|]. split; [reflexivity|]. split; [|split].
  - apply (run 5 _ [If (CFree 0) [Mem 1; Mem 3] KNone []] W). reflexivity.
  - apply selects_sel. reflexivity.
  - apply selects_sel. reflexivity.
Qed.
Print Assumptions C96_first_of_branch_refuted.
