(** Property C97: default arguments. *)
From Coq Require Import Bool List Arith Lia.
Import ListNotations.
From Verif Require Import DefArgModel DefArgSpec DefArgProofs.

(** * C97 *)
(** Of functions, exactly those with their defaults at the end are accepted; a call is accepted exactly if the arguments left
    out have defaults, and gets those. *)
Theorem C97_functions_partial : forall ps, fixed ps ->
  (shake_func ps <> None <-> trailing ps) /\
  (trailing ps -> forall name ret args,
    (forall out, call (FType name ps ret) args = Some (Some out) <-> filled ps args out) /\
    (call (FType name ps ret) args = None <-> forall out, ~ filled ps args out)).
Proof.
  intros ps F. split.
  - rewrite <- (shake_start ps F 0). unfold shake_func. split.
    + apply (shake_none ps F 0 false).
    + intros [r ->]. discriminate.
  - intros T name ret args. unfold call, accepts. cbn [f_params].
    assert (FL : forall out, filled ps args out -> length args <= length ps /\ length ps - default_count ps <= length args).
    { intros out (g & r & ds & -> & G & D & _). rewrite count_app, app_length.
      assert (R : Forall (fun p => p_def p <> None) r).
      { apply Forall_forall. intros p I. apply (in_map p_def) in I. rewrite D in I. apply in_map_iff in I as (d & <- & _). discriminate. }
      rewrite (count_all r R). pose proof (count_le g). lia. }
    assert (EX : length ps - default_count ps <= length args -> length args <= length ps -> exists out, filled ps args out).
    { intros A B. destruct (all_some _ (skip_defs ps _ T A)) as [ds D]. exists (args ++ ds), (firstn (length args) ps), (skipn (length args) ps), ds.
      rewrite firstn_skipn, firstn_length. repeat split; auto. lia. }
    destruct (Nat.leb_spec (length ps - default_count ps) (length args)) as [A|A];
      destruct (Nat.leb_spec (length args) (length ps)) as [B|B]; cbn [andb].
    + destruct (EX A B) as [o O]. apply filled_iff in O as [O L]; [|exact B]. split.
      * intros out. rewrite filled_iff by exact B. rewrite O. split; [intros [= ->]; auto|intros [X _]; congruence].
      * split; [discriminate|]. intros X. destruct (X o). apply filled_iff; auto.
    + split; [intros out|]; split; try discriminate; auto.
      * intros X. apply FL in X. lia.
      * intros _ out X. apply FL in X. lia.
    + split; [intros out|]; split; try discriminate; auto.
      * intros X. apply FL in X. lia.
      * intros _ out X. apply FL in X. lia.
    + lia.
Qed.
Print Assumptions C97_functions_partial.
(** func f(a, b = 10, c = 20): f(1, 2) is f(1, 2, 20) *)
Definition ex_f : list param := [Param 0 None false; Param 0 (Some 10) false; Param 0 (Some 20) false].
Example C97_ex : shake_func ex_f = Some (1, false) /\ call (FType (Some 0) ex_f 0) [1; 2] = Some (Some [1; 2; 20]) /\
  call (FType (Some 0) ex_f 0) [] = None /\ shake_func [Param 0 (Some 1) false; Param 0 None false] = None.
Proof. repeat split. Qed.
(** The number of required parameters kept with the function (shake.c:620) is that by which calls are accepted. *)
Theorem C97_required : forall ps r, fixed ps -> shake_func ps = Some (r, false) -> r = length ps - default_count ps.
Proof.
  assert (X : forall ps, fixed ps -> forall n r, shake ps n n false = Some (r, false) -> r = n + (length ps - default_count ps)).
  { induction 1 as [|p ps F Fs IH]; intros n r H; cbn [shake] in H; [inversion H; simpl; lia|].
    unfold default_count in *. cbn [filter length]. destruct (p_def p) eqn:D.
    - rewrite shake_seen in H by exact Fs. destruct (forallb _ ps) eqn:A; [|discriminate]. inversion H; subst.
      apply defs_forall, count_all in A. unfold default_count in A. cbn [length]. rewrite A. lia.
    - rewrite F in H. cbn [andb] in H. apply IH in H. rewrite H. pose proof (count_le ps) as C. unfold default_count in C. lia. }
  intros ps r F H. apply (X ps F 0 r H).
Qed.
Print Assumptions C97_required.

(** * Types written as such *)
(** Whatever the parameters: an accepted call is completed exactly if every parameter left out has a default. *)
Theorem C97_complete_exact : forall ps args, length args <= length ps ->
  forall out, filled ps args out <-> complete ps args = Some out /\ length out = length ps.
Proof. intros ps args L out. apply filled_iff, L. Qed.
Print Assumptions C97_complete_exact.
(** func(a = 1, b): nobody checks the order; a call with one argument keeps one, func(a = 1, b, c = 2) ends the compiler. *)
Theorem C97_function_types_refuted : exists ps qs, fixed ps /\ fixed qs /\
  call (FType None ps 0) [5] = Some (Some [5]) /\ length ps = 2 /\ call (FType None qs 0) [5] = Some None.
Proof.
  exists [Param 0 (Some 1) false; Param 0 None false], [Param 0 (Some 1) false; Param 0 None false; Param 0 (Some 2) false].
  repeat split; repeat constructor.
Qed.
Print Assumptions C97_function_types_refuted.
(** The type that is used is the first with the same types of parameters and result, among all so far. *)
Theorem C97_first_type_used : forall ts i t, nth_error ts i = Some t -> exists r, nth_error (intern_all [] ts) i = Some r /\
  exists a b, firstn (S i) ts = a ++ r :: b /\ alike t r /\ Forall (fun u => ~ alike t u) a.
Proof.
  intros ts i t H. assert (L : i < length (intern_all [] ts)) by (rewrite intern_all_length; apply nth_error_Some; congruence).
  apply nth_error_Some in L. destruct (nth_error (intern_all [] ts) i) as [r|] eqn:R; [|congruence]. exists r. split; [reflexivity|].
  apply (intern_all_first ts [] []) with (i := i) (t := t) (r := r) in R; [exact R| |exact H]. intros u s. tauto.
Qed.
Print Assumptions C97_first_type_used.
(** So calls are completed as declared if types that are alike have the same defaults ... *)
Theorem C97_own_defaults_partial : forall ts i t r, (forall a b, In a ts -> In b ts -> alike a b -> map p_def (f_params a) = map p_def (f_params b)) ->
  nth_error ts i = Some t -> nth_error (intern_all [] ts) i = Some r -> forall args, call r args = call t args.
Proof.
  intros ts i t r H T R args. destruct (C97_first_type_used ts i t T) as (r' & R' & a & b & E & A & _). assert (r' = r) by congruence. subst r'.
  assert (D : map p_def (f_params t) = map p_def (f_params r)).
  { apply H; [eapply nth_error_In, T| |exact A]. rewrite <- (firstn_skipn (S i) ts), E. apply in_or_app. left. apply in_elt. }
  assert (Q : forall ps qs, map p_def ps = map p_def qs -> default_count ps = default_count qs /\ append_defaults ps = append_defaults qs /\ length ps = length qs).
  { clear. induction ps as [|p ps IH]; intros [|q qs] E; try discriminate; [auto|]. inversion E as [[E1 E2]]. destruct (IH _ E2) as (X & Y & Z).
    unfold default_count in *. simpl. rewrite E1, Y. repeat split; [destruct (p_def q); simpl; lia| |lia].
    destruct (p_def q); [reflexivity|]. destruct ps, qs; try discriminate; reflexivity. }
  destruct (Q _ _ D) as (X & _ & Z). unfold call, accepts, complete. rewrite X, Z.
  destruct (Q (skipn (length args) (f_params t)) (skipn (length args) (f_params r))) as (_ & Y & _); [|rewrite Y; reflexivity].
  rewrite <- !skipn_map, D. reflexivity.
Qed.
Print Assumptions C97_own_defaults_partial.
(** ... and otherwise those of another type are taken: func(a = 1), then func(a = 2). *)
Theorem C97_own_defaults_refuted : exists s t r, nth_error (intern_all [] [s; t]) 1 = Some r /\
  trailing (f_params t) /\ call t [] = Some (Some [2]) /\ call r [] = Some (Some [1]).
Proof.
  exists (FType None [Param 0 (Some 1) false] 0), (FType None [Param 0 (Some 2) false] 0), (FType None [Param 0 (Some 1) false] 0).
  repeat split. exists [], [Param 0 (Some 2) false]. repeat split; repeat constructor. discriminate.
Qed.
Print Assumptions C97_own_defaults_refuted.
