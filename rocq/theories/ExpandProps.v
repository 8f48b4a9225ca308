(** Property C95: the expansion of macros. *)
From Coq Require Import Bool List Arith Lia.
Import ListNotations.
From Verif Require Import ExpandModel ExpandSpec ExpandProofs.

(** * C95 *)
(** Parameters distinct and named unlike all macros, bodies and program using no foreign parameters: then the compiler ends
    with [w] exactly if [w] is the expansion; no macro and no parameter is left in it. *)
Theorem C95_macros_expand_partial : forall G e, tidy G -> scoped G [] e ->
  (forall w, (exists fuel, visit fuel G [[]] e = Ok w) <-> expands G [] e w) /\
  (forall fuel w, visit fuel G [[]] e = Ok w -> calls (fun n => ~ is_macro G n /\ ~ is_param G n) w).
Proof.
  intros G e T S. pose proof (start_ok G) as O. split.
  - intros w. split.
    + intros [fuel V]. apply (visit_sound G T fuel [] [[]] e w O S V).
    + intros X. apply (proj1 (visit_complete G T) [] e w X S [[]] O).
  - intros fuel w V. apply (visit_sound G T fuel [] [[]] e w O S V).
Qed.
Print Assumptions C95_macros_expand_partial.
(** The result does not depend on how long one waits. *)
Theorem C95_more_time_same_result : forall G env e fuel fuel' v w,
  visit fuel G env e = Ok v -> visit fuel' G env e = Ok w -> v = w.
Proof.
  intros G env e fuel fuel' v w V W.
  apply (visit_mono G fuel (max fuel fuel')) in V; [|lia]. apply (visit_mono G fuel' (max fuel fuel')) in W; [|lia]. congruence.
Qed.
Print Assumptions C95_more_time_same_result.

(** macro 10 (a=1, b=2) is [a! + b!]; macro 11 (x=3) is [10!(x!, 7)]; call [11!(10!(5, 20!()))], 20 unknown here *)
Definition ex_G : macros :=
  [(10, Macro [1; 2] (Node (Call 1 []) (Call 2 []))); (11, Macro [3] (Call 10 [Call 3 []; Lit 7]))].
Definition ex_e : expr := Call 11 [Call 10 [Lit 5; Call 20 []]].
Example C95_ex_tidy : tidy ex_G /\ scoped ex_G [] ex_e.
Proof.
  assert (P : forall n, is_param ex_G n -> In n [1; 2; 3]).
  { intros n (m & d & A & I). unfold ex_G in A. cbn [assoc] in A.
    destruct (Nat.eqb_spec 10 m); [inversion A; subst d; simpl in I; simpl; lia|].
    destruct (Nat.eqb_spec 11 m); [inversion A; subst d; simpl in I; simpl; lia|discriminate]. }
  assert (Q : forall n, 3 < n -> ~ is_param ex_G n) by (intros n H X; apply P in X; simpl in X; lia).
  split.
  - intros m d A. unfold ex_G in A. cbn [assoc] in A.
    destruct (Nat.eqb_spec 10 m); [|destruct (Nat.eqb_spec 11 m); [|discriminate]]; inversion A; subst; simpl; repeat split.
    + repeat constructor; simpl; lia.
    + intros p [<-|[<-|[]]] H; apply H; reflexivity.
    + left. simpl. auto.
    + left. simpl. auto.
    + repeat constructor; simpl; lia.
    + intros p [<-|[]] H; apply H; reflexivity.
    + right. apply Q. lia.
    + left. simpl. auto.
  - unfold scoped, ex_e. simpl. repeat split; right; apply Q; lia.
Qed.
Example C95_ex : visit 6 ex_G [[]] ex_e = Ok (Node (Node (Lit 5) (Call 20 [])) (Lit 7)).
Proof. reflexivity. Qed.

(** * Without those conditions *)
(** A parameter named like a macro: the macro wins. *)
Theorem C95_parameter_named_like_macro_refuted : exists G e v w fuel,
  scoped G [] e /\ expands G [] e v /\ visit fuel G [[]] e = Ok w /\ v <> w.
Proof.
  exists [(10, Macro [] (Lit 0)); (11, Macro [10] (Call 10 []))], (Call 11 [Lit 5]), (Lit 5), (Lit 0), 4. repeat split.
  - right. intros (m & d & A & I). simpl in A. destruct m as [|[|[|[|[|[|[|[|[|[|[|[|m]]]]]]]]]]]]; try discriminate;
      inversion A; subst; simpl in I; lia.
  - eapply x_macro; try reflexivity; [repeat econstructor|reflexivity|]. eapply x_param; [reflexivity|constructor].
  - discriminate.
Qed.
Print Assumptions C95_parameter_named_like_macro_refuted.
(** A builtin macro in an argument is captured by an earlier parameter of its name, here though the table is tidy. *)
Theorem C95_arguments_are_captured_refuted : exists G e v w fuel,
  tidy G /\ expands G [] e v /\ visit fuel G [[]] e = Ok w /\ v <> w.
Proof.
  exists [(11, Macro [1; 2] (Call 2 []))], (Call 11 [Lit 5; Call 1 [Lit 6]]), (Call 1 [Lit 6]), (Lit 5), 4. split; [|repeat split].
  - intros m d A. simpl in A. destruct m as [|[|[|[|[|[|[|[|[|[|[|[|m]]]]]]]]]]]]; try discriminate. inversion A; subst. repeat split.
    + repeat constructor; simpl; lia.
    + intros p [<-|[<-|[]]] H; apply H; reflexivity.
    + left. simpl. auto.
  - eapply x_macro; try reflexivity.
    + constructor; [constructor|]. constructor; [|constructor]. apply x_other; try reflexivity. repeat constructor.
    + reflexivity.
    + eapply x_param; [reflexivity|constructor].
  - discriminate.
Qed.
Print Assumptions C95_arguments_are_captured_refuted.
(** The parameters of the macros that are being expanded are visible in the bodies of those they call. *)
Theorem C95_scope_is_dynamic_refuted : exists G e v w fuel,
  scoped G [] e /\ expands G [] e v /\ visit fuel G [[]] e = Ok w /\ v <> w.
Proof.
  exists [(10, Macro [] (Call 1 [])); (11, Macro [1] (Call 10 []))], (Call 11 [Lit 5]), (Call 1 []), (Lit 5), 5. repeat split.
  - right. intros (m & d & A & I). simpl in A. destruct m as [|[|[|[|[|[|[|[|[|[|[|[|m]]]]]]]]]]]]; try discriminate;
      inversion A; subst; simpl in I; lia.
  - eapply x_macro; try reflexivity; [repeat econstructor|reflexivity|]. eapply x_macro; try reflexivity; [constructor|reflexivity|].
    simpl. apply x_other; [reflexivity|reflexivity|constructor].
  - discriminate.
Qed.
Print Assumptions C95_scope_is_dynamic_refuted.
(** A macro that calls itself: no error, the compiler does not end. *)
Theorem C95_recursion_is_reported_refuted : exists G e, tidy G /\ scoped G [] e /\ forall fuel, visit fuel G [[]] e = Out.
Proof.
  exists [(10, Macro [] (Call 10 []))], (Call 10 []).
  assert (Q : forall n, ~ is_param [(10, Macro [] (Call 10 []))] n).
  { intros n (m & d & A & I). simpl in A. destruct m as [|[|[|[|[|[|[|[|[|[|[|m]]]]]]]]]]]; try discriminate;
      inversion A; subst; destruct I. }
  split; [|split].
  - intros m d A. simpl in A. destruct m as [|[|[|[|[|[|[|[|[|[|[|m]]]]]]]]]]]; try discriminate. inversion A; subst. repeat split.
    + constructor.
    + intros p [].
    + right. apply Q.
  - split; [right; apply Q|exact I].
  - intros fuel. generalize ([[]] : list scope). induction fuel as [|fuel IH]; intros env; [reflexivity|]. cbn. apply IH.
Qed.
Print Assumptions C95_recursion_is_reported_refuted.
(** The wrong number of arguments is an error, whatever the environment; nothing is put in place. *)
Theorem C95_arity_checked : forall G env m args d fuel w, assoc m G = Some d ->
  visit fuel G env (Call m args) = Ok w -> length args = length (m_params d) /\ NoDup (m_params d).
Proof.
  intros G env m args d fuel w A V. destruct fuel as [|fuel]; [discriminate|]. cbn [visit] in V.
  assert (L : forall f es ws, visits f es = Ok ws -> length ws = length es).
  { intros f es. induction es as [|e es IH]; intros ws X; simpl in X; [inversion X; reflexivity|].
    destruct (f e); try discriminate. cbn [bind] in X. destruct (visits f es) eqn:B; try discriminate. cbn [bind] in X.
    inversion X. simpl. f_equal. apply IH. reflexivity. }
  destruct (visits (visit fuel G env) args) as [| |args'] eqn:B; try discriminate. cbn [bind] in V. rewrite A in V.
  apply L in B. destruct (Nat.eqb_spec (length args') (length (m_params d))) as [E|E]; [|discriminate].
  split; [congruence|]. destruct (define _ [] (m_params d) args') as [| |s] eqn:D; try discriminate.
  assert (X : forall ps args' s s', length args' = length ps -> define (fun s => visit fuel G (s :: env)) s ps args' = Ok s' ->
    NoDup ps /\ forall p, In p ps -> ~ In p (map fst s)).
  { clear. induction ps as [|p ps IH]; intros [|a args'] s s' L D; try discriminate; [split; [constructor|intros ? []]|].
    simpl in D. destruct (visit fuel G (s :: env) a); try discriminate. cbn [bind] in D.
    destruct (assoc p s) eqn:A; [discriminate|]. apply assoc_none in A. simpl in L. apply IH in D as [N K]; [|lia].
    split; [constructor; [|exact N]; intros H; apply (K p H); left; reflexivity|].
    intros q [<-|H]; [exact A|]. intros Y. apply (K q H). right. exact Y. }
  apply (X _ _ _ _ E D).
Qed.
Print Assumptions C95_arity_checked.
Example C95_ex_arity : visit 5 ex_G [[]] (Call 10 [Lit 5]) = Err /\ visit 5 [(10, Macro [1; 1] (Lit 0))] [[]] (Call 10 [Lit 5; Lit 6]) = Err.
Proof. split; reflexivity. Qed.
