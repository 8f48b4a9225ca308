(** Property C98: match statements on unions. *)
From Coq Require Import Bool List Arith Lia.
Import ListNotations.
From Verif Require Import UMatchModel UMatchSpec UMatchProofs.

(** * C98 *)
(** A union has each of its members once, and has a base type exactly if that is written among its members, plainly. *)
Theorem C98_members : forall ds,
  NoDup (union_of ds) /\ forall n, In (Base n) (union_of ds) <-> has_plain ds n.
Proof.
  intros ds. split; [apply union_nodup|]. intros n. rewrite union_in. unfold has_plain. split.
  - intros (d & I & E). exists d. split; [exact I|]. apply resolve_plainly. congruence.
  - intros (d & I & P). exists d. split; [exact I|]. apply resolve_plainly in P. congruence.
Qed.
Print Assumptions C98_members.

Example C98_members_example : union_of [Base 1; Alias 9 (Base 2); Base 2; Alias 8 (Base 1); Base 3] = [Base 1; Base 2; Base 3].
Proof. reflexivity. Qed.

(** A value is put into a union exactly if the union has its type, and then under the number of that type. *)
Theorem C98_store_exact : forall V ds t n (v : V), names t n ->
  (store (union_of ds) t v <> None <-> has_plain ds n) /\
  (forall u, store (union_of ds) t v = Some u -> snd u = v /\ nth_error (union_of ds) (fst u) = Some (Base n)).
Proof.
  intros V ds t n v N.
  assert (N' : names (resolve t) n) by (apply strip_names; rewrite strip_resolve; apply strip_names, N).
  unfold store. rewrite <- (find_exact ds (resolve t) n N'). split.
  - destruct (find_index (union_of ds) (resolve t)) as [i|]; split; try discriminate; eauto; [congruence|].
    intros [i H]. discriminate.
  - intros u. destruct (find_index (union_of ds) (resolve t)) as [i|] eqn:F; [|discriminate]. intros [= <-]. split; [reflexivity|].
    eapply find_member; eauto.
Qed.
Print Assumptions C98_store_exact.

Example C98_store_example : store (union_of [Base 1; Alias 9 (Base 2)]) (Const (Alias 7 (Base 2))) 42 = Some (1, 42).
Proof. reflexivity. Qed.

(** A match is accepted by the checks exactly if each case is for a member and no two are written alike. *)
Theorem C98_check_exact : forall ds cs,
  check_match (union_of ds) cs <> None <-> covered ds cs /\ written_apart cs.
Proof.
  intros ds cs. rewrite <- dup_iff. unfold covered, check_match.
  assert (A : (exists l, check_cases (union_of ds) cs = Some l) <->
    (forall t b n, In (Case (Some t) b) cs -> names t n -> has_plain ds n)).
  { rewrite check_cases_some. split.
    - intros H t b n I N. apply (find_exact ds t n N). eauto.
    - intros H t b I. destruct (names_some t) as [n N]. apply (find_exact ds t n N). eauto. }
  rewrite <- A. destruct (check_cases (union_of ds) cs) as [l|].
  - destruct (duplicates [] cs); split; try discriminate; eauto; [congruence|]. intros [_ H]. discriminate.
  - split; [congruence|]. intros [[l H] _]. discriminate.
Qed.
Print Assumptions C98_check_exact.

Example C98_check_example :
  check_match (union_of [Base 1; Base 2]) [Case None 0; Case (Some (Base 2)) 1] = Some [(None, 0); (Some 1, 1)] /\
  check_match (union_of [Base 1; Base 2]) [Case (Some (Base 3)) 1] = None /\
  check_match (union_of [Base 1; Base 2]) [Case (Some (Base 1)) 1; Case (Some (Base 2)) 2; Case (Some (Base 1)) 3] = None.
Proof. repeat split. Qed.

(** The C code of an accepted match is accepted in turn exactly if no two cases are for the same type. *)
Theorem C98_code_exact : forall ds cs l, check_match (union_of ds) cs = Some l -> (c_accepts l = true <-> apart cs).
Proof.
  intros ds cs l. unfold check_match. destruct (check_cases (union_of ds) cs) as [l'|] eqn:E; [|discriminate].
  destruct (duplicates [] cs); [discriminate|]. intros [= ->]. eapply accepts_apart; eauto.
Qed.
Print Assumptions C98_code_exact.

(** An accepted match, on a union made of a value, runs the case for its type, with the value; else the default. *)
Theorem C98_runs : forall V ds cs l t n (v : V) u, check_match (union_of ds) cs = Some l -> names t n ->
  store (union_of ds) t v = Some u -> should cs n v (run l u).
Proof.
  intros V ds cs l t n v u. unfold check_match, store.
  destruct (check_cases (union_of ds) cs) as [l'|] eqn:E; [|discriminate].
  destruct (duplicates [] cs); [discriminate|]. intros [= ->] N.
  destruct (find_index (union_of ds) (resolve t)) as [i|] eqn:F; [|discriminate]. intros [= <-].
  apply (run_should (union_of ds) cs l (resolve t) n i v E); [|exact F].
  apply strip_names. rewrite strip_resolve. apply strip_names, N.
Qed.
Print Assumptions C98_runs.

Example C98_runs_example :
  let ms := union_of [Base 1; Alias 9 (Base 2); Base 3] in
  let cs := [Case None 0; Case (Some (Const (Base 2))) 1; Case (Some (Alias 4 (Base 3))) 2] in
  match check_match ms cs with
  | Some l => map (fun t => match store ms t 7 with Some u => run l u | None => Unhandled end) [Base 1; Base 2; Base 3]
  | None => []
  end = [Ran 0 None; Ran 1 (Some 7); Ran 2 (Some 7)].
Proof. reflexivity. Qed.

(** What should be run is one thing if the cases are apart, and there is always something. *)
Theorem C98_one_outcome : forall V cs n (v : V), apart cs -> forall a b, should cs n v a -> should cs n v b -> a = b.
Proof.
  intros V cs n v A.
  assert (K : forall x y, case_for cs n x -> case_for cs n y -> x = y).
  { intros x y (s & I & S) (t & J & T). apply In_nth_error in I as [i I]. apply In_nth_error in J as [j J].
    destruct (Nat.eq_dec i j) as [->|NE]; [congruence|]. pose proof (A i j _ _ NE I J) as H. cbn in H. destruct (H n S T). }
  assert (D : forall x y, default_is cs x -> default_is cs y -> x = y).
  { intros x y I J. apply In_nth_error in I as [i I]. apply In_nth_error in J as [j J].
    destruct (Nat.eq_dec i j) as [->|NE]; [congruence|]. destruct (A i j _ _ NE I J). }
  intros a b HA HB. inversion HA; inversion HB; subst; try reflexivity;
    try (exfalso; match goal with H : forall b', ~ case_for _ _ b', G : case_for _ _ _ |- _ => exact (H _ G)
         | H : forall b', ~ default_is _ b', G : default_is _ _ |- _ => exact (H _ G) end).
  - f_equal. apply K; assumption.
  - f_equal. apply D; assumption.
Qed.
Print Assumptions C98_one_outcome.

(** An accepted match handles every value that can be put into the union exactly if it has a default or a case for each
    member. *)
Theorem C98_handled_exact : forall ds cs l, check_match (union_of ds) cs = Some l ->
  ((forall t (v : unit) u, store (union_of ds) t v = Some u -> run l u <> Unhandled) <->
   ((exists b, default_is cs b) \/ forall n, has_plain ds n -> exists b, case_for cs n b)).
Proof.
  intros ds cs l C. split.
  - intros H.
    assert (X : (exists b, In (Case None b) cs) \/ forall b, ~ In (Case None b) cs).
    { clear. induction cs as [|[[t|] b] r IH]; cbn.
      - right. tauto.
      - destruct IH as [[b' I]|N]; [left; eauto|]. right. intros b' [[= ]|I]. exact (N b' I).
      - left. eauto. }
    destruct X as [X|ND]; [left; exact X|]. right. intros n P.
    destruct (C98_store_exact unit ds (Base n) n tt (n_base n)) as [S _].
    destruct (store (union_of ds) (Base n) tt) as [u|] eqn:E; [|exfalso; apply (proj2 S P); reflexivity].
    pose proof (C98_runs unit ds cs l (Base n) n tt u C (n_base n) E) as R.
    inversion R as [b K Q|b K D Q|K D Q].
    + eauto.
    + destruct (ND b D).
    + destruct (H (Base n) tt u E). auto.
  - intros H t v u E Q. destruct (names_some t) as [n N].
    pose proof (C98_runs unit ds cs l t n v u C N E) as R. rewrite Q in R. inversion R as [| |K D]; subst.
    destruct H as [[b B]|H]; [exact (D b B)|].
    destruct (H n) as [b B]; [|exact (K b B)].
    apply (proj1 (C98_store_exact unit ds t n v N)). congruence.
Qed.
Print Assumptions C98_handled_exact.

Example C98_handled_example :
  let ms := union_of [Base 1; Base 2] in
  match check_match ms [Case (Some (Base 2)) 5; Case (Some (Base 1)) 6] with
  | Some l => map (fun t => match store ms t tt with Some u => run l u | None => Unhandled end) [Base 1; Base 2]
  | None => []
  end = [Ran 6 (Some tt); Ran 5 (Some tt)].
Proof. reflexivity. Qed.

(** A match accepted by the checks need not be handled at run time: a member may have no case. *)
Theorem C98_handled_refuted :
  ~ (forall ds cs l, check_match (union_of ds) cs = Some l ->
      forall t (v : unit) u, store (union_of ds) t v = Some u -> run l u <> Unhandled).
Proof.
  intros H. apply (H [Base 1; Base 2] [Case (Some (Base 1)) 0] [(Some 0, 0)] eq_refl (Base 2) tt (1, tt) eq_refl). reflexivity.
Qed.
Print Assumptions C98_handled_refuted.

(** Nor is its code always accepted by a C compiler: two cases may be for one type under two names. *)
Theorem C98_code_refuted :
  ~ (forall ds cs l, check_match (union_of ds) cs = Some l -> c_accepts l = true).
Proof.
  intros H. specialize (H [Base 1; Base 2] [Case (Some (Base 1)) 0; Case (Some (Alias 5 (Base 1))) 1] _ eq_refl). discriminate.
Qed.
Print Assumptions C98_code_refuted.

(** A value of a member type cannot always be stored: the member may be const. *)
Theorem C98_store_refuted :
  ~ (forall ds t (v : unit), In t ds -> store (union_of ds) t v <> None).
Proof. intros H. apply (H [Base 1; Const (Base 2)] (Const (Base 2)) tt); [cbn; auto|reflexivity]. Qed.
Print Assumptions C98_store_refuted.
