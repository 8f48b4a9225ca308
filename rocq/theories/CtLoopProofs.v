From Coq Require Import ZArith Lia ZifyBool.
From stdpp Require Import numbers list.
From Verif Require Import PrimModel PrimSpec PrimProofs CtLoopModel CtLoopSpec.
Local Open Scope Z_scope.

Definition lit_ok (o : init) : Prop :=
  match o with
  | IntInit neg raw => 0 <= raw < 2 ^ 64 /\ (neg = false /\ raw < 2 ^ 63 \/ neg = true /\ raw <= 2 ^ 63)
  | _ => True
  end.
(** Numbering from a given next value *)
Definition numbered_from (next : Z) (opts : list init) (vs : list Z) : Prop :=
  length vs = length opts /\
  forall i o, opts !! i = Some o ->
    vs !! i = match literal o, i with Some v, _ => Some v | None, O => Some next | None, S j => Z.add 1 <$> vs !! j end.
Lemma number_ok opts : forall next vs, Forall lit_ok opts -> number next opts = Done vs -> numbered_from next opts vs.
Proof.
  induction opts as [|o opts IH]; intros next vs F H.
  { cbn in H. injection H as <-. split; [done|]. intros i o. by rewrite lookup_nil. }
  apply Forall_cons_1 in F as [Fo F]. cbn in H. destruct o as [|neg raw|]; [| |done].
  - destruct (succ_i64 next) as [n'|] eqn:S; [|done]. destruct (number n' opts) as [vs'| |] eqn:N; try done. injection H as <-.
    destruct (IH _ _ F N) as [L I]. split; [cbn; by rewrite L|]. intros [|i] o Ho; cbn in Ho.
    + by injection Ho as <-.
    + etransitivity; [exact (I i o Ho)|]. destruct (literal o); [done|]. destruct i; [|done]. cbn. unfold succ_i64 in S. destruct (_ <? _); [|done]. injection S as <-. f_equal. lia.
  - set (v := literal_value neg raw) in *. destruct (succ_i64 v) as [n'|] eqn:S; [|done]. destruct (number n' opts) as [vs'| |] eqn:N; try done. injection H as <-.
    destruct (IH _ _ F N) as [L I]. split; [cbn; by rewrite L|]. intros [|i] o Ho; cbn in Ho.
    + injection Ho as <-. cbn. f_equal. apply literal_value_exact; apply Fo.
    + etransitivity; [exact (I i o Ho)|]. destruct (literal o); [done|]. destruct i; [|done]. cbn. unfold succ_i64 in S. destruct (_ <? _); [|done]. injection S as <-. f_equal. lia.
Qed.
Lemma number_total opts : forall next, Forall lit_ok opts -> OtherInit ∉ opts ->
  (forall vs, numbered_from next opts vs -> Forall (fun v => v < 2 ^ 63 - 1) vs) -> exists vs, number next opts = Done vs.
Proof.
  induction opts as [|o opts IH]; intros next F O B; [by eexists|].
  apply Forall_cons_1 in F as [Fo F]. apply not_elem_of_cons in O as [Oo O].
  assert (Step : forall v, (match literal o with Some x => v = x | None => v = next end) ->
            (forall vs, numbered_from (v + 1) opts vs -> numbered_from next (o :: opts) (v :: vs))).
  { intros v Hv vs [L I]. split; [cbn; by rewrite L|]. intros [|i] o' Ho; cbn in Ho.
    - injection Ho as <-. cbn. destruct (literal o); by subst.
    - etransitivity; [exact (I i o' Ho)|]. destruct (literal o'); [done|]. destruct i; [|done]. cbn. f_equal. lia. }
  assert (Fill : forall n (l : list init), exists vs, numbered_from n l vs).
  { intros n l. revert n. induction l as [|x l IHl]; intros n. { exists []. split; [done|]. intros i ?. by rewrite lookup_nil. }
    set (v := match literal x with Some y => y | None => n end). destruct (IHl (v + 1)) as [vs [L I]]. exists (v :: vs). split; [cbn; by rewrite L|].
    intros [|i] o' Ho; cbn in Ho.
    - injection Ho as <-. cbn. unfold v. by destruct (literal x).
    - etransitivity; [exact (I i o' Ho)|]. destruct (literal o'); [done|]. destruct i; [|done]. cbn. f_equal. lia. }
  assert (Val : exists v, (match literal o with Some x => v = x | None => v = next end) /\ number next (o :: opts) =
            match succ_i64 v with None => Overflow | Some n' => match number n' opts with Done vs => Done (v :: vs) | r => r end end).
  { destruct o as [|neg raw|]; [by exists next| |done]. exists (literal_value neg raw). split; [|done]. cbn. apply literal_value_exact; apply Fo. }
  destruct Val as (v & Hv & ->).
  assert (v < 2 ^ 63 - 1). { destruct (Fill (v + 1) opts) as [vs Hvs]. specialize (B _ (Step v Hv vs Hvs)). by apply Forall_cons_1 in B as [B _]. }
  unfold succ_i64. destruct (_ <? _) eqn:E; [|lia].
  destruct (IH (v + 1) F O) as [vs ->]; [|by eexists].
  intros vs Hvs. specialize (B _ (Step v Hv vs Hvs)). by apply Forall_cons_1 in B as [_ B].
Qed.
Lemma number_other opts : forall next, OtherInit ∈ opts -> forall vs, number next opts <> Done vs.
Proof.
  induction opts as [|o opts IH]; intros next O vs; [by apply elem_of_nil in O|]. cbn. destruct o as [|neg raw|]; [| |done].
  - apply elem_of_cons in O as [?|O]; [done|]. destruct (succ_i64 next) as [n'|]; [|done]. specialize (IH n' O). destruct (number n' opts) as [l| |]; try done. by specialize (IH l).
  - apply elem_of_cons in O as [?|O]; [done|]. destruct (succ_i64 _) as [n'|]; [|done]. specialize (IH n' O). destruct (number n' opts) as [l| |]; try done. by specialize (IH l).
Qed.
Lemma number_bound opts : forall next vs, number next opts = Done vs -> Forall (fun v => v < 2 ^ 63 - 1) vs.
Proof.
  induction opts as [|o opts IH]; intros next vs H; cbn in H. { injection H as <-. constructor. }
  destruct o as [|neg raw|]; [| |done].
  - unfold succ_i64 in H. destruct (next <? 2 ^ 63 - 1) eqn:S; [|done]. destruct (number _ opts) as [l| |] eqn:N; try done. injection H as <-. constructor; [lia|by eapply IH].
  - unfold succ_i64 in H. destruct (literal_value neg raw <? 2 ^ 63 - 1) eqn:S; [|done]. destruct (number _ opts) as [l| |] eqn:N; try done. injection H as <-. constructor; [lia|by eapply IH].
Qed.

Lemma loop_ok n : forall i count s, 0 < s -> - 2 ^ 63 <= i -> count <= 2 ^ 63 - s -> count - i <= Z.of_nat n ->
  exists l, loop (S n) i count s = Some (Done l) /\ progression i count s l.
Proof.
  induction n as [|n IH]; intros i count s Hs Hi Hc Hn.
  - exists []. cbn. destruct (i <? count) eqn:E; [lia|]. split; [done|]. intros k. rewrite lookup_nil. destruct (decide _) as [D|D]; [|done]. exfalso. assert (0 <= Z.of_nat k * s) by (apply Z.mul_nonneg_nonneg; lia). lia.
  - remember (S n) as m eqn:Em. cbn [loop]. destruct (i <? count) eqn:E.
    + replace ((- 2 ^ 63 <=? i + s) && (i + s <? 2 ^ 63)) with true by lia. subst m.
      destruct (IH (i + s) count s) as (l & -> & P); [lia|lia|lia|lia|]. exists (i :: l). split; [done|]. intros [|k].
      * cbn. destruct (decide _) as [D|D]; [f_equal; lia|exfalso; lia].
      * etransitivity; [exact (P k)|]. replace (i + s + Z.of_nat k * s) with (i + Z.of_nat (S k) * s) by lia. done.
    + exists []. split; [done|]. intros k. rewrite lookup_nil. destruct (decide _) as [D|D]; [|done]. exfalso. assert (0 <= Z.of_nat k * s) by (apply Z.mul_nonneg_nonneg; lia). lia.
Qed.
Lemma loop_zero n i count : i < count -> - 2 ^ 63 <= i < 2 ^ 63 -> loop n i count 0 = None.
Proof.
  intros H R. induction n as [|n IH]; [done|]. cbn. replace (i <? count) with true by lia. rewrite Z.add_0_r. replace ((- 2 ^ 63 <=? i) && (i <? 2 ^ 63)) with true by lia. by rewrite IH.
Qed.
Lemma loop_down n : forall i count s l, s <= 0 -> i < count -> loop n i count s <> Some (Done l).
Proof.
  induction n as [|n IH]; intros i count s l Hs H; [done|]. cbn. replace (i <? count) with true by lia. destruct (_ && _); [|done].
  specialize (IH (i + s) count s). destruct (loop n (i + s) count s) as [[l'| |]|] eqn:E; try done. exfalso. apply (IH l'); [lia|lia|done].
Qed.
