(** Proofs about StageModel. *)
From Coq Require Import Strings.String.
From stdpp Require Import numbers list.
From Coq Require Import Sorting.Sorted.
From Verif Require Import LexModel LexSpec StageModel StageSpec.
From Coq Require Import Lia ZifyBool ZifyN.
Local Open Scope N_scope.

Definition succeeds (e : env) (l : list N) : bool := forallb (ok e) l.
(** The stages done are those of the trace, if nothing failed. *)
Definition good (e : env) (m : N) : Prop :=
  let p := pipeline (mm e) (main e) (m - 1) in
  let '(t, r) := run_stages e (range 5 m) 0 in
  t = until_failure (ok e) p /\
  match r with
  | None => succeeds e p = false
  | Some done => succeeds e p = true /\ has done 12 = false
  end.

(** The bodies of the whole pipeline, and the mask of those before [k]. *)
Definition full (mm main : bool) : list N :=
  [5; 6; 7; 9; 10] ++ (if mm then [11] else []) ++ [14] ++ (if main then [16] else []).
Definition before (mm main : bool) (k : N) : N :=
  (fold_right (fun s a => if N.ltb s k then N.lor a (2 ^ s) else a) 0 (full mm main)) mod 2 ^ 16.
Definition inb (k : N) (l : list N) : bool := existsb (N.eqb k) l.

Lemma k_cases (P : N -> Prop) : P 5 -> P 6 -> P 7 -> P 8 -> P 9 -> P 10 -> P 11 -> P 12 -> P 13 -> P 14 -> P 15 -> P 16 ->
  forall k, 5 <= k <= 16 -> P k.
Proof.
  intros. assert (k = 5 \/ k = 6 \/ k = 7 \/ k = 8 \/ k = 9 \/ k = 10 \/ k = 11 \/ k = 12 \/ k = 13 \/ k = 14 \/ k = 15 \/ k = 16) as C by lia.
  naive_solver.
Qed.
Lemma step_ok e k : 5 <= k <= 16 ->
  execute e k (before (mm e) (main e) k) =
    if inb k (full (mm e) (main e)) then Outcome true (if ok e k then Some (before (mm e) (main e) (k + 1)) else None)
    else Outcome false (Some (before (mm e) (main e) (k + 1))).
Proof.
  destruct e as [mm main ok]. cbn [StageModel.mm StageModel.main StageModel.ok]. revert k.
  destruct mm, main; apply k_cases; try (lazy; destruct (ok _); reflexivity); lazy; reflexivity.
Qed.
(** What is left of the pipeline from [k]. *)
Definition rest (mm main : bool) (k m : N) : list N :=
  List.filter (fun s => (k <=? s) && (s <? m)) (full mm main).
Local Arguments full : simpl never.
Local Arguments rest : simpl never.
Local Arguments before : simpl never.
Lemma rest_step mm main k m : 5 <= k <= 16 -> k < m ->
  rest mm main k m = (if inb k (full mm main) then [k] else []) ++ rest mm main (k + 1) m.
Proof.
  intros Hk Hm. unfold rest.
  assert (forall l, StronglySorted N.lt l -> List.filter (fun s => (k <=? s) && (s <? m)) l =
    (if inb k l then [k] else []) ++ List.filter (fun s => (k + 1 <=? s) && (s <? m)) l) as S.
  { induction 1 as [|a l S IH F]; [done|]. cbn. destruct (N.eqb_spec k a) as [<- |Ne]; cbn.
    - rewrite (proj2 (N.leb_le k k)), (proj2 (N.ltb_lt k m)), (proj2 (N.leb_gt (k+1) k)) by lia. cbn.
      rewrite IH. assert (inb k l = false) as ->; [|done].
      unfold inb. rewrite <- not_true_iff_false, existsb_exists. intros (x & Hx & ?%N.eqb_eq). subst x.
      rewrite Forall_forall in F. specialize (F k ltac:(by apply elem_of_list_In)). lia.
    - fold (inb k l). rewrite IH. destruct (inb k l) eqn:I; cbn.
      + assert (a < k). { unfold inb in I. apply existsb_exists in I as (x & Hx & ?%N.eqb_eq). subst x.
          rewrite Forall_forall in F. apply F. by apply elem_of_list_In. }
        rewrite (proj2 (N.leb_gt k a)), (proj2 (N.leb_gt (k+1) a)) by lia. done.
      + replace (k + 1 <=? a) with (k <=? a) by lia. done. }
  apply S. destruct mm, main; repeat constructor; lia.
Qed.
Lemma run_from e m n : forall k, 5 <= k -> k + N.of_nat n = m -> m <= 17 ->
  let p := rest (mm e) (main e) k m in
  run_stages e (map (fun i => k + N.of_nat i) (seq 0 n)) (before (mm e) (main e) k) =
    (until_failure (ok e) p, if succeeds e p then Some (before (mm e) (main e) m) else None).
Proof.
  induction n as [|n IH]; intros k Hk Hm HM p.
  - assert (p = []) as ->.
    { subst p. unfold rest. induction (full (mm e) (main e)) as [|a l IH]; [done|]. cbn. rewrite IH.
      destruct (N.leb_spec k a); [|done]. by rewrite (proj2 (N.ltb_ge a m)) by lia. }
    cbn. by replace k with m by lia.
  - subst p. rewrite rest_step by lia. cbn [seq map run_stages]. rewrite N.add_0_r, step_ok by lia.
    specialize (IH (k + 1) ltac:(lia) ltac:(lia) HM). cbv zeta in IH.
    rewrite <- seq_shift, map_map.
    erewrite (map_ext (fun x => k + N.of_nat (S x)) (fun i => k + 1 + N.of_nat i)) by (intros; lia).
    destruct (inb k (full (mm e) (main e))); cbn.
    + destruct (ok e k); cbn; [|done]. rewrite IH. done.
    + rewrite IH. done.
Qed.
Lemma pipeline_rest mm main m : 5 <= m -> pipeline mm main (m - 1) = rest mm main 5 m.
Proof.
  intros Hm. unfold pipeline, rest. fold (full mm main).
  assert (Forall (fun s => 5 <= s) (full mm main)) as F by (destruct mm, main; repeat constructor; done).
  change (_ ++ _) with (full mm main). revert F. induction (full mm main) as [|a l IH]; [done|].
  intros [A B]%Forall_cons. specialize (IH B). rewrite filter_cons. cbn.
  rewrite (proj2 (N.leb_le 5 a)) by lia. cbn. rewrite IH.
  destruct (decide (a <= m - 1)), (N.ltb_spec a m); done || lia.
Qed.
Lemma run_ok e m : 5 <= m <= 17 -> good e m.
Proof.
  intros H. unfold good. rewrite pipeline_rest by lia. unfold range.
  pose proof (run_from e m (N.to_nat (m - 5)) 5 ltac:(lia) ltac:(lia) ltac:(lia)) as R. cbv zeta in R.
  replace (before (mm e) (main e) 5) with 0 in R by (by destruct (mm e), (main e)).
  rewrite R. split; [done|]. destruct (succeeds _ _) eqn:S; [|done]. split; [done|].
  assert (5 <= m - 1 <= 16 \/ m = 5) as [HH | ->] by lia; [|by destruct (mm e), (main e)].
  replace m with (m - 1 + 1) by lia. generalize dependent (m - 1). intros k HH.
  destruct (mm e), (main e); revert k HH; apply k_cases; reflexivity.
Qed.

Lemma asked_ok o : 4 <= lastStage o <= 16 -> 4 <= asked o <= 16.
Proof.
  intros H. unfold asked, ccsCompile, ccsCodegen, ccsLower, ccsTypeCheck.
  destruct (emitBitCode o), (emitAssembly o), (printIR o), (dump o), (dev o), (mainFile o), (builtins o); cbn; lia.
Qed.
Lemma execute_ir e done : has done 12 = false -> execute e ccs_DumpIR done = Outcome false None.
Proof.
  intros H. unfold execute. change (ccs_DumpIR =? ccs_Dump) with false. change (ccs_DumpIR =? ccs_DumpIR) with true.
  cbv beta iota. assert (has (set done ccs_DumpIR) ccsLower = false) as ->; [|done].
  unfold has, set, ccsLower in *. rewrite N.mod_pow2_bits_low by lia. rewrite N.lor_spec, H. done.
Qed.
Lemma execute_dump e done : ran (execute e ccs_Dump done) = true /\
  (match result (execute e ccs_Dump done) with Some _ => true | None => false end) = ok e ccs_Dump.
Proof. unfold execute. change (ccs_Dump =? ccs_Dump) with true. cbv beta iota. destruct (ok e ccs_Dump); done. Qed.

Definition dumps (o : options) : bool := dev o && negb (builtins o || imported o) &&
  negb (emitBitCode o || emitAssembly o) && (dump o || printIR o).

Lemma compile_ok e o : 4 <= lastStage o <= 16 ->
  let p := pipeline (mm e) (main e) (asked o) in
  compileProgram e o =
    if succeeds e p then
      if dumps o then if printIR o then (p, false) else (p ++ [ccs_Dump], ok e ccs_Dump) else (p, true)
    else (until_failure (ok e) p, false).
Proof.
  intros HL p. pose proof (asked_ok o HL) as HA.
  pose proof (run_ok e (asked o + 1) ltac:(lia)) as R. unfold good in R.
  replace (asked o + 1 - 1) with (asked o) in R by lia. fold p in R.
  assert (forall l, succeeds e l = true -> until_failure (ok e) l = l) as U.
  { induction l as [|a l IH]; cbn; [done|]. intros [A B]%andb_true_iff. rewrite A. by rewrite IH. }
  unfold compileProgram. destruct (fixCmdDevOptions o) as [[ir dmp] last] eqn:F.
  set (mx := if builtins o then _ else _).
  assert (mx = asked o + 1 /\ (ir = true -> dmp = false) /\ dumps o = dev o && negb (builtins o || imported o) && (dmp || ir) /\
          (dumps o = true -> ir = printIR o)) as (E & _ & D & DI).
  { subst mx. unfold asked, dumps. clear R U. revert F. unfold fixCmdDevOptions, ccsCompile, ccsCodegen, ccsLower, ccsTypeCheck, ccsCOUNT.
    destruct (emitBitCode o), (emitAssembly o), (printIR o), (dump o), (dev o), (mainFile o), (builtins o), (imported o); cbn;
      intros F; injection F as <- <- <-; (split; [lia|done]). }
  rewrite E. change (ccsParse + 1) with 5. destruct (run_stages e (range 5 (asked o + 1)) 0) as [t [done|]].
  - destruct R as (-> & S & L). rewrite S, (U _ S). rewrite D. rewrite D in DI. clear D.
    destruct (builtins o || imported o); cbn; [by rewrite andb_false_r|]. rewrite andb_true_r in *. cbn in DI.
    destruct (dev o && (dmp || ir)); [|done]. rewrite DI by done.
    destruct (printIR o).
    + rewrite execute_ir by done. cbn. by rewrite app_nil_r.
    + destruct (execute_dump e done) as [-> ->]. done.
  - destruct R as (-> & S). by rewrite S.
Qed.

Lemma until_prefix ok l : exists k, l = until_failure ok l ++ k.
Proof. induction l as [|a l [k IH]]; cbn; [by exists []|]. destruct (ok a); [|by exists l]. exists k. by rewrite IH at 1. Qed.
Lemma until_ok ok l i s : until_failure ok l !! i = Some s -> forall j r, (j < i)%nat -> until_failure ok l !! j = Some r -> ok r = true.
Proof.
  revert i. induction l as [|a l IH]; intros i; [done|]. cbn.
  destruct (ok a) eqn:E; (destruct i as [|i]; cbn; [lia|]); [|done]. intros H [|j] r Hj; cbn; [by intros [= <-]|]. eapply IH; [done|lia].
Qed.

(** *** Names *)
Lemma index_of_spec x l : forall i s, index_of x l i = Some s <->
  exists j, l !! j = Some x /\ s = i + N.of_nat j /\ forall k, (k < j)%nat -> l !! k <> Some x.
Proof.
  induction l as [|y l IH]; intros i s; cbn.
  - split; [done|]. intros (j & H & _). by rewrite lookup_nil in H.
  - destruct (bool_decide_reflect (x = y)) as [<- |Ne].
    + split.
      * intros [= <-]. exists 0%nat. split; [done|]. split; [lia|]. lia.
      * intros (j & _ & -> & F). destruct j; [f_equal; lia|]. by destruct (F 0%nat ltac:(lia)).
    + rewrite IH. split.
      * intros (j & A & -> & F). exists (S j). split; [done|]. split; [lia|]. intros [|k] Hk; [cbn; congruence|]. apply F. lia.
      * intros (j & A & -> & F). destruct j as [|j]; [cbn in A; congruence|]. exists j. split; [done|]. split; [lia|].
        intros k Hk. apply (F (S k)). lia.
Qed.
(** The stages of the compiler's own. *)
Definition internal (x : list N) (s : N) : Prop :=
  (x = codes "_Dump" /\ s = 1) \/ (x = codes "_DumpIR" /\ s = 2) \/ (x = codes "_First" /\ s = 3).
Lemma index_all x s : index_of x stage_names 1 = Some s <-> is_stage x s \/ internal x s.
Proof.
  split.
  - unfold stage_names. cbn [map index_of].
    repeat (match goal with |- context [bool_decide (x = ?n)] => destruct (bool_decide_reflect (x = n)) as [-> |_] end;
      [intros [= <-]; first [left; constructor | right; unfold internal; tauto]|]).
    done.
  - intros [[]|[[-> ->]|[[-> ->]|[-> ->]]]]; reflexivity.
Qed.
Lemma index_public x s : cmdParseLastStage x = Some s <-> is_stage x s.
Proof.
  split.
  - unfold cmdParseLastStage, stage_names. cbn [map drop index_of].
    repeat (match goal with |- context [bool_decide (x = ?n)] => destruct (bool_decide_reflect (x = n)) as [-> |_] end;
      [intros [= <-]; constructor|]).
    done.
  - intros []; reflexivity.
Qed.
Lemma stage_pos x s : is_stage x s \/ internal x s -> s <> 0 /\ head x <> Some 48 /\ (forall c, head x = Some c -> isspace c = false).
Proof. intros [[]|[[-> ->]|[[-> ->]|[-> ->]]]]; (split; [done|]); (split; [done|]); intros c [= <-]; done. Qed.
Lemma skip_spaces_app b x : Forall (fun c => isspace c = true) b -> (forall c, head x = Some c -> isspace c = false) ->
  skip_spaces (b ++ x) = x.
Proof.
  intros F H. induction F as [|c b E F IH]; cbn.
  - destruct x as [|c x]; [done|]. cbn. by rewrite (H c).
  - by rewrite E.
Qed.
Lemma skip_spaces_split s : exists b, Forall (fun c => isspace c = true) b /\ s = b ++ skip_spaces s.
Proof.
  induction s as [|c s (b & F & IH)]; cbn; [by exists []|]. destruct (isspace c) eqn:E; [|by exists []].
  exists (c :: b). split; [by constructor|]. cbn. by rewrite <- IH.
Qed.
Lemma parse_stages s m : (124 ∈ s) \/
  (parseCompilerStages s = Some m /\ m <> 0 <->
   124 ∉ s /\ exists b x n, Forall (fun c => isspace c = true) b /\ s = b ++ x /\ m = 2 ^ n /\
     (is_stage x n \/ internal x n /\ b <> [])).
Proof.
  unfold parseCompilerStages, parseNextCompilerStage. destruct (bool_decide_reflect (124 ∈ s)) as [|NI]; [by left|]. right.
  destruct (skip_spaces_split s) as (b & F & E). split.
  - destruct (bool_decide_reflect (head s = Some 95)) as [|N95]; [by intros [[= <-] ?]|].
    destruct (bool_decide_reflect (head (skip_spaces s) = Some 48)) as [|N48]; [by intros [[= <-] ?]|].
    destruct (index_of _ _ _) as [n|] eqn:I; cbn; [|by intros [[= <-] ?]].
    apply index_all in I. destruct (stage_pos _ _ I) as (Hn & _ & _).
    destruct (N.eqb_spec n ccsInvalid); [done|]. intros [[= <-] _]. split; [done|].
    exists b, (skip_spaces s), n. split; [done|]. split; [done|]. split; [done|].
    destruct I as [I|I]; [by left|]. right. split; [done|]. intros ->. cbn in E.
    rewrite E in N95. destruct I as [[I _]|[[I _]|[I _]]]; by rewrite I in N95.
  - intros (_ & b' & x & n & F' & -> & -> & I).
    assert (is_stage x n \/ internal x n) as I' by tauto. destruct (stage_pos _ _ I') as (Hn & H48 & Hs).
    rewrite (skip_spaces_app b' x) by done.
    assert (head (b' ++ x) <> Some 95) as N95.
    { destruct b' as [|c b']; cbn.
      - destruct I as [I|[_ ?]]; [|done]. by destruct I.
      - apply Forall_cons in F' as [F' _]. intros [= ->]. done. }
    rewrite bool_decide_eq_false_2 by done. rewrite bool_decide_eq_false_2 by done.
    apply index_all in I'. rewrite I'. cbn. destruct (N.eqb_spec n ccsInvalid); [done|]. split; [done|]. by apply N.pow_nonzero.
Qed.
