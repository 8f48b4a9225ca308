(** C57: the stages of the compiler run in the order of their dependencies. *)
From Coq Require Import Strings.String.
From stdpp Require Import numbers list.
From Verif Require Import LexModel LexSpec StageModel StageSpec StageProofs.
From Coq Require Import Lia.
Local Open Scope N_scope.

(** For every last stage, every dump option and every success or failure of the stages: the
    bodies that run are those of the pipeline up to the stage asked for, up to the first that
    fails, with a dump of the AST behind it at most; the run succeeds if no body fails and no
    dump of the IR was asked for. *)
Theorem C57_runs e o x s : is_stage x (lastStage o) ->
  compileProgram e o = s ->
  let p := pipeline (mm e) (main e) (asked o) in
  exists d, fst s = until_failure (ok e) p ++ d /\ (d = [] \/ d = [ccs_Dump] /\ forallb (ok e) p = true) /\
    (snd s = true -> forallb (ok e) p = true) /\
    (printIR o = false -> dump o = false -> (snd s = true <-> forallb (ok e) p = true)).
Proof.
  intros I E p. rewrite (compile_ok e o) in E by (destruct I; done). fold p in E. unfold succeeds in E.
  assert (forallb (ok e) p = true -> until_failure (ok e) p = p) as U.
  { clear E. induction p as [|a l IH]; cbn; [done|]. intros [A B]%andb_true_iff. rewrite A. by rewrite IH. }
  destruct (forallb (ok e) p) eqn:S.
  - rewrite (U eq_refl). destruct (dumps o) eqn:D; [destruct (printIR o) eqn:P|]; subst s; cbn.
    + exists []. rewrite app_nil_r. naive_solver.
    + exists [ccs_Dump]. split; [done|]. split; [by right|]. split; [done|]. intros _ Hd. unfold dumps in D. rewrite P, Hd in D.
      by rewrite andb_false_r in D.
    + exists []. rewrite app_nil_r. naive_solver.
  - subst s. exists []. rewrite app_nil_r. naive_solver.
Qed.
Print Assumptions C57_runs.

(** So nothing runs before what it depends on has run, and succeeded. *)
Theorem C57_order e o x i s : is_stage x (lastStage o) ->
  fst (compileProgram e o) !! i = Some s ->
  forall r, r ∈ requires (mm e) s -> exists j, (j < i)%nat /\ fst (compileProgram e o) !! j = Some r /\ ok e r = true.
Proof.
  intros I. destruct (C57_runs e o x _ I eq_refl) as (d & E & D & _). rewrite E. clear E.
  set (p := pipeline (mm e) (main e) (asked o)) in *.
  intros H r Hr. destruct (decide (i < length (until_failure (ok e) p))%nat) as [L|L].
  2:{ rewrite lookup_app_r in H by lia. destruct D as [-> |[-> _]]; [by rewrite lookup_nil in H|].
      apply elem_of_list_lookup_2, elem_of_list_singleton in H. subst s. by apply elem_of_nil in Hr. }
  rewrite lookup_app_l in H by done.
  enough (exists j, (j < i)%nat /\ until_failure (ok e) p !! j = Some r) as (j & A & B).
  { exists j. split; [done|]. split; [|by apply (until_ok _ _ i s H j r)]. rewrite lookup_app_l; [done|]. by apply lookup_lt_Some in B. }
  destruct (until_prefix (ok e) p) as [k K].
  assert (p !! i = Some s) as Hp by (rewrite K, lookup_app_l; done).
  enough (exists j, (j < i)%nat /\ p !! j = Some r) as (j & A & B).
  { exists j. split; [done|]. rewrite K, lookup_app_l in B; [done|lia]. }
  clear -Hp Hr I. assert (4 <= asked o <= 16) as HA by (apply asked_ok; destruct I; done).
  assert (asked o = 4 \/ 5 <= asked o <= 16) as [E|HA'] by lia.
  { subst p. rewrite E in Hp. destruct (mm e), (main e); by vm_compute in Hp. }
  subst p. clear HA I. revert Hr Hp. generalize dependent (asked o). intros k Hk. revert k Hk i.
  generalize (mm e), (main e). intros a b.
  apply (k_cases (fun k => forall i, r ∈ requires a s -> pipeline a b k !! i = Some s ->
    exists j, (j < i)%nat /\ pipeline a b k !! j = Some r)); destruct a, b; intros i Hr Hp;
    repeat (destruct i as [|i]; [vm_compute in Hp; injection Hp as <-; vm_compute in Hr;
      repeat (apply elem_of_cons in Hr as [->|Hr];
        [first [exists 0%nat; split; [lia|reflexivity] | exists 1%nat; split; [lia|reflexivity] | exists 2%nat; split; [lia|reflexivity]
               | exists 3%nat; split; [lia|reflexivity] | exists 4%nat; split; [lia|reflexivity] | exists 5%nat; split; [lia|reflexivity]
               | exists 6%nat; split; [lia|reflexivity]]|]); by apply elem_of_nil in Hr | try by vm_compute in Hp]).
Qed.
Print Assumptions C57_order.

(** Each stage guards itself, whatever order it is called in: it does not begin and gives an
    error when the stage it needs is not marked, and one that succeeds marks itself and keeps
    the marks of the others. *)
Theorem C57_guard e s done n : needs s = Some n -> has done n = false -> mm e = true \/ s <> ccsMemoryMgmt ->
  execute e s done = Outcome false None.
Proof.
  unfold needs. intros N H M. revert N. unfold execute, body.
  destruct (s =? ccs_Dump) eqn:E1; [apply N.eqb_eq in E1 as ->; by vm_compute|].
  destruct (s =? ccs_DumpIR) eqn:E2; [apply N.eqb_eq in E2 as ->; by vm_compute|].
  destruct (s =? ccsPreprocess) eqn:E3; [apply N.eqb_eq in E3 as ->; by vm_compute|].
  destruct (s =? ccsShake). { intros [= <-]. by rewrite H. }
  destruct (s =? ccsBind). { intros [= <-]. by rewrite H. }
  destruct (s =? ccsTypeCheck). { intros [= <-]. by rewrite H. }
  destruct (s =? ccsSimplify). { intros [= <-]. by rewrite H. }
  destruct (s =? ccsMemoryMgmt) eqn:E4. { intros [= <-]. apply N.eqb_eq in E4. destruct M as [-> |M]; [by rewrite H|done]. }
  destruct (s =? ccsCodegen). { intros [= <-]. by rewrite H. }
  destruct (s =? ccsCompile). { intros [= <-]. by rewrite H. }
  done.
Qed.
Print Assumptions C57_guard.
Theorem C57_marks e s done d : execute e s done = Outcome true (Some d) -> s < 16 -> done < 2 ^ 16 ->
  ok e s = true /\ forall i, has d i = (has done i || (i =? s)).
Proof.
  intros E S D.
  assert (ok e s = true /\ d = set done s) as [O ->].
  { revert E. unfold execute, body. repeat case_match; intros; simplify_eq; done. }
  split; [done|]. intros i. unfold has, set.
  destruct (decide (i < 16)) as [L|L].
  - rewrite N.mod_pow2_bits_low by done. rewrite N.lor_spec. f_equal. rewrite N.pow2_bits_eqb. apply N.eqb_sym.
  - rewrite N.mod_pow2_bits_high by lia. symmetry. apply orb_false_iff. split; [|apply N.eqb_neq; lia].
    rewrite N.bits_above_log2; [done|]. destruct (decide (done = 0)) as [->|Z]; [cbn; lia|].
    assert (N.log2 done < 16) by (apply N.log2_lt_pow2; lia). lia.
Qed.
Print Assumptions C57_marks.

(** The name of a stage selects that stage and nothing else does. *)
Theorem C57_last_stage x s : cmdParseLastStage x = Some s <-> is_stage x s.
Proof. apply index_public. Qed.
Print Assumptions C57_last_stage.
(** A text without bars gives the bit of the stage it names (blanks in front allowed). *)
Theorem C57_stage_list_partial s m : 124 ∉ s ->
  (parseCompilerStages s = Some m /\ m <> 0 <->
   exists b x n, Forall (fun c => isspace c = true) b /\ s = b ++ x /\ m = 2 ^ n /\ (is_stage x n \/ internal x n /\ b <> [])).
Proof. intros H. destruct (parse_stages s m); [done|]. tauto. Qed.
Print Assumptions C57_stage_list_partial.

(** False: a list of stages is undefined behaviour, the internal stages that are to be
    refused can be selected with a blank in front, *)
Theorem C57_bar_refuted : parseCompilerStages (codes "Bind|Shake") = None /\
  parseCompilerStages (codes "_Dump") = Some 0 /\ parseCompilerStages (codes " _Dump") = Some 2.
Proof. by vm_compute. Qed.
Print Assumptions C57_bar_refuted.
(** and printing the IR never works: the stage it waits for does not exist. *)
Theorem C57_print_ir_refuted e o x : is_stage x (lastStage o) ->
  dev o = true -> mainFile o = true -> builtins o = false -> imported o = false -> emitBitCode o = false -> emitAssembly o = false ->
  printIR o = true -> snd (compileProgram e o) = false /\ ccs_DumpIR ∉ fst (compileProgram e o).
Proof.
  intros I A B C D E F G. rewrite (compile_ok e o) by (destruct I; done). cbv zeta.
  assert (dumps o = true) as -> by (unfold dumps; by rewrite A, C, D, E, F, G, orb_true_r).
  assert (2 ∉ pipeline (mm e) (main e) (asked o)) as H.
  { unfold pipeline. rewrite elem_of_list_filter. intros [_ H]. destruct (mm e), (main e); cbn in H; rewrite !elem_of_cons, elem_of_nil in H; naive_solver. }
  rewrite G. destruct (succeeds _ _); [done|]. split; [done|]. intros H'.
  destruct (until_prefix (ok e) (pipeline (mm e) (main e) (asked o))) as [k K]. apply H. rewrite K. apply elem_of_app. by left.
Qed.
Print Assumptions C57_print_ir_refuted.

Definition plain (last : N) : options := Options true true false false false false false true last.
Example C57_ex1 : compileProgram (Env true true (fun _ => true)) (plain ccsCompile) = ([5; 6; 7; 9; 10; 11; 1], true).
Proof. by vm_compute. Qed.
Example C57_ex2 : compileProgram (Env true true (fun s => negb (s =? 7))) (plain ccsCompile) = ([5; 6; 7], false).
Proof. by vm_compute. Qed.
Example C57_ex3 : compileProgram (Env false true (fun _ => true)) (Options false true false false false false false false ccsCompile) =
  ([5; 6; 7; 9; 10; 14; 16], true).
Proof. by vm_compute. Qed.
Example C57_ex4 : cmdParseLastStage (codes "TypeCheck") = Some 9 /\ cmdParseLastStage (codes "Typecheck") = None /\ cmdParseLastStage (codes "_Dump") = None.
Proof. by vm_compute. Qed.
Example C57_ex5 : execute (Env true true (fun _ => true)) ccsCodegen 0 = Outcome false None /\
  execute (Env true true (fun _ => true)) ccsCodegen 1024 = Outcome true (Some 17408).
Proof. by vm_compute. Qed.
