From stdpp Require Import list numbers.
From Verif Require Import HTableModel KTableModel KTableProofs MacroModel MacroSpec.

Section proofs.
Context (hashs : N → N).
Notation reps := (@reps N (option N) N.eqb hashs).

Lemma in_force_snoc ds x v y : in_force (ds ++ [(x, v)]) y =
  if (x =? y)%N then Some v else in_force ds y.
Proof.
  induction ds as [|[z w] ds IH]; cbn; [done|]. rewrite IH. by destruct (x =? y)%N.
Qed.
Lemma in_force_app ds ds' y : in_force (ds ++ ds') y =
  match in_force ds' y with Some w => Some w | None => in_force ds y end.
Proof.
  induction ds as [|[z w] ds IH]; cbn; [by destruct (in_force ds' y)|]. rewrite IH.
  by destruct (in_force ds' y).
Qed.

Lemma override_ok t ds x v : reps t (in_force ds) →
  ∃ t', override_macro hashs t x v
          = TOk (t', (match in_force ds x with Some _ => false | None => true end, in_force ds x)) ∧
        reps t' (in_force (ds ++ [(x, v)])).
Proof.
  intros R. unfold override_macro.
  pose proof (kt_find_reps N.eqb hashs N.eqb_eq t _ x None R) as F.
  destruct (in_force ds x) as [w|] eqn:E.
  - destruct F as (i & -> & St). cbn [tbind]. eexists. split; [done|].
    eapply reps_ext; [|apply St]. intros y. unfold upd. by rewrite in_force_snoc.
  - rewrite F. cbn [tbind].
    destruct (kt_insert_reps N.eqb hashs N.eqb_eq t _ x v R) as (t' & Ei & R'). rewrite E in Ei, R'.
    rewrite Ei. cbn [tbind fst snd]. eexists. split; [done|].
    eapply reps_ext; [|exact R']. intros y. unfold upd. by rewrite in_force_snoc.
Qed.
Lemma has_ok t ds x : reps t (in_force ds) → has_macro hashs t x = TOk (in_force ds x).
Proof.
  intros R. unfold has_macro. pose proof (kt_find_reps N.eqb hashs N.eqb_eq t _ x None R) as F.
  destruct (in_force ds x) as [w|]; [destruct F as (i & -> & _)|rewrite F]; done.
Qed.
Definition defs (ops : list mop) : list (N * option N) :=
  flat_map (λ o, match o with MDefine x v => [(x, v)] | MHas _ => [] end) ops.
Lemma mrun_ok ops : ∀ t ds, reps t (in_force ds) →
  ∃ t', mrun hashs t ops = TOk (t', answers ds ops) ∧ reps t' (in_force (ds ++ defs ops)).
Proof.
  induction ops as [|[x v|x] ops IH]; intros t ds R; cbn [mrun mstep answers].
  - exists t. cbn. by rewrite app_nil_r.
  - destruct (override_ok t ds x v R) as (t1 & -> & R1). cbn [tbind fst snd].
    destruct (IH t1 _ R1) as (t2 & -> & R2). cbn [tbind fst snd]. exists t2. split; [done|].
    cbn. by rewrite <- app_assoc in R2.
  - rewrite (has_ok t ds x R). cbn [tbind fst snd].
    destruct (IH t ds R) as (t2 & -> & R2). cbn [tbind fst snd]. by exists t2.
Qed.
Lemma new_ok : reps kt_new (in_force []).
Proof. apply kt_new_reps. Qed.
End proofs.
