(** C22: timers fire when due, once per round, and not after their deletion. *)
From Coq Require Import ZArith NArith Lia ZifyBool ZifyNat.
From stdpp Require Import numbers gmap list.
From Verif Require Import TimerModel TimerSpec TimerProofs.
Local Open Scope Z_scope.

Section c22.
Context (clock : nat -> Z * Z) (cb : nat -> Z -> list act * Z) (n : nat) (junk : nat -> tnode).
Context (junk_ok : forall i, (i < n)%nat -> t_when (junk i) = (0, 0)).
(** As long as no file event has a timeout, and the events array starts out with zero
    timer fields, a loop behaves as the table of armed timers, whatever the clock says
    and whatever the callbacks do; no dangling node is touched. *)
Theorem C22_refine_partial t os : Forall (timers_only n) os ->
  exists s, trun clock cb (tinit n junk t) os = TOk (s, snd (s_run clock cb (s_init t) os)).
Proof.
  intros H. assert (I : Inv n junk (tinit n junk t) (s_init t) []) by (by apply init_ok).
  destruct (run_ok clock cb n junk junk_ok os _ _ [] H I) as (s & l & E & _). by exists s.
Qed.
(** Every callback invocation is for a timer that was created and not deleted since (nor
    returned "no more"), with its deadline reached; and a timer looked at but not called
    is not yet due. *)
Theorem C22_fire_when_due_partial t os s evs : Forall (timers_only n) os ->
  trun clock cb (tinit n junk t) os = TOk (s, evs) -> looks_ok (fun _ => None) (concat evs).
Proof.
  intros H E. destruct (C22_refine_partial t os H) as (s' & E'). rewrite E in E'. injection E' as -> ->.
  destruct (tells_run clock cb os (s_init t)) as [L _]. exact L.
Qed.
(** A round looks at each armed timer exactly once, unless a callback deletes it during
    the round before its turn, and at no other timer. *)
Theorem C22_round_exact_partial t os t' s evs es : Forall (timers_only n) os ->
  trun clock cb (tinit n junk t) (os ++ [OProcess t']) = TOk (s, evs ++ [es]) -> forall id,
  match after_all id None (concat evs) with
  | Some _ => looks id es = 1%nat \/ looks id es = 0%nat /\ EDelete id ∈ es
  | None => looks id es = 0%nat
  end.
Proof.
  intros H E id.
  destruct (C22_refine_partial t (os ++ [OProcess t'])) as (s' & E').
  { apply Forall_app. split; [done|]. by constructor. }
  rewrite E in E'. injection E' as -> E'.
  assert (R : forall os s, s_run clock cb s (os ++ [OProcess t']) =
     (fst (s_process clock cb (fst (s_run clock cb s os)) t'), snd (s_run clock cb s os) ++ [snd (s_process clock cb (fst (s_run clock cb s os)) t')])).
  { clear. induction os as [|o os IH]; intros s; cbn [app s_run s_step].
    - cbn [fst snd app]. by destruct (s_process clock cb s t').
    - destruct (s_step clock cb s o) as [s1 e]. rewrite IH. by destruct (s_run clock cb s1 os). }
  rewrite R in E'. cbn [snd] in E'. apply app_inj_tail in E' as [-> ->].
  destruct (tells_run clock cb os (s_init t)) as [_ A]. rewrite (A id : after_all id None _ = _).
  apply process_once. destruct (fresh_run clock cb os (s_init t)) as (_ & _ & F). apply F. split; constructor.
Qed.
(** The ids handed out are 0, 1, 2, ... *)
Theorem C22_ids_partial t os s evs : Forall (timers_only n) os ->
  trun clock cb (tinit n junk t) os = TOk (s, evs) -> exists k, created (concat evs) = seqZ 0 k.
Proof.
  intros H E. destruct (C22_refine_partial t os H) as (s' & E'). rewrite E in E'. injection E' as -> ->.
  destruct (fresh_run clock cb os (s_init t)) as (_ & C & _). rewrite C. by eexists.
Qed.
End c22.

(** The search for the nearest deadline finds the smallest one. *)
Theorem C22_nearest l : match nearest None l with
  | None => l = []
  | Some b => b ∈ l /\ forall w, w ∈ l -> fst b < fst w \/ fst b = fst w /\ snd b <= snd w
  end.
Proof.
  assert (G : forall l best, exists b, nearest (Some best) l = Some b /\ (b = best \/ b ∈ l) /\
     forall w, w = best \/ w ∈ l -> fst b < fst w \/ fst b = fst w /\ snd b <= snd w).
  { clear l. induction l as [|w l IH]; intros best; cbn [nearest].
    - exists best. split; [done|]. split; [by left|]. intros w [-> |H]; [right; lia|by apply elem_of_nil in H].
    - destruct (earlier w best) eqn:E; unfold earlier in E.
      + destruct (IH w) as (b & -> & B & M). exists b. split; [done|]. split.
        * right. destruct B as [-> |B]; [left|by right].
        * intros v [-> |H]; [|apply elem_of_cons in H as [-> |H]; apply M; [by left|by right]].
          assert (X := M w ltac:(by left)). lia.
      + destruct (IH best) as (b & -> & B & M). exists b. split; [done|]. split.
        * destruct B as [-> |B]; [by left|]. right. by right.
        * intros v [-> |H]; [apply M; by left|]. apply elem_of_cons in H as [-> |H]; [|apply M; by right].
          assert (X := M best ltac:(by left)). lia. }
  destruct l as [|w l]; [done|]. cbn [nearest]. destruct (G l w) as (b & -> & B & M). split.
  - destruct B as [-> |B]; [left|by right].
  - intros v H. apply elem_of_cons in H. apply M. done.
Qed.

(** Readings of the clock have milliseconds below 1000; then a timer set at [t0] to fire
    after [ms] milliseconds has a deadline of that kind and is due exactly when that
    many milliseconds have passed. *)
Definition total (t : Z * Z) : Z := fst t * 1000 + snd t.
Theorem C22_due_time t0 ms now : 0 <= snd t0 < 1000 -> 0 <= snd now < 1000 -> 0 <= ms ->
  total (add_ms t0 ms) = total t0 + ms /\ 0 <= snd (add_ms t0 ms) < 1000 /\
  (due now (add_ms t0 ms) = true <-> total t0 + ms <= total now).
Proof.
  intros H0 Hn Hm. destruct t0 as [s0 m0], now as [s1 m1]. cbn [fst snd] in *.
  assert (total (add_ms (s0, m0) ms) = total (s0, m0) + ms /\ 0 <= snd (add_ms (s0, m0) ms) < 1000) as [Ht Hs].
  { unfold add_ms, total. cbn [fst snd]. rewrite Z.quot_div_nonneg, Z.rem_mod_nonneg by lia.
    pose proof (Z.div_mod ms 1000 ltac:(lia)). pose proof (Z.mod_pos_bound ms 1000 ltac:(lia)).
    destruct (1000 <=? m0 + ms mod 1000) eqn:E; cbn [fst snd]; lia. }
  split; [done|]. split; [done|]. rewrite <- Ht. destruct (add_ms (s0, m0) ms) as [s m].
  unfold due, total in *. cbn [fst snd] in *. lia.
Qed.
Example C22_due_time_ex : add_ms (5, 700) 1300 = (7, 0) /\ due (7, 0) (7, 0) = true /\ due (6, 999) (7, 0) = false.
Proof. by vm_compute. Qed.

(** The clock advances by one second at every reading; callbacks stop their timer. *)
Definition clk (k : nat) : Z * Z := (Z.of_nat k, 0).
Definition stop (_ : nat) (_ : Z) : list act * Z := ([], -1).
Definition zeros (_ : nat) : tnode := TN 0 (0, 0) None None 0.

(** A descriptor with a timeout becomes ready twice; the second time the timer field is
    still set and the node is unlinked again through stale links: the timer created in
    between is dropped from the list and never looked at. *)
Theorem C22_refine_refuted :
  let os := [OWait 0 5000; OReady 0; OCreate 1; OReady 0; OProcess 100] in
  exists s evs es, trun clk stop (tinit 1 zeros 0) os = TOk (s, evs ++ [es]) /\
    after_all 1 None (concat evs) <> None /\ looks 1 es = 0%nat /\ es = [].
Proof. eexists _, [_; _; _; _], []. split; [vm_compute; reflexivity|]. by vm_compute. Qed.
(** Without a timeout, but with other bytes in the uninitialised events array, a ready
    descriptor unlinks a node that is on no list and follows its wild pointers. *)
Theorem C22_uninitialised_refuted :
  let junk := fun _ : nat => TN 0 (1, 0) (Some 77%nat) None 0 in
  trun clk stop (tinit 1 junk 0) [OWait 0 0; OReady 0] = TBad.
Proof. vm_compute. reflexivity. Qed.

(** Three timers: 0 repeats, 1 is deleted by the callback of 2 (the newest comes first),
    2 stops. *)
Definition cb3 (_ : nat) (id : Z) : list act * Z := if id =? 2 then ([ADelete 1; ACreate 0], -1) else ([], 2000).
Example timers_three :
  exists s a b c, trun clk cb3 (tinit 1 zeros 0) [OCreate 0; OCreate 0; OCreate 0; OReady 0; OProcess 10; OProcess 11] = TOk (s, a ++ [b; c]) /\
    map (fun id => (looks id b, looks id c)) [0; 1; 2; 3] = [(1, 1); (0, 0); (1, 0); (0, 1)]%nat /\
    EDelete 1 ∈ b.
Proof. eexists _, [_; _; _; _], _, _. split; [vm_compute; reflexivity|]. split; [vm_compute; reflexivity|]. vm_compute. right. left. Qed.
Example timers_three_guard : Forall (timers_only 1) [OCreate 0; OCreate 0; OCreate 0; OReady 0; OProcess 10; OProcess 11].
Proof. repeat constructor. Qed.
Example timers_nearest_ex : nearest None [(3, 5); (1, 7); (1, 2); (2, 0)] = Some (1, 2).
Proof. reflexivity. Qed.

Print Assumptions C22_refine_partial.
Print Assumptions C22_fire_when_due_partial.
Print Assumptions C22_round_exact_partial.
Print Assumptions C22_ids_partial.
Print Assumptions C22_nearest.
Print Assumptions C22_due_time.
Print Assumptions C22_refine_refuted.
Print Assumptions C22_uninitialised_refuted.
