(** Proofs about the coroutine scheduler. *)
From Coq Require Import ZArith NArith Lia ZifyBool ZifyNat ZifyN.
From stdpp Require Import numbers gmap list.
From Verif Require Import ListModel ListSpec ListProofs CoroModel CoroSpec.
Local Open Scope Z_scope.

Definition qs (g : ghost) : queues := fun i => match i with O => map fst (g_pend g) | S m => g_wait g m end.
Record Inv (s : sched) (g : ghost) : Prop := {
  v_list : inv (dom (cos s)) (heap s, lists s) (qs g);
  v_dom : forall c, is_Some (cos s !! c) <-> g_st g c <> Dead;
  v_n : stdpp.base.size (dom (cos s)) = g_n g;
  v_small : (N.of_nat (g_n g) < 2 ^ 64)%N;
  v_few : forall c, g_fd g c <> None -> (g_n g <= 103)%nat;
  v_pend : forall c, c ∈ map fst (g_pend g) <-> g_st g c = Ready;
  v_res : forall c r, (c, r) ∈ g_pend g -> exists w, cos s !! c = Some (Co true r w);
  v_wait : forall m c, c ∈ g_wait g m <-> g_st g c = Waiting (RMutex m);
  v_sleep : forall c, c ∈ map snd (sleepers s) <-> g_st g c = Waiting RSleep;
  v_sid : NoDup (map fst (sleepers s));
  v_sco : NoDup (map snd (sleepers s));
  v_snext : Forall (fun x => fst x < next_timer s) (sleepers s);
  v_cw : forall c k, cos s !! c = Some k -> c_wait k = g_fd g c;
  v_ev : forall fd m c, events s !! fd = Some (m, c) <-> g_fd g c = Some (fd, m);
  v_fd : forall c fd m, g_fd g c = Some (fd, m) -> g_st g c = Waiting (RFd fd m) \/ g_st g c = Ready;
  v_fd' : forall c fd m, g_st g c = Waiting (RFd fd m) -> g_fd g c = Some (fd, m);
  v_hold : forall m, holder s m = None -> g_own g m = None /\ g_wait g m = [];
}.
(** A ready coroutine with a registered event runs before the next poll. *)
Definition served (g : ghost) : Prop := forall c, g_due g c = false.
Definition soon (s : sched) (g : ghost) : Prop :=
  (0 <= counter s /\ served g) /\ forall i c r, g_pend g !! i = Some (c, r) -> g_fd g c <> None -> Z.of_nat i + counter s <= 102.
Definition only (s : sched) (g : ghost) : Prop :=
  exists c, running s = Some c /\ g_st g c = Running /\ forall d, g_st g d = Running -> d = c.
Definition none (g : ghost) : Prop := forall d, g_st g d <> Running.

Lemma size_small s g i : Inv s g -> (N.of_nat (length (qs g i)) < 2 ^ 64)%N.
Proof.
  intros I. assert (H := queue_len _ _ _ i (v_list _ _ I)). rewrite (v_n _ _ I) in H. assert (X := v_small _ _ I).
  change (2 ^ 64)%N with 18446744073709551616%N in *. lia.
Qed.
Lemma bind_ok {A B} t (a : A) (f : A -> M B) : bind (t, Ok a) f = (t ++ fst (f a), snd (f a)).
Proof. cbn. by destruct (f a). Qed.

Lemma push_ok s g i c : Inv s g -> is_Some (cos s !! c) -> (forall j, c ∉ qs g j) ->
  exists h l, push_on s i c = ([], Ok (set_lists s h l)) /\ inv (dom (cos s)) (h, l) (upd (qs g) i (qs g i ++ [c])).
Proof.
  intros I Hc Hq. destruct (step_ok (dom (cos s)) (heap s, lists s) (qs g) (Push i c) (v_list _ _ I)) as ([h l] & E & I').
  - split; [by apply elem_of_dom|done].
  - intros j. by apply (size_small s g).
  - cbn [ListModel.step] in E. unfold push_on. destruct (push (heap s) (lists s i) c) as [[h' l']| |] eqn:Ep; try done.
    injection E as <- <-. eexists _, _. split; [done|]. exact I'.
Qed.
Lemma pop_ok s g i : Inv s g ->
  exists h l, pop_off s i = ([], Ok (set_lists s h l, head (qs g i))) /\ inv (dom (cos s)) (h, l) (upd (qs g) i (tail (qs g i))).
Proof.
  intros I. destruct (step_ok (dom (cos s)) (heap s, lists s) (qs g) (Pop i) (v_list _ _ I)) as ([h l] & E & I').
  - done.
  - intros j. by apply (size_small s g).
  - cbn [ListModel.step] in E. unfold pop_off. destruct (pop (heap s) (lists s i)) as [[[h' l'] r]| |] eqn:Ep; try done.
    injection E as E1 E2 E3. subst h'. cbn [spec_step] in E3, I'. exists h, (upd (lists s) i l'). subst l.
    destruct (qs g i) as [|a q] eqn:Eq; cbn in *; injection E3 as ->; (split; [done|]).
    + destruct I' as [R D I1 I2 I3]. assert (X : forall j, upd (qs g) i [] j = qs g j) by (intros j; unfold upd; case_decide; congruence).
      split; cbn [fst snd] in *; intros; rewrite ?X in *; eauto.
      apply I3; [done|]. intros j. rewrite <- X. done.
    + done.
Qed.
Lemma inv_ext items s q q' : (forall i, q i = q' i) -> inv items s q -> inv items s q'.
Proof.
  intros X [R D I1 I2 I3]. split; cbn [fst snd] in *; intros; rewrite <- ?X in *; eauto.
  apply I3; [done|]. intros j. rewrite X. done.
Qed.

Definition same_but (s s' : sched) : Prop :=
  running s' = running s /\ counter s' = counter s /\ events s' = events s /\ sleepers s' = sleepers s /\
  next_timer s' = next_timer s /\ holder s' = holder s.

(** Changing the state of a coroutine that is in no queue, to one that is in none either. *)
Lemma upd_at {A} (f : nat -> A) i x j : upd f i x j = if decide (j = i) then x else f j.
Proof. done. Qed.

Lemma resume_ok s g c r : Inv s g -> g_st g c <> Dead -> g_st g c <> Ready -> (forall m, g_st g c <> Waiting (RMutex m)) ->
  g_st g c <> Waiting RSleep ->
  exists s', resume s c r = ([TReady c r], Ok s') /\ Inv s' (gstep g (TReady c r)) /\ same_but s s'.
Proof.
  intros I Hd Hr Hm Hs. destruct (proj2 (v_dom _ _ I c) Hd) as [k Ek]. unfold resume. rewrite Ek.
  set (s1 := set_cos s (<[c := Co true r (c_wait k)]> (cos s))).
  assert (Ed : dom (cos s1) = dom (cos s)).
  { apply leibniz_equiv. cbn. rewrite dom_insert. assert (c ∈ dom (cos s)) by (by apply elem_of_dom). set_solver. }
  assert (Hq : forall j, c ∉ qs g j).
  { intros [|m] H; cbn in H; [by apply (v_pend _ _ I) in H|]. apply (v_wait _ _ I) in H. by apply (Hm m). }
  assert (I1 : inv (dom (cos s1)) (heap s1, lists s1) (qs g)) by (rewrite Ed; apply I).
  destruct (step_ok (dom (cos s1)) (heap s1, lists s1) (qs g) (Push 0 c) I1) as ([h l] & E & I').
  { split; [|done]. rewrite Ed. by apply elem_of_dom. }
  { intros j. by apply (size_small s g). }
  cbn [ListModel.step] in E. unfold push_on. destruct (push (heap s1) (lists s1 0) c) as [[h' l']| |] eqn:Ep; try done.
  injection E as E1 E2. subst h' l. cbn [spec_step fst] in I'.
  unfold ret. rewrite bind_ok. cbn. eexists. split; [done|]. split; [|done].
  split; cbn [cos heap lists events sleepers next_timer holder set_lists set_cos gstep g_st g_fd g_pend g_n g_own g_wait s1].
  - eapply inv_ext; [|exact I']. intros [|j]; unfold upd; cbn; [|done]. by rewrite map_app.
  - intros d. rewrite upd_at. destruct (decide (d = c)) as [-> |Hdc]; [rewrite lookup_insert|rewrite lookup_insert_ne by done; apply I].
    split; [done|]. intros _. by eexists.
  - fold s1. rewrite <- (v_n _ _ I), <- Ed. done.
  - apply I.
  - apply I.
  - intros d. rewrite map_app, elem_of_app, upd_at. cbn. rewrite elem_of_list_singleton, (v_pend _ _ I d).
    destruct (decide (d = c)) as [-> |Hdc]; [tauto|]. tauto.
  - intros d x Hx. apply elem_of_app in Hx as [Hx|Hx].
    + destruct (v_res _ _ I d x Hx) as [w Ew]. exists w. rewrite lookup_insert_ne; [done|]. intros ->.
      apply Hr. apply (v_pend _ _ I). by apply (elem_of_list_fmap_1 fst) in Hx.
    + apply elem_of_list_singleton in Hx. injection Hx as -> ->. exists (c_wait k). by rewrite lookup_insert.
  - intros m d. rewrite (v_wait _ _ I), upd_at. destruct (decide (d = c)) as [-> |]; [|done]. split; [intros H; by apply Hm in H|done].
  - intros d. rewrite (v_sleep _ _ I), upd_at. destruct (decide (d = c)) as [-> |]; [|done]. split; [intros H; by apply Hs in H|done].
  - apply I.
  - apply I.
  - apply I.
  - intros d k'. destruct (decide (d = c)) as [-> |Hdc].
    + rewrite lookup_insert. intros H. injection H as <-. cbn. by apply (v_cw _ _ I).
    + rewrite lookup_insert_ne by done. apply (v_cw _ _ I).
  - apply I.
  - intros d fd m H. rewrite upd_at. destruct (decide (d = c)); [by right|]. by apply (v_fd _ _ I).
  - intros d fd m. rewrite upd_at. destruct (decide (d = c)); [done|]. apply (v_fd' _ _ I).
  - apply I.
Qed.

Lemma all_along_app P g t1 t2 : all_along P g (t1 ++ t2) <-> all_along P g t1 /\ all_along P (at_end g t1) t2.
Proof. revert g. induction t1 as [|e t1 IH]; intros g; cbn; [tauto|]. rewrite IH. tauto. Qed.
Lemma at_end_app g t1 t2 : at_end g (t1 ++ t2) = at_end (at_end g t1) t2.
Proof. apply fold_left_app. Qed.

(** ** Polling *)
Definition quiet (g : ghost) (fds : list nat) : Prop :=
  forall c fd m, g_fd g c = Some (fd, m) -> g_st g c = Ready -> fd ∉ fds.
(** What is still due while a poll is going on: descriptors [fs] and timers [ts] are left. *)
Definition left_due (due : nat -> bool) (fs : list (nat * N)) (ts : list (Z * nat)) (g : ghost) : Prop :=
  forall c, g_due g c =
    match g_st g c with
    | Waiting (RFd fd m) => reported fs fd m
    | Waiting RSleep => existsb (fun x => (snd x =? c)%nat) ts && due c
    | _ => false
    end.
Lemma files_ok due ts fs : forall s g, Inv s g -> NoDup (map fst fs) -> quiet g (map fst fs) -> left_due due fs ts g ->
  exists tr s', fire_files s fs = (tr, Ok s') /\ Inv s' (at_end g tr) /\ all_along owed g tr /\ same_but s s' /\
    (forall d, g_st (at_end g tr) d = Running <-> g_st g d = Running) /\ left_due due [] ts (at_end g tr).
Proof.
  induction fs as [|[fd mask] fs IH]; intros s g I ND Q D; cbn [fire_files].
  - exists [], s. do 3 (split; [done|]). done.
  - cbn [map fst] in *. apply NoDup_cons in ND as [Hfd ND].
    assert (Q' : quiet g (map fst fs)) by (intros c fd' m H1 H2 H3; apply (Q c fd' m H1 H2); by right).
    assert (D' : (forall c m, g_st g c = Waiting (RFd fd m) -> N.land (N.land m mask) 3 = 0%N) -> left_due due fs ts g).
    { intros H c. rewrite D. destruct (g_st g c) as [| | |[|fd' m| |]] eqn:Ec; try done. unfold reported. cbn [existsb fst snd].
      destruct (fd =? fd')%nat eqn:Ef; [|done]. apply Nat.eqb_eq in Ef as <-. by rewrite (H _ _ Ec). }
    destruct (events s !! fd) as [[m c]|] eqn:Ee.
    2:{ apply IH; try done. apply D'. intros c m Hc. apply (v_fd' _ _ I), (v_ev _ _ I) in Hc. congruence. }
    destruct (N.land (N.land m mask) 3 =? 0)%N eqn:Em.
    { apply IH; try done. apply D'. intros c' m' Hc. apply (v_fd' _ _ I), (v_ev _ _ I) in Hc. rewrite Ee in Hc. injection Hc as <- _. by apply N.eqb_eq. }
    assert (Ee' := Ee). apply (v_ev _ _ I) in Ee. assert (St : g_st g c = Waiting (RFd fd m)).
    { destruct (v_fd _ _ I _ _ _ Ee) as [H|H]; [done|]. exfalso. apply (Q c fd m Ee H). left. }
    destruct (resume_ok s g c (Z.of_N mask) I) as (s1 & E1 & I1 & B1); try (intros; rewrite St; done).
    rewrite E1, bind_ok.
    destruct (IH s1 _ I1 ND) as (tr & s2 & E2 & I2 & O2 & B2 & R2 & D2).
    { intros d fd' m' H1 H2 H3. cbn in H1, H2. rewrite upd_at in H2. destruct (decide (d = c)) as [-> |Hd].
      - rewrite Ee in H1. injection H1 as <- _. done.
      - apply (Q' d fd' m'); done. }
    { intros d. cbn [gstep g_due g_st]. rewrite !upd_at. destruct (decide (d = c)) as [-> |Hd]; [done|]. rewrite D.
      destruct (g_st g d) as [| | |[|fd' m'| |]] eqn:Ec; try done. unfold reported. cbn [existsb fst snd].
      destruct (fd =? fd')%nat eqn:Ef; [|done]. apply Nat.eqb_eq in Ef as <-. apply (v_fd' _ _ I), (v_ev _ _ I) in Ec. congruence. }
    rewrite E2. cbn [fst snd]. exists ([TReady c (Z.of_N mask)] ++ tr), s2. split; [done|]. split; [done|]. split; [|split; [|split]].
    + cbn. split; [|done]. split; [by rewrite St|]. rewrite D, St. cbn. split; [done|]. by rewrite Nat.eqb_refl, Em.
    + unfold same_but in *. intuition congruence.
    + intros d. rewrite at_end_app. rewrite R2. cbn. rewrite upd_at. destruct (decide (d = c)) as [-> |]; [by rewrite St|done].
    + by rewrite at_end_app.
Qed.

Lemma Inv_ext s g g' : (forall c, g_st g c = g_st g' c) -> g_fd g = g_fd g' -> g_pend g = g_pend g' -> g_n g = g_n g' ->
  g_own g = g_own g' -> g_wait g = g_wait g' -> Inv s g -> Inv s g'.
Proof.
  intros E1 E2 E3 E4 E5 E6 I. destruct I. split; unfold qs in *; rewrite <- ?E3, <- ?E4, <- ?E5, <- ?E6, <- ?E2 in *; try done;
    intros; rewrite <- ?E1, <- ?E5, <- ?E6 in *; eauto.
  all: try (rewrite E6; done).
Qed.
Lemma map_filter_NoDup {A B} (f : A -> B) (P : A -> Prop) `{DP : !forall x, Decision (P x)} (l : list A) : NoDup (map f l) -> NoDup (map f (filter P l)).
Proof.
  induction l as [|a l IH]; [done|]. cbn [map]. intros N. apply NoDup_cons in N as [N1 N2]. rewrite filter_cons. destruct (decide (P a)); [|by apply IH].
  cbn [map]. apply NoDup_cons. split; [|by apply IH]. intros H. apply N1. apply elem_of_list_fmap in H as (x & -> & H).
  apply elem_of_list_filter in H as [_ H]. by apply elem_of_list_fmap_1.
Qed.
(** A sleeper's timer is taken off. *)
Lemma unsleep_ok s g id c : Inv s g -> (id, c) ∈ sleepers s ->
  Inv (set_sleepers s (filter (fun x => fst x <> id) (sleepers s)) (next_timer s))
      (Gh (upd (g_st g) c (Waiting RPark)) (g_fd g) (g_pend g) (g_n g) (g_own g) (g_wait g) (g_due g)).
Proof.
  intros I Hin. assert (St : g_st g c = Waiting RSleep) by (apply (v_sleep _ _ I); by apply (elem_of_list_fmap_1 snd) in Hin).
  assert (F : forall (x : Z * nat), x ∈ filter (fun x => fst x <> id) (sleepers s) <-> x ∈ sleepers s /\ snd x <> c).
  { intros [i d]. rewrite elem_of_list_filter. cbn. split.
    - intros [H1 H2]. split; [done|]. intros ->. assert (X := v_sco _ _ I). apply H1.
      apply elem_of_list_lookup in H2 as [p Hp]. apply elem_of_list_lookup in Hin as [q Hq].
      assert (p = q).
      { apply (NoDup_lookup _ p q c X); rewrite list_lookup_fmap; [by rewrite Hp|by rewrite Hq]. }
      subst. rewrite Hp in Hq. by injection Hq as ->.
    - intros [H1 H2]. split; [|done]. intros ->. assert (X := v_sid _ _ I). apply H2.
      apply elem_of_list_lookup in H1 as [p Hp]. apply elem_of_list_lookup in Hin as [q Hq].
      assert (p = q).
      { apply (NoDup_lookup _ p q id X); rewrite list_lookup_fmap; [by rewrite Hp|by rewrite Hq]. }
      subst. rewrite Hp in Hq. by injection Hq as ->. }
  destruct I. split; cbn; try done.
  - intros d. rewrite upd_at. destruct (decide (d = c)) as [-> |]; [|done]. rewrite v_dom0, St. done.
  - intros d. rewrite upd_at, v_pend0. destruct (decide (d = c)) as [-> |]; [|done]. by rewrite St.
  - intros m d. rewrite upd_at, v_wait0. destruct (decide (d = c)) as [-> |]; [|done]. by rewrite St.
  - intros d. rewrite upd_at. destruct (decide (d = c)) as [-> |Hd].
    + split; [|done]. intros H. apply elem_of_list_fmap in H as ([i d] & -> & H). apply F in H. cbn in H. tauto.
    + rewrite <- v_sleep0. split; intros H; apply elem_of_list_fmap in H as ([i d'] & -> & H).
      * apply F in H as [H _]. by apply (elem_of_list_fmap_1 snd) in H.
      * cbn in *. apply (elem_of_list_fmap_1 snd _ (i, d')). by apply F.
  - by apply map_filter_NoDup.
  - by apply map_filter_NoDup.
  - apply Forall_forall. intros x Hx. apply elem_of_list_filter in Hx as [_ Hx]. rewrite Forall_forall in v_snext0. by apply v_snext0.
  - intros d fd m H. rewrite upd_at. destruct (decide (d = c)) as [-> |]; [|by apply v_fd0]. apply v_fd0 in H. rewrite St in H. by destruct H.
  - intros d fd m. rewrite upd_at. destruct (decide (d = c)) as [-> |]; [done|]. apply v_fd'0.
Qed.
Lemma timers_ok ts due : forall s g, Inv s g -> NoDup (map snd ts) -> NoDup (map fst ts) -> (forall x, x ∈ ts -> x ∈ sleepers s) ->
  left_due due [] ts g ->
  exists tr s', fire_timers s ts due = (tr, Ok s') /\ Inv s' (at_end g tr) /\ all_along owed g tr /\
    running s' = running s /\ counter s' = counter s /\
    (forall d, g_st (at_end g tr) d = Running <-> g_st g d = Running) /\ served (at_end g tr).
Proof.
  induction ts as [|[id c] ts IH]; intros s g I ND ND' Hin D; cbn [fire_timers].
  - exists [], s. do 6 (split; [done|]). intros c. cbn. rewrite D. by destruct (g_st g c) as [| | |[]].
  - cbn [map snd fst] in ND, ND'. apply NoDup_cons in ND as [Hc ND]. apply NoDup_cons in ND' as [Hi ND'].
    destruct (due c) eqn:Edue.
    2:{ apply IH; try done; [intros x Hx; apply Hin; by right|]. intros d. rewrite D. destruct (g_st g d) as [| | |[]]; try done.
        cbn [existsb snd]. destruct (c =? d)%nat eqn:E; [|done]. apply Nat.eqb_eq in E as <-. by rewrite Edue, !andb_false_r. }
    assert (I0 := unsleep_ok s g id c I (Hin _ ltac:(left))).
    assert (St : g_st g c = Waiting RSleep).
    { apply (v_sleep _ _ I). specialize (Hin (id, c) ltac:(left)). by apply (elem_of_list_fmap_1 snd) in Hin. }
    set (s0 := set_sleepers _ _ _) in *.
    destruct (resume_ok s0 _ c id I0) as (s1 & E1 & I1 & B1); try (cbn; rewrite upd_same; done).
    rewrite E1, bind_ok.
    assert (I1' : Inv s1 (gstep g (TReady c id))).
    { eapply Inv_ext; [..|exact I1]; try done. intros d. cbn. rewrite !upd_at. by destruct (decide (d = c)). }
    destruct (IH s1 _ I1' ND ND') as (tr & s2 & E2 & I2 & O2 & B2 & B3 & R2 & D2).
    { intros [i d] Hx. destruct B1 as (_ & _ & _ & -> & _). cbn. apply elem_of_list_filter. split; [|apply Hin; by right].
      cbn. intros ->. apply Hi. by apply (elem_of_list_fmap_1 fst) in Hx. }
    { intros d. cbn [gstep g_due g_st]. rewrite !upd_at. destruct (decide (d = c)) as [-> |Hd]; [done|]. rewrite D.
      destruct (g_st g d) as [| | |[]] eqn:Ec; try done. cbn [existsb snd]. by rewrite (proj2 (Nat.eqb_neq c d)) by done. }
    rewrite E2. cbn [fst snd]. exists ([TReady c id] ++ tr), s2. split; [done|]. split; [done|]. destruct B1 as (A1 & A2 & _). cbn in A1, A2. split; [|split; [|split; [|split]]].
    + cbn. split; [|done]. split; [by rewrite St|]. rewrite D, St. cbn. by rewrite Nat.eqb_refl, Edue.
    + congruence.
    + congruence.
    + intros d. rewrite at_end_app. rewrite R2. cbn. rewrite upd_at. destruct (decide (d = c)) as [-> |]; [by rewrite St|done].
    + by rewrite at_end_app.
Qed.
Lemma pend_short s g : Inv s g -> (length (g_pend g) <= g_n g)%nat.
Proof.
  intros I. assert (H := queue_len _ _ _ 0 (v_list _ _ I)). rewrite (v_n _ _ I) in H.
  cbn in H. rewrite map_length in H. lia.
Qed.
Lemma Inv_counter s g n : Inv s g -> Inv (set_counter s n) g.
Proof. intros I. destruct I. by split. Qed.
Lemma Inv_running s g n : Inv s g -> Inv (set_running s n) g.
Proof. intros I. destruct I. by split. Qed.
Lemma poll_ok s g p : Inv s g -> kernel_ok p -> (forall c fd m, g_fd g c = Some (fd, m) -> g_st g c <> Ready) -> served g ->
  exists tr s', poll s p = (tr, Ok s') /\ Inv s' (at_end g tr) /\ all_along owed g tr /\ soon s' (at_end g tr) /\
    running s' = running s /\ (forall d, g_st (at_end g tr) d = Running <-> g_st g d = Running).
Proof.
  intros I K Q Sv. unfold poll, emit. rewrite bind_ok.
  assert (I0 : Inv s (gstep g (TPoll p))) by (eapply Inv_ext; [..|exact I]; done).
  destruct (files_ok (due p) (sleepers s) (fired p) s _ I0 K) as (t1 & s1 & E1 & I1 & O1 & B1 & R1 & D1).
  { intros c fd m H1 H2. by apply Q in H1. }
  { intros c. cbn. destruct (g_st g c) as [| | |[]] eqn:Ec; try done. apply (v_sleep _ _ I) in Ec.
    apply elem_of_list_fmap in Ec as (x & -> & Hx). replace (existsb _ _) with true; [done|]. symmetry. apply existsb_exists. exists x.
    split; [by apply elem_of_list_In|]. apply Nat.eqb_refl. }
  rewrite E1, bind_ok. assert (Es : sleepers s1 = sleepers s) by apply B1. rewrite Es.
  destruct (timers_ok (sleepers s) (due p) s1 _ I1 (v_sco _ _ I) (v_sid _ _ I) ltac:(by rewrite Es) D1) as (t2 & s2 & E2 & I2 & O2 & B2 & B2' & R2 & D2).
  rewrite E2, bind_ok. cbn [fst snd ret]. eexists _, _. split; [done|]. rewrite app_nil_r, !at_end_app. split; [by apply Inv_counter|]. split; [|split; [|split]].
  - rewrite !all_along_app. split; [|done]. cbn. done.
  - split; [done|]. intros i c r Hi Hf. assert (F := v_few _ _ I2 _ Hf). cbn [counter set_counter]. assert (L := pend_short _ _ I2). apply lookup_lt_Some in Hi. cbn [at_end fold_left] in Hi. cbn [at_end fold_left] in F. lia.
  - cbn. destruct B1 as (A & _). congruence.
  - intros d. by rewrite R2, R1.
Qed.

(** ** Switching *)
Definition result_ok (g : ghost) (tr : list tev) (o : outcome (sched * list poll_answer)) : Prop :=
  all_along owed g tr /\
  match o with
  | Ok (s', ps') => Inv s' (at_end g tr) /\ soon s' (at_end g tr) /\ only s' (at_end g tr) /\ Forall kernel_ok ps'
  | Idle => g_pend (at_end g tr) = [] /\ served (at_end g tr)
  | Cut | Exit => True
  | Fail | Bad => False
  end.
Lemma result_app g t1 t2 o : all_along owed g t1 -> result_ok (at_end g t1) t2 o -> result_ok g (t1 ++ t2) o.
Proof. intros H1 [H2 H3]. split; [by apply all_along_app|]. by rewrite at_end_app. Qed.

Lemma switch_ok s g c r pend h l : Inv s g -> soon s g -> none g -> g_pend g = (c, r) :: pend ->
  inv (dom (cos s)) (h, l) (upd (qs g) 0 (tail (qs g 0))) ->
  exists s', switch_to (set_lists s h l) c = ([TRun c r], Ok s') /\ Inv s' (gstep g (TRun c r)) /\ soon s' (gstep g (TRun c r)) /\ only s' (gstep g (TRun c r)).
Proof.
  intros I [[S0 S1] S2] No Ep L. destruct (v_res _ _ I c r) as [w Ew]; [rewrite Ep; left|].
  assert (St : g_st g c = Ready) by (apply (v_pend _ _ I); rewrite Ep; left).
  assert (Hw := v_cw _ _ I c _ Ew). cbn in Hw.
  assert (ND : NoDup (map fst (g_pend g))) by apply (i_rep _ _ _ (v_list _ _ I) 0).
  rewrite Ep in ND. cbn in ND. apply NoDup_cons in ND as [Hc ND].
  unfold switch_to. cbn [cos set_lists]. rewrite Ew. cbn [c_ready c_wait c_result]. cbn. eexists. split; [done|].
  set (e := match w with Some (fd, mask) => del_event (events s) fd mask | None => events s end).
  assert (Ev : forall fd m d, e !! fd = Some (m, d) <-> d <> c /\ g_fd g d = Some (fd, m)).
  { intros fd m d. unfold e. destruct w as [[fd0 m0]|].
    - symmetry in Hw. assert (E0 := proj2 (v_ev _ _ I fd0 m0 c) Hw). unfold del_event. rewrite E0.
      rewrite N.ldiff_diag. change (0 =? 0)%N with true. cbn match. rewrite lookup_delete_Some, (v_ev _ _ I). split.
      + intros [H1 H2]. split; [|done]. intros ->. rewrite Hw in H2. injection H2 as -> _. done.
      + intros [H1 H2]. split; [|done]. intros ->. apply (v_ev _ _ I) in H2. rewrite E0 in H2. injection H2 as _ ->. done.
    - rewrite (v_ev _ _ I). split; [|tauto]. intros H. split; [|done]. intros ->. congruence. }
  assert (Ed : dom (<[c := Co false r None]> (cos s)) = dom (cos s)).
  { apply leibniz_equiv. rewrite dom_insert. assert (c ∈ dom (cos s)) by (by apply elem_of_dom). set_solver. }
  split; [|split].
  - split; cbn [cos heap lists events sleepers next_timer holder set_lists set_cos set_running set_counter set_events gstep g_st g_fd g_pend g_n g_own g_wait].
    + rewrite Ed. eapply inv_ext; [|exact L]. intros [|m]; unfold upd; cbn; [|done]. by rewrite Ep.
    + intros d. rewrite upd_at. destruct (decide (d = c)) as [-> |Hd]; [rewrite lookup_insert; split; [done|by eexists]|rewrite lookup_insert_ne by done; apply I].
    + rewrite Ed. apply I.
    + apply I.
    + intros d. rewrite upd_at. destruct (decide (d = c)); [done|]. apply (v_few _ _ I).
    + intros d. rewrite upd_at, Ep. cbn [tail]. destruct (decide (d = c)) as [-> |Hd]; [split; [done|done]|].
      rewrite <- (v_pend _ _ I), Ep. cbn. rewrite elem_of_cons. tauto.
    + intros d x. rewrite Ep. cbn [tail]. intros Hx. destruct (v_res _ _ I d x) as [w' E']; [rewrite Ep; by right|]. exists w'.
      rewrite lookup_insert_ne; [done|]. intros ->. apply Hc. by apply (elem_of_list_fmap_1 fst) in Hx.
    + intros m d. rewrite (v_wait _ _ I), upd_at. destruct (decide (d = c)) as [-> |]; [|done]. by rewrite St.
    + intros d. rewrite (v_sleep _ _ I), upd_at. destruct (decide (d = c)) as [-> |]; [|done]. by rewrite St.
    + apply I.
    + apply I.
    + apply I.
    + intros d k. rewrite upd_at. destruct (decide (d = c)) as [-> |Hd].
      * rewrite lookup_insert. intros H. by injection H as <-.
      * rewrite lookup_insert_ne by done. apply (v_cw _ _ I).
    + intros fd m d. rewrite Ev, upd_at. destruct (decide (d = c)); [|tauto]. split; [tauto|done].
    + intros d fd m. rewrite !upd_at. destruct (decide (d = c)); [done|]. apply (v_fd _ _ I).
    + intros d fd m. rewrite !upd_at. destruct (decide (d = c)); [done|]. apply (v_fd' _ _ I).
    + apply I.
  - split; cbn; [split; [lia|done]|]. intros i d x. rewrite Ep. cbn [tail]. intros Hi Hf. rewrite upd_at in Hf. destruct (decide (d = c)); [done|].
    assert (X := S2 (S i) d x). rewrite Ep in X. specialize (X Hi Hf). lia.
  - exists c. cbn. split; [done|]. rewrite upd_same. split; [done|]. intros d. rewrite upd_at. destruct (decide (d = c)); [done|]. intros H. by apply No in H.
Qed.
Lemma dispatch_ok ps : forall s g, Inv s g -> soon s g -> none g -> Forall kernel_ok ps ->
  result_ok g (fst (dispatch ps s)) (snd (dispatch ps s)).
Proof.
  induction ps as [|p ps IH]; intros s g I S No K; cbn [dispatch];
    destruct (pop_ok s g 0 I) as (h & l & E & L); rewrite E, bind_ok; cbn [fst snd app];
    destruct (g_pend g) as [|[c r] pend] eqn:Ep; cbn [qs]; rewrite Ep; cbn [map fst head].
  - split; [done|]. split; [done|]. apply S.
  - destruct (switch_ok s g c r pend h l I S No Ep L) as (s' & E' & I' & S' & O'). rewrite E', bind_ok. cbn. split; [cbn; rewrite Ep; split; [split; [done|apply S]|done]|]. done.
  - apply Forall_cons_1 in K as [K1 K2].
    assert (I0 : Inv (set_lists s h l) g).
    { destruct I. split; try done. cbn. eapply inv_ext; [|exact L]. intros [|m]; unfold upd; cbn; [|done]. by rewrite Ep. }
    destruct (poll_ok _ g p I0 K1) as (t1 & s1 & E1 & I1 & O1 & S1 & B1 & R1).
    { intros d fd m _ H. apply (v_pend _ _ I) in H. rewrite Ep in H. by apply elem_of_nil in H. }
    { apply S. }
    rewrite E1, bind_ok. apply result_app; [done|]. apply IH; try done. intros d H. apply R1 in H. by apply No in H.
  - apply Forall_cons_1 in K as [K1 K2].
    destruct (switch_ok s g c r pend h l I S No Ep L) as (s' & E' & I' & S' & O'). rewrite E', bind_ok. cbn. split; [cbn; rewrite Ep; split; [split; [done|apply S]|done]|].
    split; [done|]. split; [done|]. split; [done|]. by constructor.
Qed.
Lemma suspend_ok s g ps : Inv s g -> soon s g -> none g -> Forall kernel_ok ps -> result_ok g (fst (suspend s ps)) (snd (suspend s ps)).
Proof.
  intros I S No K. unfold suspend. destruct (103 <=? counter s) eqn:Ec; [|by apply dispatch_ok].
  destruct ps as [|p ps]; [by split|]. apply Forall_cons_1 in K as [K1 K2].
  destruct (poll_ok s g p I K1) as (t1 & s1 & E1 & I1 & O1 & S1 & B1 & R1).
  { intros c fd m H1 H2. destruct S as [_ S]. apply (v_pend _ _ I) in H2. apply elem_of_list_fmap in H2 as ([c' r] & -> & H2).
    apply elem_of_list_lookup in H2 as [i Hi]. specialize (S i c' r Hi). cbn in H1. rewrite H1 in S. specialize (S ltac:(done)). lia. }
  { apply S. }
  rewrite E1, bind_ok. apply result_app; [done|]. apply dispatch_ok; try done. intros d H. apply R1 in H. by apply No in H.
Qed.

(** ** The actions *)
Lemma none_susp s g c why : only s g -> running s = Some c -> none (gstep g (TSusp c why)).
Proof.
  intros (c' & E & _ & H) E'. rewrite E in E'. injection E' as ->. intros d. cbn. rewrite upd_at. destruct (decide (d = c)); [done|].
  intros Hd. by apply H in Hd.
Qed.
Lemma fd_running s g c : Inv s g -> g_st g c = Running -> g_fd g c = None.
Proof. intros I H. destruct (g_fd g c) as [[fd m]|] eqn:E; [|done]. apply (v_fd _ _ I) in E. rewrite H in E. by destruct E. Qed.
Lemma park_ok s g c : Inv s g -> g_st g c = Running -> Inv s (gstep g (TSusp c RPark)).
Proof.
  intros I St. destruct I. split; cbn; try done.
  - intros d. rewrite upd_at. destruct (decide (d = c)) as [-> |]; [|done]. rewrite v_dom0, St. done.
  - intros d. rewrite upd_at, v_pend0. destruct (decide (d = c)) as [-> |]; [|done]. by rewrite St.
  - intros m d. rewrite upd_at, v_wait0. destruct (decide (d = c)) as [-> |]; [|done]. by rewrite St.
  - intros d. rewrite upd_at, v_sleep0. destruct (decide (d = c)) as [-> |]; [|done]. by rewrite St.
  - intros d fd m H. rewrite upd_at. destruct (decide (d = c)) as [-> |]; [|by apply v_fd0]. apply v_fd0 in H. rewrite St in H. by destruct H.
  - intros d fd m. rewrite upd_at. destruct (decide (d = c)) as [-> |]; [done|]. apply v_fd'0.
Qed.
Lemma sleep_ok s g c : Inv s g -> g_st g c = Running ->
  Inv (set_sleepers s ((next_timer s, c) :: sleepers s) (next_timer s + 1)) (gstep g (TSusp c RSleep)).
Proof.
  intros I St. destruct I. split; cbn; try done.
  - intros d. rewrite upd_at. destruct (decide (d = c)) as [-> |]; [|done]. rewrite v_dom0, St. done.
  - intros d. rewrite upd_at, v_pend0. destruct (decide (d = c)) as [-> |]; [|done]. by rewrite St.
  - intros m d. rewrite upd_at, v_wait0. destruct (decide (d = c)) as [-> |]; [|done]. by rewrite St.
  - intros d. rewrite upd_at, elem_of_cons, v_sleep0. destruct (decide (d = c)) as [-> |]; [|tauto]. tauto.
  - apply NoDup_cons. split; [|done]. intros H. apply elem_of_list_fmap in H as (x & E & H). rewrite Forall_forall in v_snext0. apply v_snext0 in H. lia.
  - apply NoDup_cons. split; [|done]. intros H. apply v_sleep0 in H. congruence.
  - constructor; [cbn; lia|]. eapply list.Forall_impl; [exact v_snext0|]. cbn. lia.
  - intros d fd m H. rewrite upd_at. destruct (decide (d = c)) as [-> |]; [|by apply v_fd0]. apply v_fd0 in H. rewrite St in H. by destruct H.
  - intros d fd m. rewrite upd_at. destruct (decide (d = c)) as [-> |]; [done|]. apply v_fd'0.
Qed.
Lemma wait_ok s g c k fd m : Inv s g -> g_st g c = Running -> cos s !! c = Some k -> (g_n g <= 103)%nat ->
  (forall d fd' m', g_fd g d = Some (fd', m') -> fd' <> fd) ->
  let s1 := set_events s (<[fd := (m, c)]> (events s)) in
  Inv (set_cos s1 (<[c := Co (c_ready k) (c_result k) (Some (fd, m))]> (cos s1))) (gstep g (TSusp c (RFd fd m))).
Proof.
  intros I St Ek Few Free. cbv zeta. assert (F0 := fd_running _ _ _ I St).
  assert (Ed : dom (<[c := Co (c_ready k) (c_result k) (Some (fd, m))]> (cos s)) = dom (cos s)).
  { apply leibniz_equiv. rewrite dom_insert. assert (c ∈ dom (cos s)) by (by apply elem_of_dom). set_solver. }
  destruct I. split; cbn; try done.
  - by rewrite Ed.
  - intros d. rewrite upd_at. destruct (decide (d = c)) as [-> |Hd]; [rewrite lookup_insert; split; [done|by eexists]|by rewrite lookup_insert_ne].
  - by rewrite Ed.
  - intros d. rewrite upd_at, v_pend0. destruct (decide (d = c)) as [-> |]; [|done]. by rewrite St.
  - intros d r H. destruct (v_res0 d r H) as [w Ew]. exists w. rewrite lookup_insert_ne; [done|]. intros <-.
    apply (elem_of_list_fmap_1 fst) in H. apply v_pend0 in H. cbn in H. congruence.
  - intros m' d. rewrite upd_at, v_wait0. destruct (decide (d = c)) as [-> |]; [|done]. by rewrite St.
  - intros d. rewrite upd_at, v_sleep0. destruct (decide (d = c)) as [-> |]; [|done]. by rewrite St.
  - intros d k'. rewrite upd_at. destruct (decide (d = c)) as [-> |Hd]; [rewrite lookup_insert; intros H; by injection H as <-|rewrite lookup_insert_ne by done; apply v_cw0].
  - intros fd' m' d. rewrite upd_at. destruct (decide (fd' = fd)) as [-> |Hfd].
    + rewrite lookup_insert. destruct (decide (d = c)) as [-> |Hd].
      * split; intros H; injection H as ->; done.
      * split; [intros H; injection H as _ ->; done|]. intros H. by apply Free in H.
    + rewrite lookup_insert_ne by done. rewrite v_ev0. destruct (decide (d = c)) as [-> |Hd]; [|done]. rewrite F0. split; [done|]. intros H. injection H as <- _. done.
  - intros d fd' m'. rewrite !upd_at. destruct (decide (d = c)) as [-> |]; [|by apply v_fd0]. intros H. injection H as -> ->. by left.
  - intros d fd' m'. rewrite !upd_at. destruct (decide (d = c)) as [-> |]; [|apply v_fd'0]. intros H. by injection H as -> ->.
Qed.
Lemma mutex_wait_ok s g c m : Inv s g -> g_st g c = Running -> holder s m <> None ->
  exists s', push_on s (S m) c = ([], Ok s') /\ Inv s' (gstep g (TSusp c (RMutex m))) /\ same_but s s'.
Proof.
  intros I St Hh.
  destruct (push_ok s g (S m) c I) as (h & l & E & L).
  - apply (v_dom _ _ I). by rewrite St.
  - intros [|j] H; cbn in H; [apply (v_pend _ _ I) in H|apply (v_wait _ _ I) in H]; congruence.
  - exists (set_lists s h l). split; [done|]. split; [|done]. destruct I. split; cbn; try done.
    + eapply inv_ext; [|exact L]. intros [|j]; unfold upd; cbn; [done|]. destruct (decide (j = m)) as [-> |]; [by rewrite decide_True|]. rewrite decide_False by congruence. done.
    + intros d. rewrite upd_at. destruct (decide (d = c)) as [-> |]; [|done]. rewrite v_dom0, St. done.
    + intros d. rewrite upd_at, v_pend0. destruct (decide (d = c)) as [-> |]; [|done]. by rewrite St.
    + intros m' d. rewrite !upd_at. destruct (decide (m' = m)) as [-> |].
      * rewrite elem_of_app, elem_of_list_singleton, v_wait0. destruct (decide (d = c)) as [-> |]; [|tauto]. tauto.
      * rewrite v_wait0. destruct (decide (d = c)) as [-> |]; [|done]. rewrite St. split; [done|]. intros H. injection H as ->. done.
    + intros d. rewrite upd_at, v_sleep0. destruct (decide (d = c)) as [-> |]; [|done]. by rewrite St.
    + intros d fd m' H. rewrite upd_at. destruct (decide (d = c)) as [-> |]; [|by apply v_fd0]. apply v_fd0 in H. rewrite St in H. by destruct H.
    + intros d fd m'. rewrite upd_at. destruct (decide (d = c)) as [-> |]; [done|]. apply v_fd'0.
    + intros m' H. rewrite upd_at. destruct (decide (m' = m)) as [-> |]; [done|]. by apply v_hold0.
Qed.
Lemma spawn_ok s g c n : Inv s g -> g_st g n = Dead -> (N.of_nat (S (g_n g)) < 2 ^ 64)%N -> (g_n g < 103)%nat \/ (forall d, g_fd g d = None) ->
  let s1 := set_cos s (<[n := Co false 0 None]> (cos s)) in
  Inv (set_lists s1 (<[n := None]> (heap s1)) (lists s1)) (gstep g (TSpawn c n)).
Proof.
  intros I St Hn Hfd. cbv zeta. 
  assert (Nn : cos s !! n = None). { destruct (cos s !! n) eqn:E; [|done]. exfalso. apply (proj1 (v_dom _ _ I n)); [by eexists|done]. }
  assert (F0 : g_fd g n = None).
  { destruct (g_fd g n) as [[fd m]|] eqn:E; [|done]. apply (v_fd _ _ I) in E. rewrite St in E. by destruct E. }
  assert (Hq : forall j, n ∉ qs g j).
  { intros [|m] H; cbn in H; [apply (v_pend _ _ I) in H|apply (v_wait _ _ I) in H]; congruence. }
  destruct I. split; cbn; try done.
  - eapply (inv_ext _ _ (qs g)); [by intros []|]. destruct v_list0 as [R D I1 I2 I3]. split; cbn [fst snd] in *.
    + intros i. destruct (R i) as [C T Ct ND]. split; try done. by apply chain_other.
    + done.
    + intros i a Ha. apply elem_of_dom. destruct (decide (a = n)) as [-> |]; [rewrite lookup_insert; by eexists|]. rewrite lookup_insert_ne by done.
      apply elem_of_dom. by eapply I1.
    + intros a. rewrite elem_of_dom. destruct (decide (a = n)) as [-> |].
      * rewrite !lookup_insert. split; by eexists.
      * rewrite !lookup_insert_ne by done. rewrite I2. apply elem_of_dom.
    + intros a Ha Hf. destruct (decide (a = n)) as [-> |]; [by rewrite lookup_insert|]. rewrite lookup_insert_ne by done. apply I3; [|done].
      apply elem_of_dom. apply elem_of_dom in Ha. by rewrite lookup_insert_ne in Ha.
  - intros d. rewrite upd_at. destruct (decide (d = n)) as [-> |Hd]; [rewrite lookup_insert; split; [done|by eexists]|by rewrite lookup_insert_ne].
  - rewrite <- v_n0, dom_insert_L, size_union.
    + by rewrite size_singleton.
    + apply disjoint_singleton_l. by apply not_elem_of_dom.
  - intros d Hd. destruct Hfd as [Hf|Hf]; [lia|by rewrite Hf in Hd].
  - intros d. rewrite upd_at, v_pend0. destruct (decide (d = n)) as [-> |]; [|done]. by rewrite St.
  - intros d r H. destruct (v_res0 d r H) as [w Ew]. exists w. rewrite lookup_insert_ne; [done|]. congruence.
  - intros m d. rewrite upd_at, v_wait0. destruct (decide (d = n)) as [-> |]; [|done]. by rewrite St.
  - intros d. rewrite upd_at, v_sleep0. destruct (decide (d = n)) as [-> |]; [|done]. by rewrite St.
  - intros d k'. destruct (decide (d = n)) as [-> |Hd]; [rewrite lookup_insert; intros H; injection H as <-; by rewrite F0|rewrite lookup_insert_ne by done; apply v_cw0].
  - intros d fd m H. rewrite upd_at. destruct (decide (d = n)) as [-> |]; [congruence|by apply v_fd0].
  - intros d fd m. rewrite upd_at. destruct (decide (d = n)) as [-> |]; [done|]. apply v_fd'0.
Qed.
Lemma finish_ok s g c : Inv s g -> g_st g c = Running ->
  Inv (set_running (set_lists (set_cos s (delete c (cos s))) (delete c (heap s)) (lists s)) None) (gstep g (TFinish c)).
Proof.
  intros I St. assert (F0 := fd_running _ _ _ I St). destruct (proj2 (v_dom _ _ I c)) as [k Ek]; [by rewrite St|].
  assert (Hq : forall j, c ∉ qs g j).
  { intros [|m] H; cbn in H; [apply (v_pend _ _ I) in H|apply (v_wait _ _ I) in H]; congruence. }
  destruct I. split; cbn; try done.
  - eapply (inv_ext _ _ (qs g)); [by intros []|]. destruct v_list0 as [R D I1 I2 I3]. split; cbn [fst snd] in *.
    + intros i. destruct (R i) as [C T Ct ND]. split; try done. specialize (Hq i). revert C Hq. generalize (l_head (lists s i)) as st. generalize (qs g i) as q.
      induction q as [|a q IH]; intros st C Hq'; cbn [chain] in *; [done|]. destruct C as (-> & nxt & E & C). apply not_elem_of_cons in Hq' as [H1 H2].
      split; [done|]. exists nxt. rewrite lookup_delete_ne by done. split; [done|]. by apply IH.
    + done.
    + intros i a Ha. apply elem_of_dom. rewrite lookup_delete_ne by (intros ->; by apply (Hq i)). apply elem_of_dom. by eapply I1.
    + intros a. rewrite elem_of_dom. destruct (decide (a = c)) as [-> |Hac]; [rewrite !lookup_delete; split; by intros []|]. rewrite !lookup_delete_ne by done. rewrite I2. apply elem_of_dom.
    + intros a Ha Hf. apply elem_of_dom in Ha. destruct (decide (a = c)) as [-> |]; [rewrite lookup_delete in Ha; by destruct Ha|].
      rewrite lookup_delete_ne in Ha by done. rewrite lookup_delete_ne by done. apply I3; [|done]. by apply elem_of_dom.
  - intros d. rewrite upd_at. destruct (decide (d = c)) as [-> |Hd]; [rewrite lookup_delete; split; [by intros []|done]|by rewrite lookup_delete_ne].
  - rewrite <- v_n0, dom_delete_L, size_difference.
    + rewrite size_singleton. lia.
    + apply singleton_subseteq_l. by apply elem_of_dom.
  - change (2 ^ 64)%N with 18446744073709551616%N in *. lia.
  - intros d Hd. apply v_few0 in Hd. lia.
  - intros d. rewrite upd_at, v_pend0. destruct (decide (d = c)) as [-> |]; [|done]. by rewrite St.
  - intros d r H. destruct (v_res0 d r H) as [w Ew]. exists w. rewrite lookup_delete_ne; [done|]. intros <-.
    apply (elem_of_list_fmap_1 fst) in H. apply v_pend0 in H. cbn in H. congruence.
  - intros m d. rewrite upd_at, v_wait0. destruct (decide (d = c)) as [-> |]; [|done]. by rewrite St.
  - intros d. rewrite upd_at, v_sleep0. destruct (decide (d = c)) as [-> |]; [|done]. by rewrite St.
  - intros d k'. destruct (decide (d = c)) as [-> |Hd]; [by rewrite lookup_delete|rewrite lookup_delete_ne by done; apply v_cw0].
  - intros d fd m H. rewrite upd_at. destruct (decide (d = c)) as [-> |]; [congruence|by apply v_fd0].
  - intros d fd m. rewrite upd_at. destruct (decide (d = c)) as [-> |]; [done|]. apply v_fd'0.
Qed.
Lemma unlock_none s g m c h l : Inv s g -> g_wait g m = [] -> inv (dom (cos s)) (h, l) (upd (qs g) (S m) (tail (qs g (S m)))) ->
  Inv (set_lists s h l) (gstep g (TUnlock m c)).
Proof.
  intros I E L. destruct I. split; cbn; try done.
  - eapply inv_ext; [|exact L]. intros [|j]; unfold upd; cbn; [done|]. destruct (decide (S j = S m)) as [H|]; [|done]. injection H as ->. by rewrite E.
  - intros m' H. rewrite upd_at. destruct (decide (m' = m)); [split; [done|]|]; by apply v_hold0.
Qed.
Lemma grant_ok s g m c n ws h l : Inv s g -> g_wait g m = n :: ws -> inv (dom (cos s)) (h, l) (upd (qs g) (S m) (tail (qs g (S m)))) ->
  Inv (set_holder (set_lists s h l) (upd (holder s) m (Some n))) (gstep (gstep g (TUnlock m c)) (TGrant m n)).
Proof.
  intros I E L. assert (St : g_st g n = Waiting (RMutex m)) by (apply (v_wait _ _ I); rewrite E; left).
  assert (ND : NoDup (g_wait g m)) by apply (i_rep _ _ _ (v_list _ _ I) (S m)). rewrite E in ND. apply NoDup_cons in ND as [Hn ND].
  destruct I. split; cbn; try done.
  - eapply inv_ext; [|exact L]. intros [|j]; unfold upd; cbn; [done|]. destruct (decide (j = m)) as [-> |]; [by rewrite decide_True|]. by rewrite decide_False by congruence.
  - intros d. rewrite upd_at. destruct (decide (d = n)) as [-> |]; [|done]. rewrite v_dom0, St. done.
  - intros d. rewrite upd_at, v_pend0. destruct (decide (d = n)) as [-> |]; [|done]. by rewrite St.
  - intros m' d. rewrite !upd_at. destruct (decide (m' = m)) as [-> |Hm].
    + rewrite E. cbn [tail]. destruct (decide (d = n)) as [-> |]; [done|]. rewrite <- v_wait0, E, elem_of_cons. tauto.
    + rewrite v_wait0. destruct (decide (d = n)) as [-> |]; [|done]. rewrite St. split; [|done]. intros H. injection H as <-. done.
  - intros d. rewrite upd_at, v_sleep0. destruct (decide (d = n)) as [-> |]; [|done]. by rewrite St.
  - intros d fd m' H. rewrite upd_at. destruct (decide (d = n)) as [-> |]; [|by apply v_fd0]. apply v_fd0 in H. rewrite St in H. by destruct H.
  - intros d fd m'. rewrite upd_at. destruct (decide (d = n)) as [-> |]; [done|]. apply v_fd'0.
  - intros m' H. rewrite !upd_at in *. destruct (decide (m' = m)); [done|]. by apply v_hold0.
Qed.
Lemma locked_ok s g m c : Inv s g -> Inv (set_holder s (upd (holder s) m (Some c))) (gstep g (TLocked m c)).
Proof.
  intros I. destruct I. split; cbn; try done. intros m' H. rewrite !upd_at in *. destruct (decide (m' = m)); [done|]. by apply v_hold0.
Qed.
Lemma soon_ready s s' g c r : soon s g -> counter s' = counter s -> g_fd g c = None -> soon s' (gstep g (TReady c r)).
Proof.
  intros [[S0 S1] S2] E F. split; [split; [lia|]|].
  { intros d. cbn. rewrite upd_at. by destruct (decide (d = c)). }
  cbn. intros i d x Hi Hf. rewrite E. apply lookup_app_Some in Hi as [Hi|[_ Hi]].
  - by apply (S2 i d x).
  - apply list_lookup_singleton_Some in Hi as [_ Hi]. injection Hi as -> _. done.
Qed.
Lemma soon_same s s' g g' : soon s g -> counter s' = counter s -> g_pend g' = g_pend g -> g_due g' = g_due g ->
  (forall c, g_st g c = Ready -> g_fd g' c <> None -> g_fd g c <> None) -> Inv s g -> soon s' g'.
Proof.
  intros [S1 S2] E1 E2 E0 E3 I. split; rewrite E1; [unfold served; by rewrite E0|]. intros i d x. rewrite E2. intros Hi Hf. apply (S2 i d x Hi). apply E3; [|done].
  apply (v_pend _ _ I). apply elem_of_list_lookup_2 in Hi. by apply (elem_of_list_fmap_1 fst) in Hi.
Qed.

Lemma suspend_pre {A} (t : list tev) (x : M A) : bind (t, Ok tt) (fun _ => x) = (t ++ fst x, snd x).
Proof. cbn. by destruct x. Qed.
Lemma step_res s g ps a : Inv s g -> soon s g -> only s g -> Forall kernel_ok ps ->
  all_along allowed g (fst (step s ps a)) -> result_ok g (fst (step s ps a)) (snd (step s ps a)).
Proof.
  intros I S O K. destruct O as (c & Er & St & Un). unfold step. rewrite Er.
  assert (O : only s g) by (by exists c). assert (Hc := fd_running _ _ _ I St).
  destruct a as [n| | |d r| |fd w ok| |m|m|m].
  - (* spawn *)
    unfold emit. rewrite suspend_pre. cbn [fst snd]. rewrite all_along_app. cbn [all_along allowed]. intros [[(A1 & A2 & A3) _] _].
    assert (Hn : n <> c) by (intros ->; congruence).
    apply result_app; [done|]. cbn [at_end fold_left]. assert (I1 := spawn_ok s g c n I A1 A2 A3). cbv zeta in I1. cbv zeta.
    set (s1 := set_lists _ _ _) in *.
    destruct (resume_ok s1 _ c 0 I1) as (s2 & E2 & I2 & B2); try (cbn; rewrite upd_other by done; rewrite St; done).
    rewrite E2, bind_ok. cbn [fst snd app]. split.
    + cbn. rewrite upd_other by done. rewrite St. done.
    + cbn [at_end fold_left]. split; [by apply Inv_running|]. split; [|split; [|done]].
      * destruct B2 as (_ & B2 & _). eapply soon_ready; [|exact B2|exact Hc]. eapply soon_same; [exact S|done|done|done| |done]. done.
      * exists n. split; [done|]. cbn. split; [rewrite upd_other by done; by rewrite upd_same|]. intros d. rewrite !upd_at.
        destruct (decide (d = c)); [done|]. destruct (decide (d = n)); [done|]. intros H. by apply Un in H.
  - (* yield *)
    destruct (resume_ok s g c 0 I) as (s2 & E2 & I2 & B2); try (intros; rewrite St; done).
    rewrite E2, bind_ok. cbn [fst snd]. intros _. apply result_app; [cbn; by rewrite St|].
    apply suspend_ok; [done| | |done].
    + destruct B2 as (_ & B2 & _). eapply soon_ready; [exact S|exact B2|exact Hc].
    + intros d. cbn. rewrite upd_at. destruct (decide (d = c)); [done|]. intros H. by apply Un in H.
  - (* suspend *)
    unfold emit. rewrite suspend_pre. cbn [fst snd]. intros _. apply result_app; [done|].
    apply suspend_ok; [by apply park_ok| |by eapply none_susp|done]. eapply soon_same; [exact S|done|done|done| |done]. done.
  - (* resume *)
    unfold emit. rewrite suspend_pre. cbn [fst snd]. rewrite all_along_app. cbn [all_along allowed]. intros [[A _] _]. apply result_app; [done|]. cbn [at_end fold_left gstep].
    destruct (resume_ok s g d r I) as (s2 & E2 & I2 & B2); try (intros; rewrite A; done).
    rewrite E2, bind_ok. cbn [fst snd app]. split; [cbn; by rewrite A|]. cbn [at_end fold_left]. split; [done|].
    assert (Hd : g_fd g d = None). { destruct (g_fd g d) as [[fd m]|] eqn:E; [|done]. apply (v_fd _ _ I) in E. rewrite A in E. by destruct E. }
    destruct B2 as (B1 & B2 & _). split; [by eapply soon_ready|]. split; [|done]. exists c. rewrite B1. split; [done|]. cbn. rewrite upd_other by congruence. split; [done|].
    intros e. rewrite upd_at. destruct (decide (e = d)); [done|]. apply Un.
  - (* finish *)
    destruct (decide (c = 0%nat)); [by split|]. unfold emit. rewrite suspend_pre. cbn [fst snd]. intros _. apply result_app; [done|].
    apply suspend_ok; [by apply finish_ok| | |done].
    + eapply soon_same; [exact S|done|done|done| |done]. done.
    + intros d. cbn. rewrite upd_at. destruct (decide (d = c)); [done|]. intros H. by apply Un in H.
  - (* wait *)
    destruct ok; [|by split].
    destruct (proj2 (v_dom _ _ I c)) as [k Ek]; [by rewrite St|]. rewrite Ek. cbv zeta. set (mask := if w then 2%N else 1%N).
    unfold emit. rewrite suspend_pre. cbn [fst snd]. rewrite all_along_app. cbn [all_along allowed]. intros [[[A0 A] _] _]. apply result_app; [done|].
    assert (Eo : events s !! fd = None).
    { destruct (events s !! fd) as [[m d]|] eqn:E; [|done]. apply (v_ev _ _ I) in E. by apply A in E. }
    rewrite Eo. change (N.lor 0 mask) with mask. assert (I1 := wait_ok s g c k fd mask I St Ek A0 A). cbv zeta in I1.
    apply suspend_ok; [exact I1| |by eapply none_susp|done].
    eapply soon_same; [exact S|done|done|done| |done]. intros d Hd. cbn. rewrite upd_at. destruct (decide (d = c)) as [-> |]; [congruence|done].
  - (* sleep *)
    unfold emit. rewrite suspend_pre. cbn [fst snd]. intros _. apply result_app; [done|].
    apply suspend_ok; [by apply sleep_ok| |by eapply none_susp|done]. eapply soon_same; [exact S|done|done|done| |done]. done.
  - (* lock *)
    destruct (holder s m) as [o|] eqn:Eh.
    + unfold emit. rewrite suspend_pre. cbn [fst snd]. intros _. apply result_app; [done|].
      destruct (mutex_wait_ok s g c m I St) as (s1 & E1 & I1 & B1); [congruence|]. rewrite E1, bind_ok. cbn [fst snd app].
      destruct B1 as (_ & B1 & _). apply suspend_ok; [exact I1| |by eapply none_susp|done]. eapply soon_same; [exact S|exact B1|done|done| |done]. done.
    + unfold emit. rewrite suspend_pre. cbn [fst snd app ret]. intros _. split; [cbn; split; [by apply (v_hold _ _ I)|done]|].
      cbn [at_end fold_left]. split; [by apply locked_ok|]. split; [|split; [by exists c|done]]. eapply soon_same; [exact S|done|done|done| |done]. done.
  - (* trylock *)
    destruct (holder s m) as [o|] eqn:Eh; [by split|].
    unfold emit. rewrite suspend_pre. cbn [fst snd app ret]. intros _. split; [cbn; split; [by apply (v_hold _ _ I)|done]|].
    cbn [at_end fold_left]. split; [by apply locked_ok|]. split; [|split; [by exists c|done]]. eapply soon_same; [exact S|done|done|done| |done]. done.
  - (* unlock *)
    unfold emit. rewrite suspend_pre. cbn [fst snd]. rewrite all_along_app. cbn [all_along allowed]. intros [[A _] _]. apply result_app; [done|]. cbn [at_end fold_left].
    destruct (pop_ok s g (Datatypes.S m) I) as (h & l & E & L). rewrite E, bind_ok. cbn [fst snd app]. destruct (g_wait g m) as [|n ws] eqn:Ew.
    + cbn [qs]. rewrite Ew. cbn [head fst snd ret]. split; [done|]. cbn [at_end fold_left]. split; [by apply unlock_none|].
      split; [|split; [by exists c|done]]. eapply soon_same; [exact S|done|done|done| |done]. done.
    + cbn [qs]. rewrite Ew. cbn [head]. rewrite suspend_pre. cbn [fst snd]. 
      assert (Stn : g_st g n = Waiting (RMutex m)) by (apply (v_wait _ _ I); rewrite Ew; left).
      apply result_app; [cbn; rewrite upd_same, Ew; done|]. cbn [at_end fold_left].
      assert (I1 := grant_ok s g m c n ws h l I Ew L).
      destruct (resume_ok _ _ n 0 I1) as (s2 & E2 & I2 & B2); try (intros; cbn; rewrite upd_same; done).
      change (holder (set_lists s h l)) with (holder s). rewrite E2, bind_ok. cbn [fst snd app]. split; [cbn; rewrite upd_same; done|]. cbn [at_end fold_left]. split; [done|].
      assert (Hn : g_fd g n = None). { destruct (g_fd g n) as [[fd m']|] eqn:E'; [|done]. apply (v_fd _ _ I) in E'. rewrite Stn in E'. by destruct E'. }
      destruct B2 as (B1 & B2 & _). cbn in B1, B2. split; [|split; [|done]].
      * eapply soon_ready; [|exact B2|exact Hn]. eapply soon_same; [exact S|done|done|done| |done]. done.
      * exists c. rewrite B1. split; [done|]. cbn. rewrite !upd_other by congruence. split; [done|]. intros d. rewrite !upd_at. destruct (decide (d = n)); [done|]. apply Un.
Qed.
Lemma run_res acts : forall s g ps, Inv s g -> soon s g -> only s g -> Forall kernel_ok ps ->
  all_along allowed g (fst (run s ps acts)) -> result_ok g (fst (run s ps acts)) (snd (run s ps acts)).
Proof.
  induction acts as [|a acts IH]; intros s g ps I S O K; cbn [run].
  - intros _. by split.
  - intros A. assert (R := step_res s g ps a I S O K). destruct (step s ps a) as [t o]. cbn [fst snd] in R.
    destruct o as [[s' ps']| | | | |]; cbn [bind fst snd] in *; try (by apply R).
    cbn [fst snd] in *. destruct (run s' ps' acts) as [t' o'] eqn:E. cbn [fst snd] in *. apply all_along_app in A as [A1 A2]. destruct (R A1) as [R1 (R2 & R3 & R4 & R5)].
    apply result_app; [done|]. specialize (IH s' _ ps' R2 R3 R4 R5). rewrite E in IH. by apply IH.
Qed.
Lemma start_ok : Inv start ginit /\ soon start ginit /\ only start ginit.
Proof.
  split; [|split].
  - split; unfold start; cbn; try done; try lia.
    + eapply (inv_ext _ _ (fun _ => [])); [by intros []|]. rewrite dom_singleton_L.
      assert (X := init_inv {[0%nat]}). replace (fresh_links {[0%nat]}) with ({[0%nat := None]} : links) in X; [done|]. apply map_eq. intros i. unfold fresh_links.
      destruct (decide (i = 0%nat)) as [-> |].
      * rewrite lookup_singleton. symmetry. apply lookup_gset_to_gmap_Some. set_solver.
      * rewrite lookup_singleton_ne by done. symmetry. apply lookup_gset_to_gmap_None. set_solver.
    + intros c. destruct (decide (c = 0%nat)) as [-> |]; [rewrite lookup_singleton; split; [done|by eexists]|rewrite lookup_singleton_ne by done; split; [by intros []|done]].
    + intros c. rewrite elem_of_nil. by destruct (decide (c = 0%nat)).
    + intros c r H. by apply elem_of_nil in H.
    + intros m c. rewrite elem_of_nil. by destruct (decide (c = 0%nat)).
    + intros c. rewrite elem_of_nil. by destruct (decide (c = 0%nat)).
    + constructor.
    + constructor.
    + intros c k H. apply lookup_singleton_Some in H as [_ <-]. done.
    + intros c fd m. by destruct (decide (c = 0%nat)).
  - split; [done|]. intros i c r H. done.
  - exists 0%nat. cbn. split; [done|]. split; [done|]. intros d. by destruct (decide (d = 0%nat)).
Qed.

(** ** Reading traces *)
Lemma omap_cons_eq {A B} (f : A -> option B) x (l : list A) : omap f (x :: l) = match f x with Some y => y :: omap f l | None => omap f l end.
Proof. done. Qed.
Lemma pend_readies tr : forall g, all_along owed g tr -> g_pend g ++ readies tr = runs tr ++ g_pend (at_end g tr).
Proof.
  induction tr as [|e tr IH]; intros g A; [by rewrite app_nil_r|]. destruct A as [A1 A2]. specialize (IH _ A2).
  unfold readies, runs. rewrite !omap_cons_eq. fold (readies tr) (runs tr). cbn [at_end fold_left]. fold (at_end (gstep g e) tr).
  destruct e; cbn in IH; try exact IH.
  - by rewrite <- app_assoc in IH.
  - destruct A1 as [A1 _]. destruct (g_pend g) as [|x l] eqn:Ep; [done|]. cbn in A1. injection A1 as ->. cbn [tail] in IH. cbn [app]. rewrite IH. cbn [gstep]. by rewrite Ep.
Qed.
Lemma wait_arrivals m tr : forall g, all_along owed g tr -> g_wait g m ++ arrivals m tr = grants m tr ++ g_wait (at_end g tr) m.
Proof.
  induction tr as [|e tr IH]; intros g A; [by rewrite app_nil_r|]. destruct A as [A1 A2]. specialize (IH _ A2).
  unfold arrivals, grants. rewrite !omap_cons_eq. fold (arrivals m tr) (grants m tr). cbn [at_end fold_left]. fold (at_end (gstep g e) tr).
  destruct e as [| c [| | |m'] | | | | | | |m' c|]; cbn in IH; try exact IH.
  - rewrite upd_at in IH. destruct (decide (m' = m)) as [-> |].
    + rewrite decide_True in IH by done. by rewrite <- app_assoc in IH.
    + by rewrite decide_False in IH by congruence.
  - rewrite upd_at in IH. destruct (decide (m' = m)) as [-> |].
    + rewrite decide_True in IH by done. destruct A1 as [_ A1]. destruct (g_wait g m) as [|x l] eqn:Ep; [done|]. cbn in A1. injection A1 as ->. cbn [tail] in IH. cbn [app]. rewrite IH. cbn [gstep]. by rewrite Ep.
    + by rewrite decide_False in IH by congruence.
Qed.
(** Taking the mutex at once or from the unlocker. *)
Definition acquires (m c : nat) (e : tev) : Prop := e = TLocked m c \/ e = TGrant m c.
Lemma acquires_own m c e g : acquires m c e -> g_own (gstep g e) m = Some c.
Proof. intros [-> | ->]; cbn; by rewrite upd_same. Qed.
Lemma acquires_free m c e g : acquires m c e -> owed g e -> g_own g m = None.
Proof. by intros [-> | ->] H; destruct H || exact H. Qed.
Lemma held m c d e' tr : forall g t3, g_own g m = Some c -> acquires m d e' ->
  all_along owed g (tr ++ e' :: t3) -> all_along allowed g (tr ++ e' :: t3) -> TUnlock m c ∈ tr.
Proof.
  induction tr as [|e tr IH]; intros g t3 Ho Hd O A; cbn in O, A; destruct O as [O1 O2], A as [A1 A2].
  - apply (acquires_free _ _ _ _ Hd) in O1. congruence.
  - destruct (decide (g_own (gstep g e) m = Some c)) as [E|E].
    + right. by apply (IH (gstep g e) t3).
    + destruct e as [| | | | | |m' c'|m' c'|m' c'|]; cbn in E; try done.
      * rewrite upd_at in E. destruct (decide (m = m')) as [-> |]; [|done]. cbn in O1. congruence.
      * rewrite upd_at in E. destruct (decide (m = m')) as [-> |]; [|done]. cbn in A1. rewrite Ho in A1. injection A1 as ->. left.
      * rewrite upd_at in E. destruct (decide (m = m')) as [-> |]; [|done]. cbn in O1. destruct O1. congruence.
Qed.
Lemma run_from_start ps acts : Forall kernel_ok ps -> all_along allowed ginit (fst (run start ps acts)) ->
  result_ok ginit (fst (run start ps acts)) (snd (run start ps acts)).
Proof. intros K A. destruct start_ok as (I & S & O). by apply run_res. Qed.
Lemma ended g tr o : result_ok g tr o -> all_along owed g tr.
Proof. by intros []. Qed.

(** ** A mutex is found free once *)
Definition keeps {A} (get : A -> sched) (s : sched) (x : M A) : Prop :=
  (forall m, free_locks m (fst x) = []) /\ forall a, snd x = Ok a -> holder (get a) = holder s.
Lemma free_locks_app m t1 t2 : free_locks m (t1 ++ t2) = free_locks m t1 ++ free_locks m t2.
Proof. apply omap_app. Qed.
Local Arguments free_locks : simpl never.
Lemma keeps_bind {A B} (get : A -> sched) (get' : B -> sched) s (x : M A) (f : A -> M B) :
  keeps get s x -> (forall a, snd x = Ok a -> keeps get' (get a) (f a)) -> keeps get' s (bind x f).
Proof.
  intros [H1 H2] H. destruct x as [t [a| | | | |]]; cbn in *; try (by split).
  destruct (H a) as [H3 H4]; [done|]. destruct (f a) as [t' o]. cbn in *. split.
  - intros m. by rewrite (free_locks_app m t t' : free_locks m (fst (t ++ t', o)) = _), H1, H3.
  - intros b Hb. rewrite (H4 b Hb). by apply H2.
Qed.
Lemma keeps_emit e s : (forall m, free_locks m [e] = []) -> keeps (fun _ => s) s (emit e).
Proof. intros H. by split. Qed.
Lemma keeps_same {A} (get : A -> sched) s s' x : holder s' = holder s -> keeps get s' x -> keeps get s x.
Proof. intros E [H1 H2]. split; [done|]. intros a Ha. rewrite <- E. by apply H2. Qed.
Lemma keeps_push s i c : keeps id s (push_on s i c).
Proof. unfold push_on. destruct (push _ _ _) as [[h l]| |]; split; try done. intros a Ha. by injection Ha as <-. Qed.
Lemma keeps_pop s i : keeps fst s (pop_off s i).
Proof. unfold pop_off. destruct (pop _ _) as [[[h l] r]| |]; split; try done. intros a Ha. by injection Ha as <-. Qed.
Lemma keeps_resume s c r : keeps id s (resume s c r).
Proof.
  unfold resume. destruct (cos s !! c) as [k|]; [|done]. eapply (keeps_same _ _ (set_cos s (<[c := Co true r (c_wait k)]> (cos s)))); [done|].
  eapply keeps_bind; [apply keeps_push|]. intros s' _. cbn. split; [done|]. intros a Ha. by injection Ha as <-.
Qed.
Lemma keeps_ret {A} (get : A -> sched) a : keeps get (get a) (ret a).
Proof. split; [done|]. intros b Hb. by injection Hb as <-. Qed.
Lemma keeps_files fs : forall s, keeps id s (fire_files s fs).
Proof.
  induction fs as [|[fd mask] fs IH]; intros s; cbn [fire_files]; [apply (keeps_ret id)|].
  destruct (events s !! fd) as [[m c]|]; [|apply IH]. destruct (_ =? 0)%N; [apply IH|].
  eapply keeps_bind; [apply keeps_resume|]. intros s' _. apply IH.
Qed.
Lemma keeps_timers ts due : forall s, keeps id s (fire_timers s ts due).
Proof.
  induction ts as [|[i c] ts IH]; intros s; cbn [fire_timers]; [apply (keeps_ret id)|]. destruct (due c); [|apply IH].
  eapply keeps_same; [|eapply keeps_bind; [apply keeps_resume|]]; [done|]. intros s' _. apply IH.
Qed.
Lemma keeps_poll s p : keeps id s (poll s p).
Proof.
  unfold poll. eapply keeps_bind; [by apply (keeps_emit (TPoll p) s)|]. intros [] _. eapply keeps_bind; [apply keeps_files|]. intros s1 _.
  eapply keeps_bind; [apply keeps_timers|]. intros s2 _. eapply keeps_same; [|apply (keeps_ret id)]. done.
Qed.
Lemma keeps_switch s c : keeps id s (switch_to s c).
Proof.
  unfold switch_to. destruct (cos s !! c) as [k|]; [|done]. destruct (c_ready k); [|done].
  eapply keeps_bind; [by apply (keeps_emit (TRun c (c_result k)) s)|]. intros [] _. eapply keeps_same; [|apply (keeps_ret id)]. done.
Qed.
Lemma keeps_dispatch ps : forall s, keeps fst s (dispatch ps s).
Proof.
  induction ps as [|p ps IH]; intros s; cbn [dispatch]; (eapply keeps_bind; [apply keeps_pop|]); intros [s1 [c|]] _; cbn [fst]; try done.
  - eapply keeps_bind; [apply keeps_switch|]. intros s2 _. apply (keeps_ret fst (s2, [])).
  - eapply keeps_bind; [apply keeps_switch|]. intros s2 _. apply (keeps_ret fst (s2, p :: ps)).
  - eapply keeps_bind; [apply keeps_poll|]. intros s2 _. apply IH.
Qed.
Lemma keeps_suspend s ps : keeps fst s (suspend s ps).
Proof.
  unfold suspend. destruct (103 <=? counter s); [|apply keeps_dispatch]. destruct ps as [|p ps]; [done|].
  eapply keeps_bind; [apply keeps_poll|]. intros s2 _. apply keeps_dispatch.
Qed.
(** What a mutex goes through: found free at most once, and held from then on. *)
Definition once (m : nat) (s : sched) (x : M (sched * list poll_answer)) : Prop :=
  match holder s m with
  | Some _ => free_locks m (fst x) = [] /\ forall a, snd x = Ok a -> holder (fst a) m <> None
  | None => (length (free_locks m (fst x)) <= 1)%nat /\ forall a, snd x = Ok a -> free_locks m (fst x) <> [] -> holder (fst a) m <> None
  end.
Lemma keeps_once m s x : keeps fst s x -> once m s x.
Proof.
  intros [H1 H2]. unfold once. destruct (holder s m) eqn:E; rewrite H1.
  - split; [done|]. intros a Ha. rewrite (H2 a Ha). congruence.
  - split; [cbn; lia|]. done.
Qed.
Lemma locked_once m s ps m' c : holder s m' = None ->
  once m s (bind (emit (TLocked m' c)) (fun _ => ret (set_holder s (upd (holder s) m' (Some c)), ps))).
Proof.
  intros E. unfold once, free_locks. cbn. destruct (decide (m' = m)) as [-> |].
  - rewrite E. cbn. split; [lia|]. intros a Ha _. injection Ha as <-. cbn. by rewrite upd_same.
  - destruct (holder s m) eqn:Em; (split; [done || (cbn; lia)|]); intros a Ha; [injection Ha as <-|done]. cbn. rewrite upd_other by congruence. congruence.
Qed.
Lemma step_once m s ps a : once m s (step s ps a).
Proof.
  unfold step. destruct (running s) as [c|]; [|by apply keeps_once].
  destruct a as [n| | |d r| |fd w ok| |m'|m'|m'].
  1-7: apply keeps_once.
  - eapply keeps_bind; [by apply (keeps_emit (TSpawn c n) s)|]. intros [] _. cbv zeta.
    eapply keeps_same; [|eapply keeps_bind; [apply keeps_resume|]]; [done|]. intros s' _. apply (keeps_ret fst (set_running s' (Some n), ps)).
  - eapply keeps_bind; [apply keeps_resume|]. intros s' _. apply keeps_suspend.
  - eapply keeps_bind; [by apply (keeps_emit (TSusp c RPark) s)|]. intros [] _. apply keeps_suspend.
  - eapply keeps_bind; [by apply (keeps_emit (TResume c d r) s)|]. intros [] _. eapply keeps_bind; [apply keeps_resume|]. intros s' _. apply (keeps_ret fst (s', ps)).
  - destruct (decide (c = 0%nat)); [done|]. eapply keeps_bind; [by apply (keeps_emit (TFinish c) s)|]. intros [] _.
    eapply keeps_same; [|apply keeps_suspend]. done.
  - destruct ok; [|apply (keeps_ret fst (s, ps))]. destruct (cos s !! c) as [k|]; [|done]. cbv zeta.
    eapply keeps_bind; [by apply (keeps_emit (TSusp c (RFd fd (if w then 2%N else 1%N))) s)|]. intros [] _. eapply keeps_same; [|apply keeps_suspend]. done.
  - eapply keeps_bind; [by apply (keeps_emit (TSusp c RSleep) s)|]. intros [] _. eapply keeps_same; [|apply keeps_suspend]. done.
  - destruct (holder s m') eqn:E; [|by apply locked_once]. apply keeps_once.
    eapply keeps_bind; [by apply (keeps_emit (TSusp c (RMutex m')) s)|]. intros [] _. eapply keeps_bind; [apply keeps_push|]. intros s' _. apply keeps_suspend.
  - destruct (holder s m') eqn:E; [|by apply locked_once]. apply keeps_once. apply (keeps_ret fst (s, ps)).
  - unfold once. unfold emit. rewrite bind_ok. cbn [fst snd app]. destruct (keeps_pop s (S m')) as [P1 P2].
    destruct (pop_off s (S m')) as [t [[s1 [n|]]| | | | |]] eqn:Ep; cbn [bind fst snd] in *; rewrite ?P1.
    + assert (Eh := P2 _ eq_refl). cbn in Eh.
      set (s2 := set_holder s1 (upd (holder s1) m' (Some n))). destruct (keeps_resume s2 n 0) as [R1 R2].
      destruct (resume s2 n 0) as [t3 [s3| | | | |]] eqn:Er; cbn in *; rewrite ?app_nil_r, ?free_locks_app;
        unfold free_locks in *; cbn; rewrite ?omap_app, ?P1; cbn; rewrite ?R1; (destruct (holder s m) eqn:Em; (split; [done || (cbn; lia)|])); try done.
      intros a Ha. injection Ha as <-. cbn. rewrite (R2 _ eq_refl). cbn. rewrite upd_at. destruct (decide (m = m')); [done|]. rewrite Eh, Em. done.
    + assert (Eh := P2 _ eq_refl). cbn in Eh. unfold ret. cbn [fst snd]. rewrite app_nil_r. unfold free_locks in *; cbn. rewrite P1. destruct (holder s m) eqn:Em; (split; [done || (cbn; lia)|]).
      * intros a Ha. injection Ha as <-. cbn. rewrite Eh. congruence.
      * done.
    + unfold free_locks in *; cbn. rewrite P1. destruct (holder s m); (split; [done || (cbn; lia)|done]).
    + unfold free_locks in *; cbn. rewrite P1. destruct (holder s m); (split; [done || (cbn; lia)|done]).
    + unfold free_locks in *; cbn. rewrite P1. destruct (holder s m); (split; [done || (cbn; lia)|done]).
    + unfold free_locks in *; cbn. rewrite P1. destruct (holder s m); (split; [done || (cbn; lia)|done]).
    + unfold free_locks in *; cbn. rewrite P1. destruct (holder s m); (split; [done || (cbn; lia)|done]).
Qed.
Lemma run_once m acts : forall s ps, once m s (run s ps acts).
Proof.
  induction acts as [|a acts IH]; intros s ps; cbn [run].
  - apply keeps_once. apply (keeps_ret fst (s, ps)).
  - assert (H := step_once m s ps a). destruct (step s ps a) as [t [[s1 ps1]| | | | |]]; cbn [bind fst snd] in *; try exact H.
    assert (H' := IH s1 ps1). destruct (run s1 ps1 acts) as [t' o']. unfold once in *. cbn [fst snd] in *. rewrite free_locks_app.
    destruct (holder s m).
    + destruct H as [-> H]. specialize (H _ eq_refl). cbn in H. destruct (holder s1 m); [exact H'|done].
    + destruct H as [H0 H]. specialize (H _ eq_refl). cbn in H. destruct (holder s1 m).
      * destruct H' as [-> H']. rewrite app_nil_r. split; [done|]. intros. by apply H'.
      * destruct (free_locks m t); [exact H'|]. exfalso. by apply H.
Qed.

(** ** What waking does in a state that is reached *)
Lemma reached ps acts tr s ps' : run start ps acts = (tr, Ok (s, ps')) -> Forall kernel_ok ps -> all_along allowed ginit tr ->
  Inv s (at_end ginit tr) /\ only s (at_end ginit tr).
Proof. intros E K A. assert (R := run_from_start ps acts K). rewrite E in R. destruct (R A) as (_ & I & _ & O & _). done. Qed.
Lemma resume_step s g c d r ps : Inv s g -> running s = Some c -> g_st g d = Waiting RPark -> fst (step s ps (AResume d r)) = [TResume c d r; TReady d r].
Proof.
  intros I Er A. unfold step. rewrite Er. unfold emit. rewrite suspend_pre. cbn [fst].
  destruct (resume_ok s g d r I) as (s2 & E2 & _); try (intros; rewrite A; done). rewrite E2, bind_ok. done.
Qed.
Lemma unlock_step s g c m ps : Inv s g -> running s = Some c ->
  fst (step s ps (AUnlock m)) = TUnlock m c :: match g_wait g m with [] => [] | d :: _ => [TGrant m d; TReady d 0] end.
Proof.
  intros I Er. unfold step. rewrite Er. unfold emit. rewrite suspend_pre. cbn [fst].
  destruct (pop_ok s g (S m) I) as (h & l & E & L). rewrite E, bind_ok. cbn [fst snd app].
  destruct (g_wait g m) as [|n ws] eqn:Ew; cbn [qs]; rewrite Ew; cbn [head]; [done|]. rewrite suspend_pre. cbn [fst snd app].
  assert (I1 := grant_ok s g m c n ws h l I Ew L).
  destruct (resume_ok _ _ n 0 I1) as (s2 & E2 & _); try (intros; cbn; rewrite upd_same; done).
  change (holder (set_lists s h l)) with (holder s). by rewrite E2, bind_ok.
Qed.
