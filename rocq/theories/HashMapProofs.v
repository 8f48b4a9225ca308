From stdpp Require Import list numbers sets.
From Verif Require Import Cyclic HashMapModel HashMapSpec.

(** * Arithmetic of positions *)
Lemma nexti_eq cap i : (i < cap)%nat → nexti cap i = succ_wrap cap i.
Proof.
  intros Hi. unfold nexti, succ_wrap. destruct (Nat.ltb_spec (S i) cap).
  - by apply Nat.mod_small.
  - replace (S i) with cap by lia. apply Nat.mod_same. lia.
Qed.
Lemma nexti_pos cap h e : (h < cap)%nat → (e < cap)%nat →
  nexti cap (pos cap h e) = pos cap h (S e).
Proof. intros. rewrite nexti_eq by (by apply pos_lt). by apply succ_wrap_pos. Qed.
Lemma nexti_lt cap i : (i < cap)%nat → (nexti cap i < cap)%nat.
Proof. intros. rewrite nexti_eq by done. by apply succ_wrap_lt. Qed.
Lemma dist_nexti cap h i : (h < cap)%nat → (i < cap)%nat → (S (dist cap h i) < cap)%nat →
  dist cap h (nexti cap i) = S (dist cap h i).
Proof. intros. rewrite nexti_eq by done. by apply dist_succ_wrap. Qed.
Lemma dist_from_nexti cap i s : (s < cap)%nat → (i < cap)%nat → s ≠ i →
  S (dist cap (nexti cap i) s) = dist cap i s.
Proof. intros. rewrite nexti_eq by done. by apply dist_from_succ_wrap. Qed.

(** The unsigned probe distance: exact when it does not wrap, huge otherwise. *)
Lemma probe_small i h : (h ≤ i)%nat → (N.of_nat i < 2 ^ 60)%N →
  probe i h = N.of_nat (i - h).
Proof.
  intros Hi Hb. unfold probe.
  replace (N.of_nat i + 2 ^ 64 - N.of_nat h)%N
    with (N.of_nat (i - h) + 1 * 2 ^ 64)%N by lia.
  rewrite N.mod_add by lia. apply N.mod_small. lia.
Qed.
Lemma probe_big i h : (i < h)%nat → (N.of_nat h < 2 ^ 60)%N →
  (2 ^ 63 < probe i h)%N.
Proof.
  intros Hi Hb. unfold probe.
  rewrite N.mod_small by lia. lia.
Qed.
Lemma probe_zero cap i h : (i < cap)%nat → (h < cap)%nat → (N.of_nat cap ≤ 2 ^ 60)%N →
  probe i h = 0%N ↔ dist cap h i = 0%nat.
Proof.
  intros Hi Hh Hc. unfold dist. destruct (Nat.leb_spec h i).
  - rewrite probe_small by lia. lia.
  - assert (2 ^ 63 < probe i h)%N by (apply probe_big; lia). lia.
Qed.
(** What is needed of [probe]: it never underestimates the true distance. *)
Lemma probe_ge_dist cap i h : (i < cap)%nat → (h < cap)%nat → (N.of_nat cap ≤ 2 ^ 60)%N →
  (N.of_nat (dist cap h i) ≤ probe i h)%N.
Proof.
  intros Hi Hh Hc. unfold dist. destruct (Nat.leb_spec h i).
  - rewrite probe_small by lia. lia.
  - assert (2 ^ 63 < probe i h)%N by (apply probe_big; lia). lia.
Qed.
Lemma probe_lt_exact cap i h j : (i < cap)%nat → (h < cap)%nat → (N.of_nat cap ≤ 2 ^ 60)%N →
  (j < cap)%nat → (probe i h < N.of_nat j)%N →
  probe i h = N.of_nat (dist cap h i) ∧ (dist cap h i < j)%nat.
Proof.
  intros Hi Hh Hc Hj. unfold dist. destruct (Nat.leb_spec h i).
  - rewrite probe_small by lia. lia.
  - assert (2 ^ 63 < probe i h)%N by (apply probe_big; lia). lia.
Qed.

Section proofs.
Context {K V : Type} (hash : K → N) (eqb : K → K → bool).
Context (eqb_refl : ∀ a, eqb a a = true)
        (eqb_sym : ∀ a b, eqb a b = true → eqb b a = true)
        (eqb_trans : ∀ a b c, eqb a b = true → eqb b c = true → eqb a c = true)
        (hash_eqb : ∀ a b, eqb a b = true → hash a = hash b).

Notation node := (node K V).
Notation slots := (list (option node)).
Implicit Types d : slots.
Implicit Types nd : node.

Definition kv_of (o : option node) : list (K * V) :=
  match o with Some nd => [(nd_key nd, nd_val nd)] | None => [] end.
Definition entries (d : slots) : list (K * V) := each_calls d.
Local Arguments entries : simpl never.

Lemma entries_cons o d : entries (o :: d) = kv_of o ++ entries d.
Proof. by destruct o. Qed.
Lemma entries_insert d i old x : d !! i = Some old →
  kv_of old ++ entries (<[i := x]> d) ≡ₚ kv_of x ++ entries d.
Proof.
  revert i. induction d as [|o d IH]; intros i Hi; [done|].
  destruct i as [|i].
  - injection Hi as ->. cbn. rewrite !entries_cons.
    rewrite !app_assoc. apply Permutation_app_tail. apply Permutation_app_comm.
  - cbn in Hi |- *. rewrite !entries_cons.
    rewrite (Permutation_app_swap_app (kv_of old)), (IH _ Hi).
    apply Permutation_app_swap_app.
Qed.
Lemma elem_of_entries d kv : kv ∈ entries d ↔
  ∃ i nd, d !! i = Some (Some nd) ∧ kv = (nd_key nd, nd_val nd).
Proof.
  induction d as [|o d IH].
  - cbn. split; [set_solver|]. intros (i & nd & ? & _). done.
  - rewrite entries_cons, elem_of_app, IH. split.
    + intros [H|(i & nd & ? & ?)].
      * destruct o as [nd|]; cbn in H; [|set_solver].
        apply elem_of_list_singleton in H. by exists 0%nat, nd.
      * by exists (S i), nd.
    + intros (i & nd & H & ->). destruct i as [|i].
      * injection H as ->. left. cbn. set_solver.
      * right. eauto.
Qed.
Lemma entries_replicate n : entries (replicate n None) = [].
Proof. by induction n. Qed.
Lemma entries_length_le d : (length (entries d) ≤ length d)%nat.
Proof. induction d as [|[nd|] d IH]; [done|..]; rewrite entries_cons; cbn; lia. Qed.
Lemma entries_has_empty d : (length (entries d) < length d)%nat →
  ∃ i, d !! i = Some None.
Proof.
  induction d as [|[nd|] d IH]; [cbn; lia|..]; rewrite entries_cons; cbn; intros H;
    [|by exists 0%nat].
  destruct IH as [i Hi]; [lia|]. by exists (S i).
Qed.

(** * The table invariant *)
(** [reach d hole h t]: the first [t] slots of the path starting at home [h]
    are all occupied by entries whose probe distance is at least the path
    position (the slot [hole], if any, excepted). *)
Definition reach d (hole : option nat) (h t : nat) : Prop :=
  ∀ e, (e < t)%nat →
    hole = Some (pos (length d) h e) ∨
    ∃ nd, d !! pos (length d) h e = Some (Some nd) ∧
          (N.of_nat e ≤ probe (pos (length d) h e) (nd_home nd))%N.

Definition slots_ok d (hole : option nat) : Prop :=
  ∀ i nd, d !! i = Some (Some nd) →
    nd_home nd = home_of hash (length d) (nd_key nd) ∧
    reach d hole (nd_home nd) (dist (length d) (nd_home nd) i).

Definition uniq d : Prop :=
  ∀ i1 i2 n1 n2, d !! i1 = Some (Some n1) → d !! i2 = Some (Some n2) →
    eqb (nd_key n1) (nd_key n2) = true → i1 = i2.

Definition absent d (k : K) : Prop :=
  ∀ i nd, d !! i = Some (Some nd) → eqb (nd_key nd) k = false.

Definition small d : Prop := (N.of_nat (length d) ≤ 2 ^ 60)%N.

Lemma home_lt cap k : (0 < cap)%nat → (home_of hash cap k < cap)%nat.
Proof.
  intros. unfold home_of.
  assert (hash k mod N.of_nat cap < N.of_nat cap)%N by (apply N.mod_lt; lia). lia.
Qed.
Lemma home_eqb cap a b : eqb a b = true → home_of hash cap a = home_of hash cap b.
Proof. intros H. unfold home_of. by rewrite (hash_eqb _ _ H). Qed.

Lemma lookup_lt_pos d i x : d !! i = Some x → (0 < length d)%nat.
Proof. intros H%lookup_lt_Some. lia. Qed.

Lemma eqb_false_sym a b : eqb a b = false → eqb b a = false.
Proof.
  intros H. destruct (eqb b a) eqn:E; [|done].
  apply eqb_sym in E. congruence.
Qed.

Lemma slots_ok_home d hole i nd : slots_ok d hole → d !! i = Some (Some nd) →
  (nd_home nd < length d)%nat.
Proof.
  intros Hok Hi. destruct (Hok _ _ Hi) as [-> _]. apply home_lt.
  by eapply lookup_lt_pos.
Qed.

(** ** Insertion of an absent key *)
Lemma reach_empty d h t s : reach d None h t → (h < length d)%nat → d !! s = Some None →
  (t ≤ dist (length d) h s)%nat.
Proof.
  intros Hr Hh Hs. destruct (le_lt_dec t (dist (length d) h s)) as [|Hlt]; [done|].
  destruct (Hr _ Hlt) as [?|(nd & Hnd & _)]; [done|].
  rewrite pos_dist in Hnd by (done || by eapply lookup_lt_Some). congruence.
Qed.

Lemma reach_extend d h i nd : (i < length d)%nat → (h < length d)%nat →
  reach d None h (dist (length d) h i) → d !! i = Some (Some nd) →
  (N.of_nat (dist (length d) h i) ≤ probe i (nd_home nd))%N →
  reach d None h (S (dist (length d) h i)).
Proof.
  intros Hi Hh Hr Hnd Hp e He.
  destruct (decide (e = dist (length d) h i)) as [->|].
  - right. exists nd. rewrite pos_dist by done. done.
  - apply Hr. lia.
Qed.

(** Overwriting slot [i] by an entry with a probe at least as large keeps all
    paths intact. *)
Lemma reach_overwrite d h t i old x : reach d None h t →
  d !! i = Some (Some old) →
  (∀ e, (e < t)%nat → pos (length d) h e = i → (N.of_nat e ≤ probe i (nd_home old))%N →
        (N.of_nat e ≤ probe i (nd_home x))%N) →
  reach (<[i := Some x]> d) None h t.
Proof.
  unfold reach at 2. rewrite insert_length. intros Hr Hi Hx e He. right.
  destruct (Hr e He) as [?|(nd & Hnd & Hp)]; [done|].
  destruct (decide (pos (length d) h e = i)) as [E|E].
  - exists x. rewrite E, list_lookup_insert by (by eapply lookup_lt_Some). split; [done|].
    rewrite E in Hnd, Hp. rewrite Hnd in Hi. injection Hi as ->. eauto.
  - exists nd. by rewrite list_lookup_insert_ne.
Qed.
Lemma reach_fill d h t i x : reach d None h t → d !! i = Some None →
  reach (<[i := Some x]> d) None h t.
Proof.
  unfold reach at 2. rewrite insert_length. intros Hr Hi e He. right.
  destruct (Hr e He) as [?|(nd & Hnd & Hp)]; [done|].
  exists nd. rewrite list_lookup_insert_ne; [done|]. intros ->. congruence.
Qed.

Lemma uniq_fill d i x o : uniq d → d !! i = Some o →
  (∀ i' nd, i' ≠ i → d !! i' = Some (Some nd) → eqb (nd_key nd) (nd_key x) = false) →
  uniq (<[i := Some x]> d).
Proof.
  intros Hu Hi Ha i1 i2 n1 n2 H1 H2 E.
  assert (Hlt : (i < length d)%nat) by (by eapply lookup_lt_Some).
  destruct (decide (i1 = i)) as [->|N1], (decide (i2 = i)) as [->|N2]; [done|..].
  - rewrite list_lookup_insert in H1 by done. injection H1 as <-.
    rewrite list_lookup_insert_ne in H2 by done.
    apply eqb_sym in E. rewrite (Ha _ _ N2 H2) in E. done.
  - rewrite list_lookup_insert in H2 by done. injection H2 as <-.
    rewrite list_lookup_insert_ne in H1 by done.
    rewrite (Ha _ _ N1 H1) in E. done.
  - rewrite list_lookup_insert_ne in H1, H2 by done. by eapply Hu.
Qed.

Lemma insert_loop_absent fuel : ∀ d x i s rep,
  small d → slots_ok d None → uniq d →
  absent d (nd_key x) →
  nd_home x = home_of hash (length d) (nd_key x) →
  (i < length d)%nat →
  reach d None (nd_home x) (dist (length d) (nd_home x) i) →
  d !! s = Some None → (dist (length d) i s < fuel)%nat →
  ∃ d', insert_loop eqb fuel d i (N.of_nat (dist (length d) (nd_home x) i)) x rep
          = Ok (d', true) ∧
        length d' = length d ∧ slots_ok d' None ∧ uniq d' ∧
        entries d' ≡ₚ (nd_key x, nd_val x) :: entries d.
Proof.
  induction fuel as [|fuel IH]; intros d x i s rep Hsm Hok Hu Ha Hx Hi Hr Hs Hf; [lia|].
  assert (Hslt : (s < length d)%nat) by (by eapply lookup_lt_Some).
  assert (Hxlt : (nd_home x < length d)%nat) by (rewrite Hx; apply home_lt; lia).
  cbn [insert_loop].
  destruct (d !! i) as [[nd|]|] eqn:Hdi.
  - rewrite (Ha _ _ Hdi).
    assert (Hnh : (nd_home nd < length d)%nat) by (by eapply slots_ok_home).
    assert (Hne : s ≠ i) by congruence.
    destruct (N.ltb_spec (probe i (nd_home nd)) (N.of_nat (dist (length d) (nd_home x) i)))
      as [Hp|Hp].
    + (* displacement *)
      destruct (probe_lt_exact (length d) i (nd_home nd) (dist (length d) (nd_home x) i))
        as [Hpe Hpl]; [done..| |done|]; [by apply dist_lt|].
      destruct (Hok _ _ Hdi) as [Hnd Hrn].
      set (d1 := <[i := Some x]> d).
      assert (Hl1 : length d1 = length d) by apply insert_length.
      assert (Hpx : (N.of_nat (dist (length d) (nd_home x) i) ≤ probe i (nd_home x))%N)
        by (by apply probe_ge_dist).
      assert (Hov : ∀ h t, reach d None h t → reach d1 None h t).
      { intros h t Hrt. eapply reach_overwrite; [done..|]. intros. lia. }
      assert (Hok1 : slots_ok d1 None).
      { intros i' nd' H'. rewrite Hl1. unfold d1 in H'.
        destruct (decide (i' = i)) as [->|].
        - rewrite list_lookup_insert in H' by done. injection H' as <-.
          split; [done|]. by apply Hov.
        - rewrite list_lookup_insert_ne in H' by done.
          destruct (Hok _ _ H') as [? ?]. split; [done|]. by apply Hov. }
      assert (Hu1 : uniq d1).
      { eapply uniq_fill; [done..|]. intros i' nd' _ H'. by eapply Ha. }
      assert (Ha1 : absent d1 (nd_key nd)).
      { intros i' nd' H'. unfold d1 in H'. destruct (decide (i' = i)) as [->|Hi'].
        - rewrite list_lookup_insert in H' by done. injection H' as <-.
          apply eqb_false_sym. by eapply Ha.
        - rewrite list_lookup_insert_ne in H' by done.
          destruct (eqb (nd_key nd') (nd_key nd)) eqn:E; [|done].
          exfalso. apply Hi'. by eapply Hu. }
      assert (Hs1 : d1 !! s = Some None) by (unfold d1; by rewrite list_lookup_insert_ne).
      assert (Hd1i : d1 !! i = Some (Some x)) by (unfold d1; by rewrite list_lookup_insert).
      assert (Hrn1 : reach d1 None (nd_home nd) (S (dist (length d1) (nd_home nd) i))).
      { rewrite Hl1. rewrite <- Hl1. eapply reach_extend; rewrite ?Hl1; try done.
        - by apply Hov.
        - lia. }
      assert (Hdlt : (S (dist (length d) (nd_home nd) i) < length d)%nat).
      { eapply Nat.le_lt_trans; [|apply (dist_lt (length d) (nd_home nd) s); done].
        rewrite <- Hl1. eapply reach_empty; [done| |done]. by rewrite Hl1. }
      rewrite Hpe.
      replace (N.of_nat (dist (length d) (nd_home nd) i) + 1)%N
        with (N.of_nat (dist (length d1) (nd_home nd) (nexti (length d) i))).
      2:{ rewrite Hl1, dist_nexti by done. lia. }
      destruct (IH d1 nd (nexti (length d) i) s rep) as (d' & -> & Hl' & Hok' & Hu' & He');
        rewrite ?Hl1; try done.
      * unfold small. by rewrite Hl1.
      * by apply nexti_lt.
      * rewrite dist_nexti by done. by rewrite Hl1 in Hrn1.
      * pose proof (dist_from_nexti (length d) i s). lia.
      * exists d'. split; [done|]. split; [lia|]. split; [done|]. split; [done|].
        rewrite He'. apply (entries_insert d i (Some nd) (Some x) Hdi).
    + (* step over *)
      assert (Hr' : reach d None (nd_home x) (S (dist (length d) (nd_home x) i)))
        by (by eapply reach_extend).
      assert (Hdlt : (S (dist (length d) (nd_home x) i) < length d)%nat).
      { eapply Nat.le_lt_trans; [|apply (dist_lt (length d) (nd_home x) s); done].
        by eapply reach_empty. }
      replace (N.of_nat (dist (length d) (nd_home x) i) + 1)%N
        with (N.of_nat (dist (length d) (nd_home x) (nexti (length d) i))).
      2:{ rewrite dist_nexti by done. lia. }
      apply (IH d x (nexti (length d) i) s rep); try done.
      * by apply nexti_lt.
      * by rewrite dist_nexti.
      * pose proof (dist_from_nexti (length d) i s). lia.
  - (* empty slot *)
    eexists. split; [done|]. rewrite insert_length. split; [done|].
    split_and!.
    + intros i' nd' H'. rewrite insert_length.
      destruct (decide (i' = i)) as [->|].
      * rewrite list_lookup_insert in H' by done. injection H' as <-.
        split; [done|]. by apply reach_fill.
      * rewrite list_lookup_insert_ne in H' by done.
        destruct (Hok _ _ H') as [? ?]. split; [done|]. by apply reach_fill.
    + eapply uniq_fill; [done..|]. intros i' nd' _ H'. by eapply Ha.
    + apply (entries_insert d i None (Some x) Hdi).
  - apply lookup_ge_None in Hdi. lia.
Qed.

(** ** Insertion of a key that is present *)
Lemma insert_loop_present fuel : ∀ d x i s nds rep,
  small d → slots_ok d None → uniq d →
  nd_home x = home_of hash (length d) (nd_key x) →
  (i < length d)%nat →
  d !! s = Some (Some nds) → eqb (nd_key nds) (nd_key x) = true →
  (dist (length d) (nd_home x) i ≤ dist (length d) (nd_home x) s)%nat →
  (dist (length d) (nd_home x) s < fuel + dist (length d) (nd_home x) i)%nat →
  insert_loop eqb fuel d i (N.of_nat (dist (length d) (nd_home x) i)) x rep
    = Ok (if rep then <[s := Some x]> d else d, false).
Proof.
  induction fuel as [|fuel IH]; intros d x i s nds rep Hsm Hok Hu Hx Hi Hs He Hle Hf; [lia|].
  assert (Hslt : (s < length d)%nat) by (by eapply lookup_lt_Some).
  assert (Hxlt : (nd_home x < length d)%nat) by (rewrite Hx; apply home_lt; lia).
  cbn [insert_loop].
  destruct (decide (i = s)) as [->|Hne].
  { rewrite Hs, He. done. }
  assert (Hhs : nd_home nds = nd_home x).
  { destruct (Hok _ _ Hs) as [-> _]. rewrite Hx. by apply home_eqb. }
  destruct (Hok _ _ Hs) as [_ Hrs]. rewrite Hhs in Hrs.
  assert (Hlt : (dist (length d) (nd_home x) i < dist (length d) (nd_home x) s)%nat).
  { assert (dist (length d) (nd_home x) i ≠ dist (length d) (nd_home x) s); [|lia].
    intros E. apply Hne.
    rewrite <- (pos_dist (length d) (nd_home x) i), E, pos_dist; done. }
  destruct (Hrs _ Hlt) as [?|(nd & Hnd & Hp)]; [done|].
  rewrite pos_dist in Hnd, Hp by done. rewrite Hnd.
  destruct (eqb (nd_key nd) (nd_key x)) eqn:E.
  { exfalso. apply Hne. eapply Hu; [done..|].
    eapply eqb_trans; [done|]. by apply eqb_sym. }
  destruct (N.ltb_spec (probe i (nd_home nd)) (N.of_nat (dist (length d) (nd_home x) i))); [lia|].
  assert (dist (length d) (nd_home x) s < length d)%nat by (by apply dist_lt).
  replace (N.of_nat (dist (length d) (nd_home x) i) + 1)%N
    with (N.of_nat (dist (length d) (nd_home x) (nexti (length d) i))).
  2:{ rewrite dist_nexti by lia. lia. }
  apply (IH d x (nexti (length d) i) s nds rep); try done.
  - by apply nexti_lt.
  - rewrite dist_nexti by lia. lia.
  - rewrite dist_nexti by lia. lia.
Qed.

(** ** Lookup *)
Lemma get_loop_present fuel : ∀ d k i s nds,
  small d → slots_ok d None → uniq d →
  (i < length d)%nat →
  d !! s = Some (Some nds) → eqb (nd_key nds) k = true →
  (dist (length d) (home_of hash (length d) k) i ≤ dist (length d) (home_of hash (length d) k) s)%nat →
  (dist (length d) (home_of hash (length d) k) s < fuel + dist (length d) (home_of hash (length d) k) i)%nat →
  get_loop eqb fuel d i (N.of_nat (dist (length d) (home_of hash (length d) k) i)) k = Ok (Some s).
Proof.
  induction fuel as [|fuel IH]; intros d k i s nds Hsm Hok Hu Hi Hs He Hle Hf; [lia|].
  assert (Hslt : (s < length d)%nat) by (by eapply lookup_lt_Some).
  assert (Hhlt : (home_of hash (length d) k < length d)%nat) by (apply home_lt; lia).
  assert (Hhs : nd_home nds = home_of hash (length d) k).
  { destruct (Hok _ _ Hs) as [-> _]. by apply home_eqb. }
  set (h := home_of hash (length d) k) in *.
  cbn [get_loop].
  destruct (decide (i = s)) as [->|Hne].
  { rewrite Hs, He, Hhs.
    destruct (N.ltb_spec (probe s h) (N.of_nat (dist (length d) h s))) as [Hp|]; [|done].
    pose proof (probe_ge_dist (length d) s h Hslt Hhlt Hsm). lia. }
  destruct (Hok _ _ Hs) as [_ Hrs]. rewrite Hhs in Hrs.
  assert (Hlt : (dist (length d) h i < dist (length d) h s)%nat).
  { assert (dist (length d) h i ≠ dist (length d) h s); [|lia].
    intros E. apply Hne.
    rewrite <- (pos_dist (length d) h i), E, pos_dist; done. }
  destruct (Hrs _ Hlt) as [?|(nd & Hnd & Hp)]; [done|].
  rewrite pos_dist in Hnd, Hp by done. rewrite Hnd.
  destruct (N.ltb_spec (probe i (nd_home nd)) (N.of_nat (dist (length d) h i))); [lia|].
  destruct (eqb (nd_key nd) k) eqn:E.
  { exfalso. apply Hne. eapply Hu; [done..|].
    eapply eqb_trans; [done|]. by apply eqb_sym. }
  assert (dist (length d) h s < length d)%nat by (by apply dist_lt).
  replace (N.of_nat (dist (length d) h i) + 1)%N
    with (N.of_nat (dist (length d) h (nexti (length d) i))).
  2:{ rewrite dist_nexti by lia. lia. }
  unfold h. eapply (IH d k (nexti (length d) i) s nds); try done.
  - by apply nexti_lt.
  - fold h. rewrite dist_nexti by lia. lia.
  - fold h. rewrite dist_nexti by lia. lia.
Qed.

Lemma get_loop_absent fuel : ∀ d k i j s,
  absent d k → (i < length d)%nat →
  d !! s = Some None → (dist (length d) i s < fuel)%nat →
  get_loop eqb fuel d i j k = Ok None.
Proof.
  induction fuel as [|fuel IH]; intros d k i j s Ha Hi Hs Hf; [lia|].
  cbn [get_loop].
  destruct (d !! i) as [[nd|]|] eqn:Hdi; [|done|apply lookup_ge_None in Hdi; lia].
  destruct (_ <? _)%N; [done|].
  rewrite (Ha _ _ Hdi).
  assert (Hne : s ≠ i) by congruence.
  assert (Hslt : (s < length d)%nat) by (by eapply lookup_lt_Some).
  apply (IH d k (nexti (length d) i) (j + 1)%N s); try done.
  - by apply nexti_lt.
  - pose proof (dist_from_nexti (length d) i s). lia.
Qed.

(** ** Back-shift removal *)
(** The back-shift started at the freshly emptied slot [i] moves the entry of
    slot 0 back to the last slot. *)
Fixpoint shift_crosses (fuel : nat) (d : slots) (i : nat) : bool :=
  match fuel with
  | O => false
  | S f =>
    let ni := nexti (length d) i in
    match d !! ni with
    | Some (Some nd) =>
      if (0 <? probe ni (nd_home nd))%N then
        if decide (ni = 0)%nat then true
        else shift_crosses f (<[ni := None]> (<[i := Some nd]> d)) ni
      else false
    | _ => false
    end
  end.

Lemma backshift_stop d i : (i < length d)%nat → (1 < length d)%nat → small d →
  slots_ok d (Some i) → d !! i = Some None →
  (∀ nd, d !! nexti (length d) i = Some (Some nd) → nd_home nd = nexti (length d) i) →
  slots_ok d None.
Proof.
  intros Hi Hl Hsm Hok Hdi Hstop k nd Hk. destruct (Hok _ _ Hk) as [Hh Hr].
  split; [done|].
  assert (Hhl : (nd_home nd < length d)%nat) by (by eapply slots_ok_home).
  assert (Hkl : (k < length d)%nat) by (by eapply lookup_lt_Some).
  pose proof (dist_lt _ _ _ Hhl Hkl) as Hdl.
  intros e He. destruct (Hr e He) as [E|?]; [|by right].
  exfalso. injection E as E.
  assert (En : nexti (length d) i = pos (length d) (nd_home nd) (S e)).
  { rewrite E. apply nexti_pos; lia. }
  destruct (decide (S e = dist (length d) (nd_home nd) k)) as [E'|].
  - rewrite E', pos_dist in En by done.
    rewrite <- En in Hk. specialize (Hstop _ Hk).
    rewrite <- En, <- Hstop, dist_self in He. lia.
  - destruct (Hr (S e)) as [E2|(nd' & Hnd' & Hp)]; [lia| |].
    + injection E2 as E2. rewrite E in E2. apply pos_inj in E2; lia.
    + rewrite <- En in Hnd', Hp. specialize (Hstop _ Hnd').
      assert (probe (nexti (length d) i) (nd_home nd') = 0)%N as E0.
      { apply (probe_zero (length d)); [by apply nexti_lt|..|done|].
        - by eapply slots_ok_home.
        - rewrite Hstop. apply dist_self. }
      lia.
Qed.

Lemma backshift_ok fuel : ∀ d i s,
  (i < length d)%nat → small d → slots_ok d (Some i) → uniq d →
  d !! i = Some None → d !! s = Some None → s ≠ i →
  (dist (length d) i s < fuel)%nat →
  shift_crosses fuel d i = false →
  ∃ d', backshift fuel d i = Ok d' ∧ length d' = length d ∧
        slots_ok d' None ∧ uniq d' ∧ entries d' ≡ₚ entries d.
Proof.
  induction fuel as [|fuel IH]; intros d i s Hi Hsm Hok Hu Hdi Hs Hne Hf Hx; [lia|].
  assert (Hsl : (s < length d)%nat) by (by eapply lookup_lt_Some).
  assert (Hl : (1 < length d)%nat) by lia.
  cbn [backshift shift_crosses] in *.
  pose proof (nexti_lt _ _ Hi) as Hnl.
  destruct (d !! nexti (length d) i) as [[y|]|] eqn:Hdn.
  - assert (Hyl : (nd_home y < length d)%nat) by (by eapply slots_ok_home).
    destruct (N.ltb_spec 0 (probe (nexti (length d) i) (nd_home y))) as [Hp|Hp].
    + destruct (decide (nexti (length d) i = 0%nat)) as [|Hn0]; [done|].
      set (ni := nexti (length d) i) in *.
      assert (Hni : ni = S i).
      { unfold ni in *. rewrite nexti_eq in * by done. cyc. }
      assert (Hyne : nd_home y ≠ ni).
      { intros E. assert (probe ni (nd_home y) = 0%N); [|lia].
        apply (probe_zero (length d)); [done..|]. rewrite E. apply dist_self. }
      destruct (Hok _ _ Hdn) as [Hyh Hyr].
      assert (Hdy : dist (length d) (nd_home y) ni = S (dist (length d) (nd_home y) i)).
      { rewrite Hni. cyc. }
      assert (Hpi : ∀ e, (N.of_nat (S e) ≤ probe ni (nd_home y))%N →
                         (N.of_nat e ≤ probe i (nd_home y))%N ∨ (2 ^ 60 < N.of_nat e)%N).
      { intros e He. destruct (le_lt_dec (nd_home y) ni) as [Hle|Hgt].
        - unfold small in Hsm. rewrite probe_small in He |- * by lia. lia.
        - unfold small in Hsm.
          assert (2 ^ 63 < probe i (nd_home y))%N by (apply probe_big; lia). lia. }
      set (d1 := <[ni := None]> (<[i := Some y]> d)).
      assert (Hl1 : length d1 = length d) by (unfold d1; by rewrite !insert_length).
      assert (H1i : d1 !! i = Some (Some y)).
      { unfold d1. rewrite list_lookup_insert_ne by lia. by rewrite list_lookup_insert. }
      assert (H1n : d1 !! ni = Some None).
      { unfold d1. apply list_lookup_insert. by rewrite insert_length. }
      assert (H1o : ∀ k, k ≠ i → k ≠ ni → d1 !! k = d !! k).
      { intros k ??. unfold d1. by rewrite !list_lookup_insert_ne by done. }
      assert (Hsn : s ≠ ni) by congruence.
      assert (Hok1 : slots_ok d1 (Some ni)).
      { intros k nd Hk. rewrite Hl1.
        destruct (decide (k = ni)) as [->|Hkn]; [congruence|].
        destruct (decide (k = i)) as [->|Hki].
        - rewrite H1i in Hk. injection Hk as <-. split; [done|].
          intros e He. rewrite Hl1.
          pose proof (dist_lt (length d) (nd_home y) ni).
          destruct (Hyr e) as [E|(nd' & Hnd' & Hp')]; [lia| |].
          + injection E as E. rewrite <- (dist_pos (length d) (nd_home y) e), <- E in He by lia. lia.
          + right. exists nd'. split; [|done].
            rewrite H1o; [done|..]; intros E.
            * rewrite <- (dist_pos (length d) (nd_home y) e), E in He by lia. lia.
            * rewrite <- (dist_pos (length d) (nd_home y) e), E in He by lia. lia.
        - rewrite (H1o _ Hki Hkn) in Hk. destruct (Hok _ _ Hk) as [Hh Hr].
          assert (Hhl : (nd_home nd < length d)%nat) by (by eapply slots_ok_home).
          assert (Hkl : (k < length d)%nat) by (by eapply lookup_lt_Some).
          pose proof (dist_lt _ _ _ Hhl Hkl) as Hdl.
          split; [done|]. intros e He. rewrite Hl1.
          destruct (decide (pos (length d) (nd_home nd) e = ni)) as [->|Hen]; [by left|].
          right.
          destruct (decide (pos (length d) (nd_home nd) e = i)) as [E|Hei].
          + exists y. rewrite E. split; [done|].
            assert (En : ni = pos (length d) (nd_home nd) (S e)).
            { unfold ni. rewrite <- E. apply nexti_pos; lia. }
            destruct (decide (S e = dist (length d) (nd_home nd) k)) as [E'|].
            { rewrite E', pos_dist in En by done. congruence. }
            destruct (Hr (S e)) as [E2|(nd' & Hnd' & Hp')]; [lia|congruence|].
            rewrite <- En in Hnd', Hp'. rewrite Hdn in Hnd'. injection Hnd' as <-.
            destruct (Hpi _ Hp'); [done|]. unfold small in Hsm. lia.
          + destruct (Hr e He) as [E|(nd' & Hnd' & Hp')]; [congruence|].
            exists nd'. split; [|done]. by rewrite H1o. }
      assert (Hu1 : uniq d1).
      { assert (Hback : ∀ k nd, d1 !! k = Some (Some nd) →
          ∃ k', d !! k' = Some (Some nd) ∧ (k = if decide (k' = ni) then i else k')).
        { intros k nd Hk. destruct (decide (k = ni)) as [->|]; [congruence|].
          destruct (decide (k = i)) as [->|].
          - rewrite H1i in Hk. injection Hk as <-. exists ni. by rewrite decide_True.
          - rewrite H1o in Hk by done. exists k. by rewrite decide_False. }
        intros k1 k2 n1 n2 G1 G2 E.
        destruct (Hback _ _ G1) as (k1' & G1' & ->), (Hback _ _ G2) as (k2' & G2' & ->).
        by rewrite (Hu _ _ _ _ G1' G2' E). }
      assert (He1 : entries d1 ≡ₚ entries d).
      { apply (Permutation_app_inv_l (kv_of (Some y))).
        rewrite <- (entries_insert d i None (Some y) Hdi). cbn [kv_of app].
        apply (entries_insert (<[i:=Some y]> d) ni (Some y) None).
        rewrite list_lookup_insert_ne by lia. done. }
      destruct (IH d1 ni s) as (d' & -> & Hl' & Hok' & Hu' & He'); rewrite ?Hl1; try done.
      * unfold small. by rewrite Hl1.
      * by rewrite H1o.
      * pose proof (dist_from_nexti (length d) i s) as Hd. fold ni in Hd. lia.
      * exists d'. split_and!; [done|lia|done|done|]. by rewrite He'.
    + exists d. split_and!; try done.
      apply (backshift_stop d i); try done. intros nd Hnd. rewrite Hdn in Hnd. injection Hnd as <-.
      assert (probe (nexti (length d) i) (nd_home y) = 0%N) as E0 by lia.
      apply (probe_zero (length d)) in E0; [|done..].
      symmetry. by eapply dist_0.
  - exists d. split_and!; try done.
    apply (backshift_stop d i); try done. intros nd Hnd. congruence.
  - apply lookup_ge_None in Hdn. lia.
Qed.

(** * Map-level invariant *)
Notation hmap := (hmap K V).
Definition Inv0 (m : hmap) : Prop :=
  small (hm_data m) ∧ slots_ok (hm_data m) None ∧ uniq (hm_data m) ∧
  hm_size m = N.of_nat (length (entries (hm_data m))).
Definition Inv (m : hmap) : Prop :=
  Inv0 m ∧ (length (hm_data m) = 0%nat ∨
            (length (entries (hm_data m)) < length (hm_data m))%nat).

Lemma absent_entries d k : absent d k ↔ ∀ kv, kv ∈ entries d → eqb (fst kv) k = false.
Proof.
  split.
  - intros Ha kv (i & nd & Hi & ->)%elem_of_entries. by eapply Ha.
  - intros H i nd Hi. apply (H (nd_key nd, nd_val nd)). apply elem_of_entries. eauto.
Qed.

Lemma absent_dec d k : absent d k ∨
  ∃ s nd, d !! s = Some (Some nd) ∧ eqb (nd_key nd) k = true.
Proof.
  induction d as [|o d IH].
  - left. intros i nd H. done.
  - destruct IH as [IH|(s & nd & ? & ?)].
    + destruct o as [nd|].
      * destruct (eqb (nd_key nd) k) eqn:E.
        -- right. by exists 0%nat, nd.
        -- left. intros [|i] nd' H'; cbn in H'; [by simplify_eq|by eapply IH].
      * left. intros [|i] nd' H'; cbn in H'; [by simplify_eq|by eapply IH].
    + right. by exists (S s), nd.
Qed.

(** ** Sizes *)
Lemma double_until_ge fuel : ∀ last size, (size ≤ last * 2 ^ N.of_nat fuel)%N →
  (size ≤ double_until fuel last size)%N.
Proof.
  induction fuel as [|fuel IH]; intros last size H.
  - cbn in *. lia.
  - cbn [double_until]. destruct (N.ltb_spec last size); [|done].
    apply IH. rewrite N.shiftl_mul_pow2.
    rewrite Nat2N.inj_succ, N.pow_succ_r' in H. lia.
Qed.
Lemma ideal_size_gt n : (n < 2 ^ 64)%N → (n < ideal_size n)%N.
Proof.
  intros Hn. unfold ideal_size.
  assert (Hq : (n + 1 ≤ 10 * (n + 1) / 9)%N).
  { apply N.div_le_lower_bound; lia. }
  assert (Hq2 : (10 * (n + 1) / 9 ≤ 2 * (n + 1))%N).
  { apply N.div_le_upper_bound; lia. }
  set (q := (10 * (n + 1) / 9)%N) in *.
  destruct (list_find _ _) as [[i p]|] eqn:E.
  - apply list_find_Some in E as (_ & Hp & _). lia.
  - apply N.lt_le_trans with q; [lia|]. apply double_until_ge.
    change (2 ^ N.of_nat 64)%N with 18446744073709551616%N. lia.
Qed.

Lemma alloc_cases n : (@alloc K V n = OutOfMemory) ∨
  ((n < 2 ^ 60)%N ∧ @alloc K V n = Ok (replicate (N.to_nat n) None)).
Proof. unfold alloc. destruct (N.ltb_spec n (2 ^ 60)); auto. Qed.

Lemma replicate_ok n : (n < 2 ^ 60)%N →
  Inv0 (HMap (replicate (N.to_nat n) None) 0).
Proof.
  intros Hn. split_and!; cbn.
  - unfold small. rewrite replicate_length. lia.
  - intros i nd Hi. apply lookup_replicate in Hi as [? _]. done.
  - intros i1 i2 n1 n2 Hi. apply lookup_replicate in Hi as [? _]. done.
  - by rewrite entries_replicate.
Qed.

(** ** insert_internal *)
Lemma Inv0_eta m : Inv0 m → Inv0 (HMap (hm_data m) (hm_size m)).
Proof. done. Qed.

Lemma free_slot m : Inv0 m → (length (entries (hm_data m)) < length (hm_data m))%nat →
  ∃ s, hm_data m !! s = Some None.
Proof. intros _ H. by apply entries_has_empty. Qed.

Lemma insert_loop_start_absent d k v rep :
  small d → slots_ok d None → uniq d → absent d k →
  (length (entries d) < length d)%nat →
  ∃ d', insert_loop eqb (S (length d)) d (home_of hash (length d) k) 0
          (Node (home_of hash (length d) k) k v) rep = Ok (d', true) ∧
        length d' = length d ∧ slots_ok d' None ∧ uniq d' ∧
        entries d' ≡ₚ (k, v) :: entries d.
Proof.
  intros Hsm Hok Hu Ha Hfree.
  destruct (entries_has_empty d Hfree) as [s Hs].
  assert (Hsl : (s < length d)%nat) by (by eapply lookup_lt_Some).
  assert (Hhl : (home_of hash (length d) k < length d)%nat) by (apply home_lt; lia).
  set (x := Node (home_of hash (length d) k) k v).
  replace 0%N with (N.of_nat (dist (length d) (nd_home x) (home_of hash (length d) k)))
    by (cbn; by rewrite dist_self).
  apply (insert_loop_absent (S (length d)) d x (home_of hash (length d) k) s rep); try done.
  - cbn. rewrite dist_self. intros e He. lia.
  - pose proof (dist_lt (length d) (home_of hash (length d) k) s). lia.
Qed.

Lemma insert_internal_absent m k v rep :
  Inv m → absent (hm_data m) k →
  ∃ m', insert_internal hash eqb m k v rep = Ok (m', true) ∧ Inv0 m' ∧
        (hm_size m' = hm_size m + 1)%N ∧
        entries (hm_data m') ≡ₚ (k, v) :: entries (hm_data m) ∧
        (length (hm_data m) ≠ 0%nat → length (hm_data m') = length (hm_data m)).
Proof.
  intros [(Hsm & Hok & Hu & Hsz) Hfree] Ha. unfold insert_internal.
  destruct (decide (length (hm_data m) = 0%nat)) as [H0|H0].
  - change (alloc (ideal_size 1)) with (@Ok (slots) (replicate 5 None)). cbn [rbind].
    destruct (replicate_ok 5) as (Hsm' & Hok' & Hu' & _); [lia|]. cbn [hm_data] in *.
    change (N.to_nat 5) with 5%nat in *.
    destruct (insert_loop_start_absent (replicate 5 None) k v rep) as (d' & -> & Hl & Hok2 & Hu2 & He);
      try done.
    { intros i nd Hi. apply lookup_replicate in Hi as [? _]. done. }
    { rewrite entries_replicate. cbn. lia. }
    cbn [rbind fst snd].
    assert (E : entries (hm_data m) = []).
    { destruct (hm_data m); [done|]. cbn in H0. lia. }
    eexists. split; [done|]. unfold Inv0. cbn [hm_data hm_size]. split_and!; try done.
    + unfold small. rewrite Hl. done.
    + cbn. rewrite He, entries_replicate, Hsz, E. done.
    + rewrite He, E, entries_replicate. done.
  - destruct Hfree as [|Hfree]; [done|]. cbn [rbind].
    destruct (insert_loop_start_absent (hm_data m) k v rep) as (d' & -> & Hl & Hok2 & Hu2 & He);
      try done.
    cbn [rbind fst snd]. eexists. split; [done|]. unfold Inv0. cbn [hm_data hm_size]. split_and!; try done.
    + unfold small. by rewrite Hl.
    + cbn. rewrite He, Hsz. cbn. lia.
Qed.

Lemma insert_internal_present m k v rep s nd :
  Inv0 m → hm_data m !! s = Some (Some nd) → eqb (nd_key nd) k = true →
  insert_internal hash eqb m k v rep =
    Ok (HMap (if rep then <[s := Some (Node (nd_home nd) k v)]> (hm_data m) else hm_data m)
         (hm_size m), false).
Proof.
  intros (Hsm & Hok & Hu & Hsz) Hs E. unfold insert_internal.
  assert (Hsl : (s < length (hm_data m))%nat) by (by eapply lookup_lt_Some).
  rewrite decide_False by lia. cbn [rbind].
  assert (Hhl : (home_of hash (length (hm_data m)) k < length (hm_data m))%nat) by (apply home_lt; lia).
  assert (Hh : nd_home nd = home_of hash (length (hm_data m)) k).
  { destruct (Hok _ _ Hs) as [-> _]. by apply home_eqb. }
  set (x := Node (home_of hash (length (hm_data m)) k) k v).
  replace 0%N with (N.of_nat (dist (length (hm_data m)) (nd_home x) (home_of hash (length (hm_data m)) k)))
    by (cbn; by rewrite dist_self).
  erewrite (insert_loop_present _ (hm_data m) x (home_of hash (length (hm_data m)) k) s nd rep); try done.
  - cbn [rbind fst snd]. unfold x. by rewrite Hh.
  - cbn. rewrite dist_self. lia.
  - cbn. rewrite dist_self.
    pose proof (dist_lt (length (hm_data m)) (home_of hash (length (hm_data m)) k) s). lia.
Qed.

(** Overwriting the value of a present key keeps the invariant. *)
Lemma Inv0_overwrite m s nd k v :
  Inv0 m → hm_data m !! s = Some (Some nd) → eqb (nd_key nd) k = true →
  Inv0 (HMap (<[s := Some (Node (nd_home nd) k v)]> (hm_data m)) (hm_size m)).
Proof.
  intros (Hsm & Hok & Hu & Hsz) Hs E.
  assert (Hsl : (s < length (hm_data m))%nat) by (by eapply lookup_lt_Some).
  assert (Hov : ∀ h t, reach (hm_data m) None h t →
    reach (<[s := Some (Node (nd_home nd) k v)]> (hm_data m)) None h t).
  { intros h t Hrt. eapply reach_overwrite; [done..|]. cbn. done. }
  split_and!; cbn [hm_data hm_size].
  - unfold small. by rewrite insert_length.
  - intros i nd' Hi. rewrite insert_length.
    destruct (decide (i = s)) as [->|].
    + rewrite list_lookup_insert in Hi by done. injection Hi as <-. cbn.
      destruct (Hok _ _ Hs) as [Hh Hr]. split.
      * rewrite Hh. by apply home_eqb.
      * by apply Hov.
    + rewrite list_lookup_insert_ne in Hi by done.
      destruct (Hok _ _ Hi) as [Hh Hr]. split; [done|]. by apply Hov.
  - eapply uniq_fill; [done..|]. intros i' nd' Hne Hi'. cbn.
    destruct (eqb (nd_key nd') k) eqn:E'; [|done].
    exfalso. apply Hne. eapply Hu; [done..|]. eapply eqb_trans; [done|]. by apply eqb_sym.
  - rewrite Hsz. f_equal.
    pose proof (entries_insert (hm_data m) s _ (Some (Node (nd_home nd) k v)) Hs) as P.
    apply Permutation_length in P. cbn in P. lia.
Qed.

(** ** rehash *)
Lemma rehash_loop_ok old : ∀ m,
  Inv m → (0 < length (hm_data m))%nat →
  (length (entries old) + length (entries (hm_data m)) < length (hm_data m))%nat →
  uniq old →
  (∀ i nd, old !! i = Some (Some nd) → absent (hm_data m) (nd_key nd)) →
  ∃ m', rehash_loop hash eqb old m = Ok m' ∧ Inv m' ∧
        length (hm_data m') = length (hm_data m) ∧
        entries (hm_data m') ≡ₚ entries old ++ entries (hm_data m).
Proof.
  induction old as [|[nd|] old IH]; intros m HI Hl Hfree Hu Ha.
  - by exists m.
  - cbn [rehash_loop].
    destruct (insert_internal_absent m (nd_key nd) (nd_val nd) true) as (m' & -> & HI' & _ & He & Hl');
      [done|by apply (Ha 0%nat)|].
    cbn [rbind fst].
    rewrite entries_cons in Hfree. cbn in Hfree.
    pose proof (Permutation_length He) as Hlen. cbn in Hlen.
    assert (Hm'l : length (hm_data m') = length (hm_data m)) by (apply Hl'; lia).
    destruct (IH m') as (m'' & -> & HI'' & Hl'' & He'').
    + split; [done|]. right. lia.
    + lia.
    + lia.
    + intros i1 i2 n1 n2 H1 H2 E. specialize (Hu (S i1) (S i2) n1 n2 H1 H2 E). lia.
    + intros i nd' Hi. apply absent_entries. intros kv Hkv. rewrite He in Hkv.
      apply elem_of_cons in Hkv as [->|Hkv].
      * cbn. destruct (eqb (nd_key nd) (nd_key nd')) eqn:E; [|done].
        specialize (Hu 0%nat (S i) nd nd' eq_refl Hi E). lia.
      * specialize (Ha (S i) nd' Hi). rewrite absent_entries in Ha. by apply Ha.
    + exists m''. split; [done|]. split; [done|]. split; [lia|].
      rewrite He'', He, entries_cons. cbn. by rewrite Permutation_middle.
  - cbn [rehash_loop]. rewrite entries_cons in *. cbn in Hfree |- *.
    apply IH; try done.
    + intros i1 i2 n1 n2 H1 H2 E. specialize (Hu (S i1) (S i2) n1 n2 H1 H2 E). lia.
    + intros i nd' Hi. by apply (Ha (S i)).
Qed.

Lemma rehash_ok m n :
  Inv0 m → (hm_size m < n)%N →
  rehash hash eqb m n = OutOfMemory ∨
  ∃ m', rehash hash eqb m n = Ok m' ∧ Inv m' ∧
        entries (hm_data m') ≡ₚ entries (hm_data m).
Proof.
  intros (Hsm & Hok & Hu & Hsz) Hn. unfold rehash.
  destruct (alloc_cases n) as [->|[Hn60 ->]]; [by left|]. right. cbn [rbind].
  destruct (rehash_loop_ok (hm_data m) (HMap (replicate (N.to_nat n) None) 0))
    as (m' & -> & HI & _ & He); cbn [hm_data].
  - split; [by apply replicate_ok|]. right. cbn. rewrite entries_replicate, replicate_length. cbn. lia.
  - rewrite replicate_length. lia.
  - rewrite entries_replicate, replicate_length. cbn. lia.
  - done.
  - intros i nd _ i' nd' Hi'. apply lookup_replicate in Hi' as [? _]. done.
  - exists m'. split; [done|]. split; [done|]. rewrite He. cbn.
    by rewrite entries_replicate, app_nil_r.
Qed.

Lemma size_bound m : Inv0 m → (hm_size m < 2 ^ 64)%N.
Proof.
  intros (Hsm & _ & _ & ->). unfold small in Hsm.
  pose proof (entries_length_le (hm_data m)). lia.
Qed.

Lemma resize_more_ok m : Inv0 m →
  resize_more hash eqb m = OutOfMemory ∨
  ∃ m', resize_more hash eqb m = Ok m' ∧ Inv m' ∧ entries (hm_data m') ≡ₚ entries (hm_data m).
Proof.
  intros HI. unfold resize_more.
  pose proof (ideal_size_gt _ (size_bound _ HI)) as Hg.
  destruct (N.ltb_spec (N.of_nat (length (hm_data m))) (ideal_size (hm_size m))).
  - by apply rehash_ok.
  - right. exists m. split; [done|]. split; [|done]. split; [done|]. right.
    destruct HI as (_ & _ & _ & Hsz). lia.
Qed.

Lemma resize_less_ok m : Inv m →
  resize_less hash eqb m = OutOfMemory ∨
  ∃ m', resize_less hash eqb m = Ok m' ∧ Inv m' ∧ entries (hm_data m') ≡ₚ entries (hm_data m).
Proof.
  intros HI. unfold resize_less.
  pose proof (ideal_size_gt _ (size_bound _ (proj1 HI))) as Hg.
  destruct (N.ltb_spec (ideal_size (hm_size m)) (N.of_nat (length (hm_data m)))).
  - apply rehash_ok; [apply HI|done].
  - right. by exists m.
Qed.

(** * Refinement *)
Notation sp_map := (@sp_map K V).
Definition R (m : hmap) (l : sp_map) : Prop := Inv m ∧ entries (hm_data m) ≡ₚ l.

Lemma Inv_perm_split d s nd : d !! s = Some (Some nd) →
  entries d ≡ₚ (nd_key nd, nd_val nd) :: entries (<[s := None]> d).
Proof. intros Hs. symmetry. apply (entries_insert d s (Some nd) None Hs). Qed.

Lemma absent_without d s nd k : uniq d → d !! s = Some (Some nd) →
  eqb (nd_key nd) k = true → absent (<[s := None]> d) k.
Proof.
  intros Hu Hs E i nd' Hi.
  assert (Hsl : (s < length d)%nat) by (by eapply lookup_lt_Some).
  destruct (decide (i = s)) as [->|Hne].
  - rewrite list_lookup_insert in Hi by done. done.
  - rewrite list_lookup_insert_ne in Hi by done.
    destruct (eqb (nd_key nd') k) eqn:E'; [|done].
    exfalso. apply Hne. eapply Hu; [done..|]. eapply eqb_trans; [done|]. by apply eqb_sym.
Qed.

Lemma sp_mem_perm k (l l' : sp_map) : l ≡ₚ l' → sp_mem eqb k l = sp_mem eqb k l'.
Proof.
  intros P. unfold sp_mem. apply Bool.eq_true_iff_eq. rewrite !existsb_exists.
  split; intros (x & Hx & E); exists x; (split; [|done]); apply elem_of_list_In;
    apply elem_of_list_In in Hx; [by rewrite <- P|by rewrite P].
Qed.
Lemma sp_mem_absent d k : absent d k → sp_mem eqb k (entries d) = false.
Proof.
  rewrite absent_entries. intros Ha. unfold sp_mem.
  destruct (existsb _ _) eqn:E; [|done].
  apply existsb_exists in E as (x & Hx & E). apply elem_of_list_In in Hx.
  by rewrite (Ha _ Hx) in E.
Qed.

Lemma map_absent (f : K * V → K * V) l k :
  (∀ kv, kv ∈ l → eqb (fst kv) k = false) →
  map (λ kv, if eqb (fst kv) k then f kv else kv) l = l.
Proof.
  induction l as [|kv l IH]; intros H; [done|]. cbn.
  rewrite (H kv) by set_solver. f_equal. apply IH. set_solver.
Qed.
Lemma filter_absent (l : sp_map) k :
  (∀ kv, kv ∈ l → eqb (fst kv) k = false) →
  List.filter (λ kv, negb (eqb (fst kv) k)) l = l.
Proof.
  induction l as [|kv l IH]; intros H; [done|]. cbn.
  rewrite (H kv) by set_solver. cbn. f_equal. apply IH. set_solver.
Qed.
Lemma filter_perm (P : K * V → bool) (l l' : sp_map) :
  l ≡ₚ l' → List.filter P l ≡ₚ List.filter P l'.
Proof.
  induction 1; cbn; [done|..].
  - case_match; [by constructor|done].
  - repeat case_match; solve [done | by constructor].
  - by etrans.
Qed.

Lemma sp_lookup_present k (l : sp_map) kv : kv ∈ l → eqb (fst kv) k = true →
  (∀ a b, a ∈ l → b ∈ l → eqb (fst a) (fst b) = true → a = b) →
  sp_lookup eqb k l = Some (snd kv).
Proof.
  intros Hin E Hf. unfold sp_lookup.
  destruct (List.find _ l) as [kv'|] eqn:F.
  - apply find_some in F as [Hin' E']. apply elem_of_list_In in Hin'.
    rewrite (Hf kv' kv); [done..|]. eapply eqb_trans; [done|]. by apply eqb_sym.
  - exfalso. eapply find_none in F; [|by apply elem_of_list_In]. cbn in F. congruence.
Qed.
Lemma sp_lookup_absent k (l : sp_map) : (∀ kv, kv ∈ l → eqb (fst kv) k = false) →
  sp_lookup eqb k l = None.
Proof.
  intros H. unfold sp_lookup. destruct (List.find _ l) as [kv'|] eqn:F; [|done].
  apply find_some in F as [Hin' E']. apply elem_of_list_In in Hin'.
  rewrite H in E' by done. done.
Qed.

Lemma entries_functional d : uniq d →
  ∀ a b, a ∈ entries d → b ∈ entries d → eqb (fst a) (fst b) = true → a = b.
Proof.
  intros Hu a b (i & n1 & Hi & ->)%elem_of_entries (i' & n2 & Hi' & ->)%elem_of_entries E.
  cbn in E. pose proof (Hu _ _ _ _ Hi Hi' E) as ->. by simplify_eq.
Qed.

Lemma insert_refines m l k v rep : R m l →
  hm_insert hash eqb m k v rep = OutOfMemory ∨
  ∃ m', hm_insert hash eqb m k v rep = Ok (m', negb (sp_mem eqb k l)) ∧
        R m' (sp_insert eqb k v rep l).
Proof.
  intros [HI HP]. unfold hm_insert, sp_insert.
  rewrite <- (sp_mem_perm k _ _ HP).
  destruct (absent_dec (hm_data m) k) as [Ha|(s & nd & Hs & E)].
  - destruct (insert_internal_absent m k v rep HI Ha) as (m1 & -> & HI1 & _ & He & _).
    cbn [rbind fst snd].
    destruct (resize_more_ok m1 HI1) as [->|(m2 & -> & HI2 & He2)]; [by left|].
    right. exists m2. cbn [rbind]. rewrite sp_mem_absent by done. cbn.
    split; [done|]. split; [done|]. by rewrite He2, He, HP.
  - right. rewrite (insert_internal_present m k v rep s nd (proj1 HI) Hs E).
    cbn [rbind fst snd].
    assert (Hmem : sp_mem eqb k (entries (hm_data m)) = true).
    { unfold sp_mem. apply existsb_exists. exists (nd_key nd, nd_val nd). split; [|done].
      apply elem_of_list_In, elem_of_entries. eauto. }
    rewrite Hmem. eexists. split; [done|].
    destruct HI as [HI0 Hfree].
    destruct rep.
    + assert (HI1 := Inv0_overwrite m s nd k v HI0 Hs E).
      split.
      * split; [done|]. cbn [hm_data]. rewrite insert_length.
        destruct HI1 as (_ & _ & _ & Hsz1), HI0 as (_ & _ & _ & Hsz0).
        cbn in Hsz1. destruct Hfree; [by left|right]. lia.
      * cbn [hm_data].
        assert (Hu : uniq (hm_data m)) by apply HI0.
        pose proof (absent_without _ _ _ _ Hu Hs E) as Ha. rewrite absent_entries in Ha.
        transitivity (map (λ kv, if eqb kv.1 k then (k, v) else kv) (entries (hm_data m)));
          [|by rewrite HP].
        rewrite (Inv_perm_split _ _ _ Hs). cbn [map fst]. rewrite E.
        rewrite (map_absent (λ _, (k, v)) _ k Ha).
        apply (Permutation_app_inv_l [(nd_key nd, nd_val nd)]).
        pose proof (entries_insert (hm_data m) s _ (Some (Node (nd_home nd) k v)) Hs) as P.
        cbn in P. cbn. rewrite P. rewrite (Inv_perm_split _ _ _ Hs).
        apply perm_swap.
    + split; [|by cbn]. destruct m; done.
Qed.

Lemma get_internal_refines m l k : R m l →
  (absent (hm_data m) k ∧ get_internal hash eqb m k = Ok None) ∨
  (∃ s nd, hm_data m !! s = Some (Some nd) ∧ eqb (nd_key nd) k = true ∧
           get_internal hash eqb m k = Ok (Some s)).
Proof.
  intros [[(Hsm & Hok & Hu & Hsz) Hfree] HP]. unfold get_internal.
  destruct (absent_dec (hm_data m) k) as [Ha|(s & nd & Hs & E)].
  - left. split; [done|]. destruct (N.eqb_spec (hm_size m) 0) as [|Hn0]; [done|].
    assert (Hlen := entries_length_le (hm_data m)).
    destruct Hfree as [|Hfree]; [lia|].
    destruct (entries_has_empty _ Hfree) as [s Hs].
    assert (Hsl : (s < length (hm_data m))%nat) by (by eapply lookup_lt_Some).
    eapply get_loop_absent; [done| |done|].
    + apply home_lt. lia.
    + pose proof (dist_lt (length (hm_data m)) (home_of hash (length (hm_data m)) k) s).
      pose proof (home_lt (length (hm_data m)) k). lia.
  - right. exists s, nd. split; [done|]. split; [done|].
    assert (Hsl : (s < length (hm_data m))%nat) by (by eapply lookup_lt_Some).
    assert (Hhl := home_lt (length (hm_data m)) k ltac:(lia)).
    destruct (N.eqb_spec (hm_size m) 0) as [E0|Hn0].
    { assert (In : (nd_key nd, nd_val nd) ∈ entries (hm_data m)) by (apply elem_of_entries; eauto).
      destruct (entries (hm_data m)); [by apply elem_of_nil in In|]. cbn in Hsz. lia. }
    replace 0%N with (N.of_nat (dist (length (hm_data m)) (home_of hash (length (hm_data m)) k)
                                 (home_of hash (length (hm_data m)) k))) by (by rewrite dist_self).
    eapply get_loop_present; try done.
    + rewrite dist_self. lia.
    + rewrite dist_self.
      pose proof (dist_lt (length (hm_data m)) (home_of hash (length (hm_data m)) k) s). lia.
Qed.

Lemma get_refines m l k : R m l → hm_get hash eqb m k = Ok (sp_lookup eqb k l).
Proof.
  intros HR. unfold hm_get.
  destruct (get_internal_refines m l k HR) as [[Ha ->]|(s & nd & Hs & E & ->)]; cbn [rbind].
  - f_equal. symmetry. apply sp_lookup_absent. intros kv Hkv.
    rewrite absent_entries in Ha. apply Ha. by rewrite (proj2 HR).
  - rewrite Hs. f_equal. symmetry.
    apply (sp_lookup_present k l (nd_key nd, nd_val nd)); [|done|].
    + rewrite <- (proj2 HR). apply elem_of_entries. eauto.
    + intros a b Ha Hb. rewrite <- (proj2 HR) in Ha, Hb.
      eapply entries_functional; [|done..]. apply HR.
Qed.

Lemma contains_refines m l k : R m l → hm_contains hash eqb m k = Ok (sp_mem eqb k l).
Proof.
  intros HR. unfold hm_contains. rewrite <- (sp_mem_perm k _ _ (proj2 HR)).
  destruct (get_internal_refines m l k HR) as [[Ha ->]|(s & nd & Hs & E & ->)]; cbn [rbind]; f_equal.
  - by rewrite sp_mem_absent.
  - symmetry. unfold sp_mem. apply existsb_exists. exists (nd_key nd, nd_val nd). split; [|done].
    apply elem_of_list_In, elem_of_entries. eauto.
Qed.

(** Does removing [k] move the entry of slot 0 back to the last slot? *)
Definition remove_crosses (m : hmap) (k : K) : bool :=
  match get_internal hash eqb m k with
  | Ok (Some i) => shift_crosses (S (length (hm_data m))) (<[i := None]> (hm_data m)) i
  | _ => false
  end.

Lemma remove_refines m l k : R m l → remove_crosses m k = false →
  hm_remove hash eqb m k = OutOfMemory ∨
  ∃ m', hm_remove hash eqb m k = Ok m' ∧ R m' (sp_remove eqb k l).
Proof.
  intros HR Hx. unfold hm_remove, remove_crosses in *.
  pose proof (get_internal_refines m l k HR) as HG.
  destruct HR as [HI HP].
  pose proof HI as [(Hsm & Hok & Hu & Hsz) Hfree].
  unfold get_internal in *.
  assert (Hperm : sp_remove eqb k l ≡ₚ sp_remove eqb k (entries (hm_data m))).
  { unfold sp_remove. apply filter_perm. by symmetry. }
  destruct (N.eqb_spec (hm_size m) 0) as [E0|Hn0].
  { right. exists m. split; [done|]. split; [done|]. rewrite Hperm.
    assert (E : entries (hm_data m) = []) by (destruct (entries (hm_data m)); [done|cbn in Hsz; lia]).
    by rewrite E. }
  destruct HG as [[Ha E]|(s & nd & Hs & E & Eg)].
  { rewrite E. right. exists m. split; [done|]. split; [done|]. rewrite Hperm.
    unfold sp_remove. rewrite filter_absent; [done|]. by apply absent_entries. }
  rewrite Eg in Hx |- *. cbn [rbind].
  assert (Hsl : (s < length (hm_data m))%nat) by (by eapply lookup_lt_Some).
  destruct Hfree as [|Hfree]; [lia|].
  destruct (entries_has_empty _ Hfree) as [s' Hs'].
  assert (Hne : s' ≠ s) by congruence.
  assert (Hs'l : (s' < length (hm_data m))%nat) by (by eapply lookup_lt_Some).
  set (d0 := <[s := None]> (hm_data m)) in *.
  assert (Hl0 : length d0 = length (hm_data m)) by apply insert_length.
  destruct (backshift_ok (S (length (hm_data m))) d0 s s') as (d' & -> & Hl' & Hok' & Hu' & He'); try done.
  - by rewrite Hl0.
  - unfold small. by rewrite Hl0.
  - intros i nd' Hi. rewrite Hl0. unfold d0 in Hi.
    destruct (decide (i = s)) as [->|Hi'].
    { rewrite list_lookup_insert in Hi by done. done. }
    rewrite list_lookup_insert_ne in Hi by done.
    destruct (Hok _ _ Hi) as [Hh Hr]. split; [done|].
    intros e He. rewrite Hl0. destruct (Hr e He) as [?|(nd'' & Hnd'' & Hp)]; [done|].
    destruct (decide (pos (length (hm_data m)) (nd_home nd') e = s)) as [->|]; [by left|].
    right. exists nd''. split; [|done]. unfold d0. by rewrite list_lookup_insert_ne.
  - intros i1 i2 n1 n2 H1 H2. unfold d0 in H1, H2.
    destruct (decide (i1 = s)) as [->|]; [by rewrite list_lookup_insert in H1|].
    destruct (decide (i2 = s)) as [->|]; [by rewrite list_lookup_insert in H2|].
    rewrite list_lookup_insert_ne in H1, H2 by done. by apply Hu.
  - unfold d0. by rewrite list_lookup_insert.
  - unfold d0. by rewrite list_lookup_insert_ne.
  - rewrite Hl0. pose proof (dist_lt (length (hm_data m)) s s'). lia.
  - cbn [rbind].
    pose proof (Inv_perm_split _ _ _ Hs) as Hsplit. fold d0 in Hsplit.
    pose proof (Permutation_length Hsplit) as HL. cbn in HL.
    pose proof (Permutation_length He') as HL'.
    assert (HI' : Inv (HMap d' (N.pred (hm_size m)))).
    { split; [split_and!|]; cbn [hm_data hm_size]; try done.
      - unfold small. by rewrite Hl', Hl0.
      - rewrite Hsz. lia.
      - right. lia. }
    destruct (resize_less_ok _ HI') as [->|(m2 & -> & HI2 & He2)]; [by left|].
    right. exists m2. split; [done|]. split; [done|]. cbn [hm_data] in He2.
    rewrite He2, He', Hperm. unfold sp_remove.
    rewrite (filter_perm _ _ _ Hsplit). cbn [List.filter fst]. rewrite E. cbn [negb].
    rewrite filter_absent; [done|]. apply absent_entries. by eapply absent_without.
Qed.

(** ** Histories *)
Notation op := (op K V).
Notation out := (out V).

(** The same operation on the abstract map. *)
Definition sp_step (l : sp_map) (o : op) : sp_map * out :=
  match o with
  | OpInsert k v r => (sp_insert eqb k v r l, OutBool (negb (sp_mem eqb k l)))
  | OpRemove k => (sp_remove eqb k l, OutUnit)
  | OpGet k => (l, OutVal (sp_lookup eqb k l))
  | OpContains k => (l, OutBool (sp_mem eqb k l))
  | OpSize => (l, OutSize (N.of_nat (length l)))
  | OpClear => ([], OutUnit)
  end.
Fixpoint sp_run (l : sp_map) (ops : list op) : sp_map * list out :=
  match ops with
  | [] => (l, [])
  | o :: rest =>
    let r := sp_step l o in
    let r' := sp_run (fst r) rest in (fst r', snd r :: snd r')
  end.

(** No removal of the history crosses the end of the table. *)
Fixpoint no_crossing (m : hmap) (ops : list op) : bool :=
  match ops with
  | [] => true
  | o :: rest =>
    match o with OpRemove k => negb (remove_crosses m k) | _ => true end &&
    match hm_step hash eqb m o with
    | Ok r => no_crossing (fst r) rest
    | _ => true
    end
  end.

Lemma step_refines m l o : R m l →
  match o with OpRemove k => remove_crosses m k = false | _ => True end →
  hm_step hash eqb m o = OutOfMemory ∨
  ∃ m', hm_step hash eqb m o = Ok (m', snd (sp_step l o)) ∧ R m' (fst (sp_step l o)).
Proof.
  intros HR Hx. destruct o as [k v r|k|k|k| |]; cbn [hm_step sp_step fst snd].
  - destruct (insert_refines m l k v r HR) as [->|(m' & -> & HR')]; [by left|].
    right. by exists m'.
  - destruct (remove_refines m l k HR Hx) as [->|(m' & -> & HR')]; [by left|].
    right. by exists m'.
  - right. rewrite (get_refines m l k HR). by exists m.
  - right. rewrite (contains_refines m l k HR). by exists m.
  - right. exists m. split; [|done]. destruct HR as [[(_ & _ & _ & Hsz) _] HP].
    by rewrite Hsz, HP.
  - right. eexists. split; [done|]. split; [|done]. split; [|by left].
    split_and!; cbn; [unfold small; cbn; lia|intros i nd Hi; done|intros i1 i2 n1 n2 Hi; done|done].
Qed.

Lemma run_refines ops : ∀ m l, R m l → no_crossing m ops = true →
  hm_run hash eqb m ops = OutOfMemory ∨
  ∃ m', hm_run hash eqb m ops = Ok (m', snd (sp_run l ops)) ∧ R m' (fst (sp_run l ops)).
Proof.
  induction ops as [|o ops IH]; intros m l HR Hx.
  - right. by exists m.
  - cbn [no_crossing] in Hx. apply andb_prop in Hx as [Hx1 Hx2].
    cbn [hm_run sp_run fst snd].
    destruct (step_refines m l o HR) as [->|(m1 & E & HR1)]; [|by left|].
    { destruct o; try done. by apply negb_true_iff in Hx1. }
    rewrite E in Hx2 |- *. cbn [rbind fst snd] in *.
    destruct (IH m1 _ HR1 Hx2) as [->|(m2 & -> & HR2)]; [by left|].
    right. by exists m2.
Qed.

Lemma init_R n : @hm_init K V n = OutOfMemory ∨ ∃ m, @hm_init K V n = Ok m ∧ R m [].
Proof.
  unfold hm_init. destruct (alloc_cases (ideal_size n)) as [->|[Hn ->]]; [by left|].
  right. eexists. split; [done|]. split.
  - split; [by apply replicate_ok|]. cbn. rewrite replicate_length, entries_replicate. cbn.
    destruct (N.to_nat (ideal_size n)); [by left|right; lia].
  - cbn. by rewrite entries_replicate.
Qed.

Definition is_remove (o : op) : bool := match o with OpRemove _ => true | _ => false end.
Lemma no_remove_no_crossing ops : ∀ m, forallb (λ o, negb (is_remove o)) ops = true →
  no_crossing m ops = true.
Proof.
  induction ops as [|o ops IH]; intros m H; [done|].
  cbn in H. apply andb_prop in H as [H1 H2]. cbn [no_crossing].
  apply andb_true_intro. split; [by destruct o|].
  destruct (hm_step hash eqb m o); auto.
Qed.

(** ** Traversal *)
Lemma iter_next_spec rest : ∀ i,
  match iter_next rest i with
  | (None, _) => entries rest = []
  | (Some kv, i') => ∃ n, i' = (i + S n)%nat ∧ (n < length rest)%nat ∧
                        entries rest = kv :: entries (drop (S n) rest)
  end.
Proof.
  induction rest as [|[nd|] rest IH]; intros i; cbn [iter_next]; [done|..].
  - exists 0%nat. split; [lia|]. split; [cbn; lia|]. by rewrite entries_cons.
  - specialize (IH (S i)). rewrite entries_cons. cbn [kv_of app].
    destruct (iter_next rest (S i)) as [[kv|] i'].
    + destruct IH as (n & -> & Hn & ->). exists (S n). split; [lia|]. split; [cbn; lia|done].
    + done.
Qed.
Lemma iter_all_spec fuel : ∀ d i, (length d < fuel + i)%nat → (i ≤ length d)%nat →
  iter_all fuel d i = Ok (entries (drop i d)).
Proof.
  induction fuel as [|fuel IH]; intros d i Hf Hi; [lia|]. cbn [iter_all].
  pose proof (iter_next_spec (drop i d) i) as H.
  destruct (iter_next (drop i d) i) as [[kv|] i'].
  - destruct H as (n & -> & Hn & E). rewrite drop_length in Hn.
    rewrite IH by lia. cbn [rbind]. rewrite E, drop_drop. done.
  - by rewrite H.
Qed.
Lemma map_loop_hangs {U} fuel (f : K → V → U) d out : (0 < length d)%nat →
  map_loop fuel f d 0 out = Hang.
Proof.
  intros Hl. revert out. induction fuel as [|fuel IH]; intros out; [done|]. cbn [map_loop].
  destruct (Nat.ltb_spec 0 (length d)); [|lia].
  destruct (d !! 0%nat) as [[nd|]|] eqn:E; [apply IH..|].
  apply lookup_ge_None in E. lia.
Qed.
End proofs.
