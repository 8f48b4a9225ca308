From stdpp Require Import list numbers sets.
From Verif Require Import Cyclic HashMapModel HashMapProofs CHmapModel CHmapSpec.

Lemma c_next_eq cap i : (i < cap)%nat → c_next cap i = succ_wrap cap i.
Proof. apply nexti_eq. Qed.
Lemma c_next_pos cap h e : (h < cap)%nat → (e < cap)%nat →
  c_next cap (pos cap h e) = pos cap h (S e).
Proof. apply nexti_pos. Qed.
Lemma c_next_lt cap i : (i < cap)%nat → (c_next cap i < cap)%nat.
Proof. apply nexti_lt. Qed.
Lemma dist_c_next cap h i : (h < cap)%nat → (i < cap)%nat → (S (dist cap h i) < cap)%nat →
  dist cap h (c_next cap i) = S (dist cap h i).
Proof. apply dist_nexti. Qed.
Lemma dist_from_c_next cap i s : (s < cap)%nat → (i < cap)%nat → s ≠ i →
  S (dist cap (c_next cap i) s) = dist cap i s.
Proof. apply dist_from_nexti. Qed.
Lemma c_probe_dist cap i h : (i < cap)%nat → (h < cap)%nat →
  c_probe cap i h = Z.of_nat (dist cap h i).
Proof.
  intros. unfold c_probe, dist.
  destruct (Nat.leb_spec h i); destruct (Z.ltb_spec (Z.of_nat i - Z.of_nat h) 0); lia.
Qed.

(** * Table sizes *)
Lemma double_until_mono fuel : ∀ last s1 s2, (s1 ≤ s2)%N →
  (double_until fuel last s1 ≤ double_until fuel last s2)%N ∧ (last ≤ double_until fuel last s2)%N.
Proof.
  induction fuel as [|fuel IH]; intros last s1 s2 H; cbn [double_until]; [lia|].
  rewrite N.shiftl_mul_pow2, N.pow_1_r.
  destruct (N.ltb_spec last s1), (N.ltb_spec last s2); try lia.
  - destruct (IH (last * 2)%N s1 s2 H). lia.
  - destruct (IH (last * 2)%N s1 s2 H). lia.
Qed.
Lemma hmap_primes_sorted i j p q :
  hmap_primes !! i = Some p → hmap_primes !! j = Some q → (i ≤ j)%nat → (p ≤ q)%N.
Proof.
  intros Hi Hj Hij.
  assert (Hjl : (j < 24)%nat) by (apply lookup_lt_Some in Hj; exact Hj).
  assert (F : forallb (λ y, forallb (λ x, implb (x <=? y)%nat
     (nth x hmap_primes 0 <=? nth y hmap_primes 0)%N) (seq 0 24)) (seq 0 24) = true)
    by (vm_compute; reflexivity).
  rewrite forallb_forall in F. specialize (F j). rewrite in_seq in F. specialize (F ltac:(lia)).
  rewrite forallb_forall in F. specialize (F i). rewrite in_seq in F. specialize (F ltac:(lia)).
  rewrite implb_true_iff in F. specialize (F ltac:(apply Nat.leb_le; lia)).
  apply N.leb_le in F. 
  rewrite (nth_lookup_Some _ _ _ _ Hi), (nth_lookup_Some _ _ _ _ Hj) in F. done.
Qed.
Lemma ideal_size_mono a b : (a ≤ b)%N → (ideal_size a ≤ ideal_size b)%N.
Proof.
  intros Hab. unfold ideal_size.
  assert (Hs : (10 * (a + 1) / 9 ≤ 10 * (b + 1) / 9)%N) by (apply N.div_le_mono; lia).
  set (sa := (10 * (a + 1) / 9)%N) in *. set (sb := (10 * (b + 1) / 9)%N) in *.
  destruct (list_find (λ p, sb <= p)%N hmap_primes) as [[j q]|] eqn:Eb.
  - apply list_find_Some in Eb as (Hj & Hq & Hmin).
    destruct (list_find (λ p, sa <= p)%N hmap_primes) as [[i p]|] eqn:Ea.
    + apply list_find_Some in Ea as (Hi & Hp & Hmina).
      eapply hmap_primes_sorted; [done..|].
      destruct (le_lt_dec i j); [done|]. exfalso. apply (Hmina j q Hj l). lia.
    + exfalso. apply list_find_None in Ea. rewrite Forall_forall in Ea.
      apply (Ea q); [by eapply elem_of_list_lookup_2|lia].
  - destruct (list_find (λ p, sa <= p)%N hmap_primes) as [[i p]|] eqn:Ea.
    + apply list_find_Some in Ea as (Hi & Hp & Hmina).
      destruct (double_until_mono 64 8800019 sa sb Hs) as [_ H].
      eapply N.le_trans; [|exact H].
      eapply (hmap_primes_sorted i 23 p); [done|vm_compute; reflexivity|].
      apply lookup_lt_Some in Hi. change (i < 24)%nat in Hi. lia.
    + by apply double_until_mono.
Qed.

Section proofs.
Context {E : Type} (hash : E → N) (equal : E → E → bool).
Context (eq_refl' : ∀ a, equal a a = true)
        (eq_sym' : ∀ a b, equal a b = true → equal b a = true)
        (eq_trans' : ∀ a b c, equal a b = true → equal b c = true → equal a c = true)
        (hash_eq : ∀ a b, equal a b = true → hash a = hash b).
Notation slot := (option (nat * E)).
Notation slots := (list (option (nat * E))).
Implicit Types d : slots.

Definition ent (o : slot) : list E := match o with Some (_, e) => [e] | None => [] end.
Lemma c_iter_cons o d : c_iter (o :: d) = ent o ++ c_iter d.
Proof. by destruct o as [[]|]. Qed.
Local Arguments c_iter : simpl never.
Lemma c_iter_insert d i old x : d !! i = Some old →
  ent old ++ c_iter (<[i := x]> d) ≡ₚ ent x ++ c_iter d.
Proof.
  revert i. induction d as [|o d IH]; intros i Hi; [done|].
  destruct i as [|i].
  - injection Hi as ->. cbn. rewrite !c_iter_cons.
    rewrite !app_assoc. apply Permutation_app_tail. apply Permutation_app_comm.
  - cbn in Hi |- *. rewrite !c_iter_cons.
    rewrite (Permutation_app_swap_app (ent old)), (IH _ Hi).
    apply Permutation_app_swap_app.
Qed.
Lemma elem_of_c_iter d e : e ∈ c_iter d ↔ ∃ i h, d !! i = Some (Some (h, e)).
Proof.
  induction d as [|o d IH].
  - split; [intros H; by apply elem_of_nil in H|]. intros (i & h & ?). done.
  - rewrite c_iter_cons, elem_of_app, IH. split.
    + intros [H|(i & h & ?)].
      * destruct o as [[h e']|]; cbn in H; [|by apply elem_of_nil in H].
        apply elem_of_list_singleton in H as ->. by exists 0%nat, h.
      * by exists (S i), h.
    + intros (i & h & H). destruct i as [|i].
      * injection H as ->. left. cbn. set_solver.
      * right. eauto.
Qed.
Lemma c_iter_replicate n : c_iter (replicate n (None : slot)) = [].
Proof. by induction n. Qed.
Lemma c_iter_length_le d : (length (c_iter d) ≤ length d)%nat.
Proof. induction d as [|[[h e]|] d IH]; [done|..]; rewrite c_iter_cons; cbn; lia. Qed.
Lemma c_iter_has_empty d : (length (c_iter d) < length d)%nat → ∃ i, d !! i = Some None.
Proof.
  induction d as [|[[h e]|] d IH]; [cbn; lia|..]; rewrite c_iter_cons; cbn; intros H;
    [|by exists 0%nat].
  destruct IH as [i Hi]; [lia|]. by exists (S i).
Qed.

(** * The table invariant *)
(** Robin-Hood: on the path from its home to an element every slot is occupied
    by an element at least as far from its own home ([hole] excepted). *)
Definition reach d (hole : option nat) (h t : nat) : Prop :=
  ∀ e, (e < t)%nat →
    hole = Some (pos (length d) h e) ∨
    ∃ h' y, d !! pos (length d) h e = Some (Some (h', y)) ∧
          (e ≤ dist (length d) h' (pos (length d) h e))%nat.
Definition slots_ok d (hole : option nat) : Prop :=
  ∀ i h y, d !! i = Some (Some (h, y)) →
    h = c_home hash (length d) y ∧ reach d hole h (dist (length d) h i).
Definition uniq d : Prop :=
  ∀ i1 i2 h1 h2 e1 e2, d !! i1 = Some (Some (h1, e1)) → d !! i2 = Some (Some (h2, e2)) →
    equal e1 e2 = true → i1 = i2.
Definition absent d (e : E) : Prop :=
  ∀ i h e', d !! i = Some (Some (h, e')) → equal e' e = false.

Lemma home_lt cap k : (0 < cap)%nat → (c_home hash cap k < cap)%nat.
Proof.
  intros. unfold c_home.
  assert (hash k mod N.of_nat cap < N.of_nat cap)%N by (apply N.mod_lt; lia). lia.
Qed.
Lemma home_eq cap a b : equal a b = true → c_home hash cap a = c_home hash cap b.
Proof. intros H. unfold c_home. by rewrite (hash_eq _ _ H). Qed.
Lemma eq_false_sym a b : equal a b = false → equal b a = false.
Proof. intros H. destruct (equal b a) eqn:C; [|done]. apply eq_sym' in C. congruence. Qed.
Lemma slots_ok_home d hole i h y : slots_ok d hole → d !! i = Some (Some (h, y)) →
  (h < length d)%nat.
Proof.
  intros Hok Hi. destruct (Hok _ _ _ Hi) as [-> _]. apply home_lt.
  apply lookup_lt_Some in Hi. lia.
Qed.
Lemma reach_empty d h t s : reach d None h t → (h < length d)%nat → d !! s = Some None →
  (t ≤ dist (length d) h s)%nat.
Proof.
  intros Hr Hh Hs. destruct (le_lt_dec t (dist (length d) h s)) as [|Hlt]; [done|].
  destruct (Hr _ Hlt) as [?|(h' & y & Hnd & _)]; [done|].
  rewrite pos_dist in Hnd by (done || by eapply lookup_lt_Some). congruence.
Qed.
Lemma reach_extend d h i h' y : (i < length d)%nat → (h < length d)%nat →
  reach d None h (dist (length d) h i) → d !! i = Some (Some (h', y)) →
  (dist (length d) h i ≤ dist (length d) h' i)%nat →
  reach d None h (S (dist (length d) h i)).
Proof.
  intros Hi Hh Hr Hnd Hp e He.
  destruct (decide (e = dist (length d) h i)) as [->|].
  - right. exists h', y. rewrite pos_dist by done. done.
  - apply Hr. lia.
Qed.
Lemma reach_overwrite d h t i ho yo hx x : reach d None h t →
  d !! i = Some (Some (ho, yo)) → (dist (length d) ho i ≤ dist (length d) hx i)%nat →
  reach (<[i := Some (hx, x)]> d) None h t.
Proof.
  unfold reach at 2. rewrite insert_length. intros Hr Hi Hx e He. right.
  destruct (Hr e He) as [?|(h' & y & Hnd & Hp)]; [done|].
  destruct (decide (pos (length d) h e = i)) as [EQ|NE].
  - exists hx, x. rewrite EQ, list_lookup_insert by (by eapply lookup_lt_Some). split; [done|].
    rewrite EQ in Hnd, Hp. rewrite Hnd in Hi. injection Hi as -> ->. lia.
  - exists h', y. by rewrite list_lookup_insert_ne.
Qed.
Lemma reach_fill d h t i x : reach d None h t → d !! i = Some None →
  reach (<[i := Some x]> d) None h t.
Proof.
  unfold reach at 2. rewrite insert_length. intros Hr Hi e He. right.
  destruct (Hr e He) as [?|(h' & y & Hnd & Hp)]; [done|].
  exists h', y. rewrite list_lookup_insert_ne; [done|]. intros ->. congruence.
Qed.
Lemma uniq_fill d i h x o : uniq d → d !! i = Some o →
  (∀ i' h' y, i' ≠ i → d !! i' = Some (Some (h', y)) → equal y x = false) →
  uniq (<[i := Some (h, x)]> d).
Proof.
  intros Hu Hi Ha i1 i2 h1 h2 n1 n2 H1 H2 C.
  assert (Hlt : (i < length d)%nat) by (by eapply lookup_lt_Some).
  destruct (decide (i1 = i)) as [->|N1], (decide (i2 = i)) as [->|N2]; [done|..].
  - rewrite list_lookup_insert in H1 by done. injection H1 as <- <-.
    rewrite list_lookup_insert_ne in H2 by done.
    apply eq_sym' in C. rewrite (Ha _ _ _ N2 H2) in C. done.
  - rewrite list_lookup_insert in H2 by done. injection H2 as <- <-.
    rewrite list_lookup_insert_ne in H1 by done.
    rewrite (Ha _ _ _ N1 H1) in C. done.
  - rewrite list_lookup_insert_ne in H1, H2 by done. by eapply Hu.
Qed.

Lemma put_loop_absent fuel : ∀ d h x i s,
  slots_ok d None → uniq d → absent d x →
  h = c_home hash (length d) x → (i < length d)%nat →
  reach d None h (dist (length d) h i) →
  d !! s = Some None → (dist (length d) i s < fuel)%nat →
  ∃ d', c_put_loop equal fuel d i (Z.of_nat (dist (length d) h i)) h x = MOk (d', true) ∧
        length d' = length d ∧ slots_ok d' None ∧ uniq d' ∧ c_iter d' ≡ₚ x :: c_iter d.
Proof.
  induction fuel as [|fuel IH]; intros d h x i s Hok Hu Ha Hx Hi Hr Hs Hf; [lia|].
  assert (Hslt : (s < length d)%nat) by (by eapply lookup_lt_Some).
  assert (Hxlt : (h < length d)%nat) by (rewrite Hx; apply home_lt; lia).
  cbn [c_put_loop].
  destruct (d !! i) as [[[h' y]|]|] eqn:Hdi.
  - rewrite (Ha _ _ _ Hdi).
    assert (Hnh : (h' < length d)%nat) by (by eapply slots_ok_home).
    assert (Hne : s ≠ i) by congruence.
    rewrite c_probe_dist by done.
    destruct (Z.leb_spec (Z.of_nat (dist (length d) h' i)) (Z.of_nat (dist (length d) h i)))
      as [Hp|Hp].
    + (* displacement *)
      destruct (Hok _ _ _ Hdi) as [Hnd Hrn].
      set (d1 := <[i := Some (h, x)]> d).
      assert (Hl1 : length d1 = length d) by apply insert_length.
      assert (Hov : ∀ h0 t, reach d None h0 t → reach d1 None h0 t).
      { intros h0 t Hrt. eapply reach_overwrite; [done..|]. lia. }
      assert (Hok1 : slots_ok d1 None).
      { intros i' h0 y0 H'. rewrite Hl1. unfold d1 in H'.
        destruct (decide (i' = i)) as [->|].
        - rewrite list_lookup_insert in H' by done. injection H' as <- <-.
          split; [done|]. by apply Hov.
        - rewrite list_lookup_insert_ne in H' by done.
          destruct (Hok _ _ _ H') as [? ?]. split; [done|]. by apply Hov. }
      assert (Hu1 : uniq d1).
      { eapply uniq_fill; [done..|]. intros i' h0 y0 _ H'. by eapply Ha. }
      assert (Ha1 : absent d1 y).
      { intros i' h0 y0 H'. unfold d1 in H'. destruct (decide (i' = i)) as [->|Hi'].
        - rewrite list_lookup_insert in H' by done. injection H' as <- <-.
          apply eq_false_sym. by eapply Ha.
        - rewrite list_lookup_insert_ne in H' by done.
          destruct (equal y0 y) eqn:C; [|done].
          exfalso. apply Hi'. by eapply Hu. }
      assert (Hs1 : d1 !! s = Some None) by (unfold d1; by rewrite list_lookup_insert_ne).
      assert (Hd1i : d1 !! i = Some (Some (h, x))) by (unfold d1; by rewrite list_lookup_insert).
      assert (Hrn1 : reach d1 None h' (S (dist (length d1) h' i))).
      { eapply (reach_extend d1 h' i h x); rewrite ?Hl1; try done; [by apply Hov|lia]. }
      assert (Hdlt : (S (dist (length d) h' i) < length d)%nat).
      { eapply Nat.le_lt_trans; [|apply (dist_lt (length d) h' s); done].
        rewrite <- Hl1. eapply reach_empty; [done| |done]. by rewrite Hl1. }
      replace (Z.of_nat (dist (length d) h' i) + 1)%Z
        with (Z.of_nat (dist (length d1) h' (c_next (length d) i))).
      2:{ rewrite Hl1, dist_c_next by done. lia. }
      destruct (IH d1 h' y (c_next (length d) i) s) as (d' & -> & Hl' & Hok' & Hu' & He');
        rewrite ?Hl1; try done.
      * by apply c_next_lt.
      * rewrite dist_c_next by done. by rewrite Hl1 in Hrn1.
      * pose proof (dist_from_c_next (length d) i s). lia.
      * exists d'. split; [done|]. split; [lia|]. split; [done|]. split; [done|].
        rewrite He'. apply (c_iter_insert d i (Some (h', y)) (Some (h, x)) Hdi).
    + (* step over *)
      assert (Hr' : reach d None h (S (dist (length d) h i)))
        by (eapply reach_extend; try done; lia).
      assert (Hdlt : (S (dist (length d) h i) < length d)%nat).
      { eapply Nat.le_lt_trans; [|apply (dist_lt (length d) h s); done].
        by eapply reach_empty. }
      replace (Z.of_nat (dist (length d) h i) + 1)%Z
        with (Z.of_nat (dist (length d) h (c_next (length d) i))).
      2:{ rewrite dist_c_next by done. lia. }
      apply (IH d h x (c_next (length d) i) s); try done.
      * by apply c_next_lt.
      * by rewrite dist_c_next.
      * pose proof (dist_from_c_next (length d) i s). lia.
  - eexists. split; [done|]. rewrite insert_length. split; [done|].
    split_and!.
    + intros i' h0 y0 H'. rewrite insert_length.
      destruct (decide (i' = i)) as [->|].
      * rewrite list_lookup_insert in H' by done. injection H' as <- <-.
        split; [done|]. by apply reach_fill.
      * rewrite list_lookup_insert_ne in H' by done.
        destruct (Hok _ _ _ H') as [? ?]. split; [done|]. by apply reach_fill.
    + eapply uniq_fill; [done..|]. intros i' h0 y0 _ H'. by eapply Ha.
    + apply (c_iter_insert d i None (Some (h, x)) Hdi).
  - apply lookup_ge_None in Hdi. lia.
Qed.

(** ** Put of an element that is present *)
(** Some element met before the equal one has the same home, so that the put
    displaces it and goes on with it. *)
Fixpoint tie_before (fuel : nat) (d : slots) (i : nat) (j : Z) (x : E) : bool :=
  match fuel with
  | O => false
  | S f =>
    match d !! i with
    | Some (Some (h', y)) =>
      if equal y x then false
      else if (c_probe (length d) i h' <=? j)%Z then true
      else tie_before f d (c_next (length d) i) (j + 1) x
    | _ => false
    end
  end.

Lemma put_loop_present fuel : ∀ d h x i s hs ys,
  slots_ok d None → uniq d → h = c_home hash (length d) x → (i < length d)%nat →
  d !! s = Some (Some (hs, ys)) → equal ys x = true →
  (dist (length d) h i ≤ dist (length d) h s)%nat →
  (dist (length d) h s < fuel + dist (length d) h i)%nat →
  tie_before fuel d i (Z.of_nat (dist (length d) h i)) x = false →
  c_put_loop equal fuel d i (Z.of_nat (dist (length d) h i)) h x = MOk (<[s := Some (h, x)]> d, false).
Proof.
  induction fuel as [|fuel IH]; intros d h x i s hs ys Hok Hu Hx Hi Hs He Hle Hf Ht; [lia|].
  assert (Hslt : (s < length d)%nat) by (by eapply lookup_lt_Some).
  assert (Hxlt : (h < length d)%nat) by (rewrite Hx; apply home_lt; lia).
  cbn [c_put_loop tie_before] in *.
  destruct (decide (i = s)) as [->|Hne].
  { rewrite Hs, He. done. }
  destruct (Hok _ _ _ Hs) as [Hhs Hrs].
  assert (hs = h) as -> by (rewrite Hhs, Hx; by apply home_eq).
  assert (Hlt : (dist (length d) h i < dist (length d) h s)%nat).
  { assert (dist (length d) h i ≠ dist (length d) h s); [|lia].
    intros EQ. apply Hne.
    rewrite <- (pos_dist (length d) h i), EQ, pos_dist; done. }
  destruct (Hrs _ Hlt) as [?|(h' & y & Hnd & Hp)]; [done|].
  rewrite pos_dist in Hnd, Hp by done. rewrite Hnd in Ht |- *.
  destruct (equal y x) eqn:C.
  { exfalso. apply Hne. eapply Hu; [done..|].
    eapply eq_trans'; [done|]. by apply eq_sym'. }
  destruct (c_probe (length d) i h' <=? Z.of_nat (dist (length d) h i))%Z; [done|].
  assert (dist (length d) h s < length d)%nat by (by apply dist_lt).
  replace (Z.of_nat (dist (length d) h i) + 1)%Z
    with (Z.of_nat (dist (length d) h (c_next (length d) i))) in *.
  2: rewrite dist_c_next by lia; lia.
  apply (IH d h x (c_next (length d) i) s h ys); try done.
  - by apply c_next_lt.
  - rewrite dist_c_next by lia. lia.
  - rewrite dist_c_next by lia. lia.
Qed.

(** ** Lookup *)
Lemma find_loop_present fuel : ∀ d x i s hs ys,
  slots_ok d None → uniq d → (i < length d)%nat →
  d !! s = Some (Some (hs, ys)) → equal ys x = true →
  (dist (length d) hs i ≤ dist (length d) hs s)%nat →
  (dist (length d) hs s < fuel + dist (length d) hs i)%nat →
  c_find_loop equal fuel d i (Z.of_nat (dist (length d) hs i)) x = MOk (Some s).
Proof.
  induction fuel as [|fuel IH]; intros d x i s h ys Hok Hu Hi Hs He Hle Hf; [lia|].
  assert (Hslt : (s < length d)%nat) by (by eapply lookup_lt_Some).
  assert (Hhlt : (h < length d)%nat) by (by eapply slots_ok_home).
  cbn [c_find_loop].
  destruct (decide (i = s)) as [->|Hne].
  { rewrite Hs, He, c_probe_dist by done. by rewrite Z.ltb_irrefl. }
  destruct (Hok _ _ _ Hs) as [_ Hrs].
  assert (Hlt : (dist (length d) h i < dist (length d) h s)%nat).
  { assert (dist (length d) h i ≠ dist (length d) h s); [|lia].
    intros EQ. apply Hne.
    rewrite <- (pos_dist (length d) h i), EQ, pos_dist; done. }
  destruct (Hrs _ Hlt) as [?|(h' & y & Hnd & Hp)]; [done|].
  rewrite pos_dist in Hnd, Hp by done. rewrite Hnd.
  assert (h' < length d)%nat by (by eapply slots_ok_home).
  rewrite c_probe_dist by done.
  destruct (Z.ltb_spec (Z.of_nat (dist (length d) h' i)) (Z.of_nat (dist (length d) h i))); [lia|].
  destruct (equal y x) eqn:C.
  { exfalso. apply Hne. eapply Hu; [done..|].
    eapply eq_trans'; [done|]. by apply eq_sym'. }
  assert (dist (length d) h s < length d)%nat by (by apply dist_lt).
  replace (Z.of_nat (dist (length d) h i) + 1)%Z
    with (Z.of_nat (dist (length d) h (c_next (length d) i))).
  2:{ rewrite dist_c_next by lia. lia. }
  eapply (IH d x (c_next (length d) i) s h ys); try done.
  - by apply c_next_lt.
  - rewrite dist_c_next by lia. lia.
  - rewrite dist_c_next by lia. lia.
Qed.
Lemma find_loop_absent fuel : ∀ d x i j s,
  absent d x → (i < length d)%nat →
  d !! s = Some None → (dist (length d) i s < fuel)%nat →
  c_find_loop equal fuel d i j x = MOk None.
Proof.
  induction fuel as [|fuel IH]; intros d x i j s Ha Hi Hs Hf; [lia|].
  cbn [c_find_loop].
  destruct (d !! i) as [[[h' y]|]|] eqn:Hdi; [|done|apply lookup_ge_None in Hdi; lia].
  destruct (_ <? _)%Z; [done|].
  rewrite (Ha _ _ _ Hdi).
  assert (Hne : s ≠ i) by congruence.
  assert (Hslt : (s < length d)%nat) by (by eapply lookup_lt_Some).
  apply (IH d x (c_next (length d) i) (j + 1)%Z s); try done.
  - by apply c_next_lt.
  - pose proof (dist_from_c_next (length d) i s). lia.
Qed.

(** ** Removal *)
Lemma backshift_stop d i : (i < length d)%nat → (1 < length d)%nat →
  slots_ok d (Some i) → d !! i = Some None →
  (∀ h y, d !! c_next (length d) i = Some (Some (h, y)) → h = c_next (length d) i) →
  slots_ok d None.
Proof.
  intros Hi Hl Hok Hdi Hstop k h y Hk. destruct (Hok _ _ _ Hk) as [Hh Hr].
  split; [done|].
  assert (Hhl : (h < length d)%nat) by (by eapply slots_ok_home).
  assert (Hkl : (k < length d)%nat) by (by eapply lookup_lt_Some).
  pose proof (dist_lt _ _ _ Hhl Hkl) as Hdl.
  intros e He. destruct (Hr e He) as [EQ|?]; [|by right].
  exfalso. injection EQ as EQ.
  assert (En : c_next (length d) i = pos (length d) h (S e)).
  { rewrite EQ. apply c_next_pos; lia. }
  destruct (decide (S e = dist (length d) h k)) as [E'|].
  - rewrite E', pos_dist in En by done.
    rewrite <- En in Hk. specialize (Hstop _ _ Hk).
    rewrite <- En, <- Hstop, dist_self in He. lia.
  - destruct (Hr (S e)) as [E2|(h' & y' & Hnd' & Hp)]; [lia| |].
    + injection E2 as E2. rewrite EQ in E2. apply pos_inj in E2; lia.
    + rewrite <- En in Hnd', Hp. specialize (Hstop _ _ Hnd').
      rewrite Hstop, dist_self in Hp. lia.
Qed.

Lemma backshift_ok fuel : ∀ d i s,
  (i < length d)%nat → slots_ok d (Some i) → uniq d →
  d !! i = Some None → d !! s = Some None → s ≠ i →
  (dist (length d) i s < fuel)%nat →
  ∃ d', c_backshift fuel d i = MOk d' ∧ length d' = length d ∧
        slots_ok d' None ∧ uniq d' ∧ c_iter d' ≡ₚ c_iter d.
Proof.
  induction fuel as [|fuel IH]; intros d i s Hi Hok Hu Hdi Hs Hne Hf; [lia|].
  assert (Hsl : (s < length d)%nat) by (by eapply lookup_lt_Some).
  assert (Hl : (1 < length d)%nat) by lia.
  cbn [c_backshift] in *.
  pose proof (c_next_lt _ _ Hi) as Hnl.
  destruct (d !! c_next (length d) i) as [[[hy y]|]|] eqn:Hdn.
  - assert (Hyl : (hy < length d)%nat) by (by eapply slots_ok_home).
    rewrite c_probe_dist by done.
    destruct (Z.ltb_spec 0 (Z.of_nat (dist (length d) hy (c_next (length d) i)))) as [Hp|Hp].
    + set (ni := c_next (length d) i) in *.
      assert (Hni : ni = succ_wrap (length d) i) by (by apply c_next_eq).
      assert (Hnii : ni ≠ i). { rewrite Hni. clear -Hi Hl. cyc. }
      destruct (Hok _ _ _ Hdn) as [Hyh Hyr].
      assert (Hdy : dist (length d) hy ni = S (dist (length d) hy i)).
      { rewrite Hni in Hp |- *. clear -Hp Hi Hyl Hl. cyc. }
      set (d1 := <[ni := None]> (<[i := Some (hy, y)]> d)).
      assert (Hl1 : length d1 = length d) by (unfold d1; by rewrite !insert_length).
      assert (H1i : d1 !! i = Some (Some (hy, y))).
      { unfold d1. rewrite list_lookup_insert_ne by done. by rewrite list_lookup_insert. }
      assert (H1n : d1 !! ni = Some None).
      { unfold d1. apply list_lookup_insert. by rewrite insert_length. }
      assert (H1o : ∀ k, k ≠ i → k ≠ ni → d1 !! k = d !! k).
      { intros k ??. unfold d1. by rewrite !list_lookup_insert_ne by done. }
      assert (Hsn : s ≠ ni) by congruence.
      assert (Hok1 : slots_ok d1 (Some ni)).
      { intros k h0 y0 Hk. rewrite Hl1.
        destruct (decide (k = ni)) as [->|Hkn]; [congruence|].
        destruct (decide (k = i)) as [->|Hki].
        - rewrite H1i in Hk. injection Hk as <- <-. split; [done|].
          intros e He. rewrite Hl1.
          pose proof (dist_lt (length d) hy ni).
          destruct (Hyr e) as [EQ|(h' & y' & Hnd' & Hp')]; [lia| |].
          + injection EQ as EQ. rewrite <- (dist_pos (length d) hy e), <- EQ in He by lia. lia.
          + right. exists h', y'. split; [|done].
            rewrite H1o; [done|..]; intros EQ.
            * rewrite <- (dist_pos (length d) hy e), EQ in He by lia. lia.
            * rewrite <- (dist_pos (length d) hy e), EQ in He by lia. lia.
        - rewrite (H1o _ Hki Hkn) in Hk. destruct (Hok _ _ _ Hk) as [Hh Hr].
          assert (Hhl : (h0 < length d)%nat) by (by eapply slots_ok_home).
          assert (Hkl : (k < length d)%nat) by (by eapply lookup_lt_Some).
          pose proof (dist_lt _ _ _ Hhl Hkl) as Hdl.
          split; [done|]. intros e He. rewrite Hl1.
          destruct (decide (pos (length d) h0 e = ni)) as [->|Hen]; [by left|].
          right.
          destruct (decide (pos (length d) h0 e = i)) as [EQ|Hei].
          + exists hy, y. rewrite EQ. split; [done|].
            assert (En : ni = pos (length d) h0 (S e)).
            { unfold ni. rewrite <- EQ. apply c_next_pos; lia. }
            destruct (decide (S e = dist (length d) h0 k)) as [E'|].
            { rewrite E', pos_dist in En by done. congruence. }
            destruct (Hr (S e)) as [E2|(h' & y' & Hnd' & Hp')]; [lia|congruence|].
            rewrite <- En in Hnd', Hp'. rewrite Hdn in Hnd'. injection Hnd' as <- <-. lia.
          + destruct (Hr e He) as [EQ|(h' & y' & Hnd' & Hp')]; [congruence|].
            exists h', y'. split; [|done]. by rewrite H1o. }
      assert (Hu1 : uniq d1).
      { assert (Hback : ∀ k h0 y0, d1 !! k = Some (Some (h0, y0)) →
          ∃ k', d !! k' = Some (Some (h0, y0)) ∧ (k = if decide (k' = ni) then i else k')).
        { intros k h0 y0 Hk. destruct (decide (k = ni)) as [->|]; [congruence|].
          destruct (decide (k = i)) as [->|].
          - rewrite H1i in Hk. injection Hk as <- <-. exists ni. by rewrite decide_True.
          - rewrite H1o in Hk by done. exists k. by rewrite decide_False. }
        intros k1 k2 h1 h2 n1 n2 G1 G2 C.
        destruct (Hback _ _ _ G1) as (k1' & G1' & ->), (Hback _ _ _ G2) as (k2' & G2' & ->).
        by rewrite (Hu _ _ _ _ _ _ G1' G2' C). }
      assert (He1 : c_iter d1 ≡ₚ c_iter d).
      { apply (Permutation_app_inv_l (ent (Some (hy, y)))).
        rewrite <- (c_iter_insert d i None (Some (hy, y)) Hdi). cbn [ent app].
        apply (c_iter_insert (<[i:=Some (hy, y)]> d) ni (Some (hy, y)) None).
        rewrite list_lookup_insert_ne by done. done. }
      destruct (IH d1 ni s) as (d' & -> & Hl' & Hok' & Hu' & He'); rewrite ?Hl1; try done.
      * by rewrite H1o.
      * pose proof (dist_from_c_next (length d) i s) as Hd. fold ni in Hd. lia.
      * exists d'. split_and!; [done|lia|done|done|]. by rewrite He'.
    + exists d. split_and!; try done.
      apply (backshift_stop d i); try done. intros h0 y0 Hnd. rewrite Hdn in Hnd. injection Hnd as <- <-.
      symmetry. apply (dist_0 (length d)); [done..|]. lia.
  - exists d. split_and!; try done.
    apply (backshift_stop d i); try done. intros h0 y0 Hnd. congruence.
  - apply lookup_ge_None in Hdn. lia.
Qed.

(** * Map-level invariant *)
Notation chmap := (chmap E).
Definition Inv0 (m : chmap) : Prop :=
  slots_ok (ch_slots m) None ∧ uniq (ch_slots m) ∧
  ch_items m = N.of_nat (length (c_iter (ch_slots m))) ∧
  (N.of_nat (length (ch_slots m)) < 2 ^ 60)%N.
Definition Inv (m : chmap) : Prop :=
  Inv0 m ∧ (ch_items m < N.of_nat (length (ch_slots m)))%N.

Lemma absent_iter d x : absent d x ↔ ∀ y, y ∈ c_iter d → equal y x = false.
Proof.
  split.
  - intros Ha y (i & h & Hi)%elem_of_c_iter. by eapply Ha.
  - intros H i h e' Hi. apply H, elem_of_c_iter. eauto.
Qed.
Lemma absent_dec d e : absent d e ∨ ∃ s h x, d !! s = Some (Some (h, x)) ∧ equal x e = true.
Proof.
  induction d as [|o d IH].
  - left. intros i h x H. done.
  - destruct IH as [IH|(s & h & x & ? & ?)].
    + destruct o as [[h x]|].
      * destruct (equal x e) eqn:C.
        -- right. by exists 0%nat, h, x.
        -- left. intros [|i] h' x' H'; cbn in H'; [by simplify_eq|by eapply IH].
      * left. intros [|i] h' x' H'; cbn in H'; [by simplify_eq|by eapply IH].
    + right. by exists (S s), h, x.
Qed.

Lemma put_internal_absent m x : Inv0 m → absent (ch_slots m) x →
  (ch_items m < N.of_nat (length (ch_slots m)))%N →
  ∃ m', c_put_internal hash equal m x = MOk (m', true) ∧ Inv0 m' ∧
        length (ch_slots m') = length (ch_slots m) ∧
        c_iter (ch_slots m') ≡ₚ x :: c_iter (ch_slots m).
Proof.
  intros (Hok & Hu & Hsz & Hsm) Ha Hfree. unfold c_put_internal.
  destruct (c_iter_has_empty (ch_slots m)) as [s Hs]; [lia|].
  assert (Hsl : (s < length (ch_slots m))%nat) by (by eapply lookup_lt_Some).
  destruct (Nat.eqb_spec (length (ch_slots m)) 0); [lia|].
  set (h := c_home hash (length (ch_slots m)) x).
  assert (Hh : (h < length (ch_slots m))%nat) by (apply home_lt; lia).
  destruct (put_loop_absent (S (length (ch_slots m))) (ch_slots m) h x h s)
    as (d' & Ed & Hl & Hok' & Hu' & HP); try done.
  - intros e He. rewrite dist_self in He. lia.
  - pose proof (dist_lt _ h s Hh Hsl). lia.
  - rewrite dist_self in Ed. change (Z.of_nat 0) with 0%Z in Ed. rewrite Ed. cbn [mbind_ fst snd].
    eexists. split; [done|]. split; [|split; done]. unfold Inv0. cbn [ch_slots ch_items].
    split_and!; try done; [|by rewrite Hl]. rewrite HP, Hsz. cbn. lia.
Qed.

Definition put_ties (m : chmap) (x : E) : bool :=
  match c_find hash equal m x with
  | MOk (Some _) =>
    tie_before (S (length (ch_slots m))) (ch_slots m) (c_home hash (length (ch_slots m)) x) 0 x
  | _ => false
  end.

Lemma find_present m x s hs y : Inv0 m → ch_slots m !! s = Some (Some (hs, y)) → equal y x = true →
  c_find hash equal m x = MOk (Some s).
Proof.
  intros (Hok & Hu & Hsz & Hsm) Hs He. unfold c_find.
  assert (Hsl : (s < length (ch_slots m))%nat) by (by eapply lookup_lt_Some).
  destruct (Nat.eqb_spec (length (ch_slots m)) 0); [lia|].
  assert (Hh : hs = c_home hash (length (ch_slots m)) x).
  { destruct (Hok _ _ _ Hs) as [-> _]. by apply home_eq. }
  assert (Hhl : (hs < length (ch_slots m))%nat) by (by eapply slots_ok_home).
  pose proof (find_loop_present (S (length (ch_slots m))) (ch_slots m) x hs s hs y Hok Hu Hhl Hs He) as F.
  rewrite dist_self in F. change (Z.of_nat 0) with 0%Z in F. rewrite <- Hh. apply F; [lia|].
  pose proof (dist_lt _ hs s Hhl Hsl). lia.
Qed.
Lemma find_absent m x : Inv m → absent (ch_slots m) x → c_find hash equal m x = MOk None.
Proof.
  intros ((Hok & Hu & Hsz & Hsm) & Hfree) Ha. unfold c_find.
  destruct (c_iter_has_empty (ch_slots m)) as [s Hs]; [lia|].
  assert (Hsl : (s < length (ch_slots m))%nat) by (by eapply lookup_lt_Some).
  destruct (Nat.eqb_spec (length (ch_slots m)) 0); [lia|].
  assert (Hh : (c_home hash (length (ch_slots m)) x < length (ch_slots m))%nat) by (apply home_lt; lia).
  eapply find_loop_absent; [done..|].
  pose proof (dist_lt _ _ s Hh Hsl). lia.
Qed.

Lemma put_internal_present m x s hs y : Inv0 m →
  ch_slots m !! s = Some (Some (hs, y)) → equal y x = true → put_ties m x = false →
  c_put_internal hash equal m x
    = MOk (CHmap (<[s := Some (c_home hash (length (ch_slots m)) x, x)]> (ch_slots m)) (ch_items m), false).
Proof.
  intros HI Hs He Ht. unfold put_ties in Ht. rewrite (find_present m x s hs y HI Hs He) in Ht.
  destruct HI as (Hok & Hu & Hsz & Hsm). unfold c_put_internal.
  assert (Hsl : (s < length (ch_slots m))%nat) by (by eapply lookup_lt_Some).
  destruct (Nat.eqb_spec (length (ch_slots m)) 0); [lia|].
  set (h := c_home hash (length (ch_slots m)) x) in *.
  assert (Hh : (h < length (ch_slots m))%nat) by (apply home_lt; lia).
  pose proof (put_loop_present (S (length (ch_slots m))) (ch_slots m) h x h s hs y Hok Hu eq_refl Hh Hs He) as F.
  rewrite dist_self in F. change (Z.of_nat 0) with 0%Z in F. rewrite F; [done|lia| |done].
  pose proof (dist_lt _ h s Hh Hsl). lia.
Qed.

Lemma Inv0_overwrite m s hs y x : Inv0 m → ch_slots m !! s = Some (Some (hs, y)) → equal y x = true →
  Inv0 (CHmap (<[s := Some (c_home hash (length (ch_slots m)) x, x)]> (ch_slots m)) (ch_items m)).
Proof.
  intros (Hok & Hu & Hsz & Hsm) Hs He.
  assert (Hsl : (s < length (ch_slots m))%nat) by (by eapply lookup_lt_Some).
  destruct (Hok _ _ _ Hs) as [Hhs Hrs].
  assert (Hh : hs = c_home hash (length (ch_slots m)) x) by (rewrite Hhs; by apply home_eq).
  rewrite <- Hh.
  assert (Hov : ∀ h0 t, reach (ch_slots m) None h0 t →
     reach (<[s := Some (hs, x)]> (ch_slots m)) None h0 t).
  { intros h0 t Hr. by eapply reach_overwrite. }
  unfold Inv0. cbn [ch_slots ch_items]. rewrite insert_length. split_and!; try done.
  - intros i h0 y0 Hi. rewrite insert_length. destruct (decide (i = s)) as [->|].
    + rewrite list_lookup_insert in Hi by done. injection Hi as <- <-. split; [done|]. by apply Hov.
    + rewrite list_lookup_insert_ne in Hi by done. destruct (Hok _ _ _ Hi). split; [done|]. by apply Hov.
  - eapply uniq_fill; [done..|]. intros i' h0 y0 Hne Hi.
    destruct (equal y0 x) eqn:C; [|done]. exfalso. apply Hne. eapply Hu; [done..|].
    eapply eq_trans'; [done|]. by apply eq_sym'.
  - pose proof (c_iter_insert (ch_slots m) s _ (Some (hs, x)) Hs) as P. cbn in P.
    apply Permutation_length in P. cbn in P. rewrite Hsz. lia.
Qed.

Lemma rehash_loop_ok old : ∀ m,
  Inv0 m → uniq old → (∀ i h y, old !! i = Some (Some (h, y)) → absent (ch_slots m) y) →
  (N.of_nat (length (c_iter old)) + ch_items m < N.of_nat (length (ch_slots m)))%N →
  (ideal_size (N.of_nat (length (c_iter old)) + ch_items m) ≤ N.of_nat (length (ch_slots m)))%N →
  ∃ m', c_rehash_loop hash equal old m = MOk m' ∧ Inv0 m' ∧
        length (ch_slots m') = length (ch_slots m) ∧
        c_iter (ch_slots m') ≡ₚ c_iter old ++ c_iter (ch_slots m).
Proof.
  induction old as [|[[h y]|] old IH]; intros m HI Huo Ha Hl Hid.
  - exists m. done.
  - cbn [c_rehash_loop]. rewrite c_iter_cons in Hl, Hid |- *. cbn [ent app length] in Hl, Hid.
    destruct (put_internal_absent m y HI (Ha 0%nat h y eq_refl)) as (m1 & E1 & HI1 & Hl1 & HP1); [lia|].
    assert (Hi1 : ch_items m1 = (ch_items m + 1)%N).
    { destruct HI as (_ & _ & Hz & _), HI1 as (_ & _ & Hz1 & _).
      rewrite Hz1, Hz, HP1. cbn. lia. }
    rewrite E1. cbn [mbind_ fst snd].
    destruct (N.ltb_spec (N.of_nat (length (ch_slots m1))) (ideal_size (ch_items m1))) as [Hlt|Hge].
    { exfalso. rewrite Hl1, Hi1 in Hlt.
      pose proof (ideal_size_mono (ch_items m + 1) (N.of_nat (S (length (c_iter old))) + ch_items m)). lia. }
    cbn [andb].
    destruct (IH m1) as (m' & -> & HI' & Hl' & HP'); try done.
    + intros i1 i2 h1 h2 e1 e2 H1 H2 C. specialize (Huo (S i1) (S i2) _ _ _ _ H1 H2 C). lia.
    + intros i h' y' Hi. apply absent_iter. intros z Hz. rewrite HP1 in Hz.
      apply elem_of_cons in Hz as [->|Hz].
      * destruct (equal y y') eqn:C; [|done].
        specialize (Huo 0%nat (S i) _ _ y y' eq_refl Hi C). lia.
      * pose proof (Ha (S i) h' y' Hi) as Hb. rewrite absent_iter in Hb. by apply Hb.
    + rewrite Hl1, Hi1. lia.
    + rewrite Hl1, Hi1. replace (N.of_nat (length (c_iter old)) + (ch_items m + 1))%N
        with (N.of_nat (S (length (c_iter old))) + ch_items m)%N by lia. done.
    + exists m'. split; [done|]. split; [done|]. split; [lia|].
      rewrite HP', HP1. cbn. by rewrite Permutation_middle.
  - cbn [c_rehash_loop]. rewrite c_iter_cons in Hl, Hid |- *. cbn [ent app] in *. apply IH; try done.
    + intros i1 i2 h1 h2 e1 e2 H1 H2 C. specialize (Huo (S i1) (S i2) _ _ _ _ H1 H2 C). lia.
    + intros i h y Hi. by apply (Ha (S i) h).
Qed.

Lemma replicate_Inv0 n : (n < 2 ^ 60)%N → Inv0 (CHmap (replicate (N.to_nat n) None) 0).
Proof.
  intros Hn. unfold Inv0. cbn [ch_slots ch_items]. rewrite c_iter_replicate, replicate_length.
  split_and!; [| |done|lia].
  - intros i h y Hi. apply lookup_replicate in Hi as [? _]. done.
  - intros i1 i2 h1 h2 e1 e2 Hi. apply lookup_replicate in Hi as [? _]. done.
Qed.

Lemma rehash_ok m : Inv0 m →
  c_rehash hash equal m (ideal_size (ch_items m)) = MNoMem ∨
  ∃ m', c_rehash hash equal m (ideal_size (ch_items m)) = MOk m' ∧ Inv m' ∧
        c_iter (ch_slots m') ≡ₚ c_iter (ch_slots m).
Proof.
  intros HI. pose proof HI as (Hok & Hu & Hsz & Hsm). unfold c_rehash, c_alloc.
  pose proof (c_iter_length_le (ch_slots m)).
  pose proof (ideal_size_gt (ch_items m) ltac:(lia)) as Hgt.
  set (n := ideal_size (ch_items m)) in *.
  destruct (N.ltb_spec n (2 ^ 60)) as [Hn|]; [|by left]. right. cbn [mbind_].
  destruct (rehash_loop_ok (ch_slots m) (CHmap (replicate (N.to_nat n) None) 0))
    as (m' & -> & HI' & Hl' & HP').
  - by apply replicate_Inv0.
  - done.
  - intros i h y Hi. cbn. intros i' h' y' Hi'. apply lookup_replicate in Hi' as [? _]. done.
  - cbn [ch_slots ch_items]. rewrite replicate_length. lia.
  - cbn [ch_slots ch_items]. rewrite replicate_length, N.add_0_r, <- Hsz. fold n. lia.
  - cbn [ch_slots] in *. rewrite c_iter_replicate, app_nil_r in HP'.
    rewrite replicate_length in Hl'.
    exists m'. split; [done|]. split; [|done]. split; [done|].
    destruct HI' as (_ & _ & -> & _). rewrite HP', Hl', <- Hsz. lia.
Qed.

Definition R (m : chmap) (l : list E) : Prop := Inv m ∧ c_iter (ch_slots m) ≡ₚ l.

Notation ks_mem := (ks_mem equal).
Notation ks_find := (ks_find equal).
Notation ks_remove := (ks_remove equal).
Notation ks_put := (ks_put equal).
Notation ks_step := (ks_step equal).
Notation ks_run := (ks_run equal).

Lemma ks_mem_true e l x : x ∈ l → equal x e = true → ks_mem e l = true.
Proof. intros Hx C. apply existsb_exists. exists x. split; [by apply elem_of_list_In|done]. Qed.
Lemma ks_mem_false e l : (∀ x, x ∈ l → equal x e = false) → ks_mem e l = false.
Proof.
  intros H. unfold CHmapSpec.ks_mem. destruct (existsb _ _) eqn:X; [|done].
  apply existsb_exists in X as (x & Hx & C). apply elem_of_list_In in Hx. rewrite H in C; done.
Qed.
Lemma filter_perm (P : E → bool) (l l' : list E) : l ≡ₚ l' → List.filter P l ≡ₚ List.filter P l'.
Proof.
  induction 1; cbn; [done|..].
  - case_match; [by constructor|done].
  - repeat case_match; solve [done | by constructor].
  - by etrans.
Qed.
Lemma filter_absent (l : list E) e : (∀ x, x ∈ l → equal x e = false) →
  List.filter (λ x, negb (equal x e)) l = l.
Proof.
  induction l as [|x l IH]; intros H; [done|]. cbn.
  rewrite (H x) by set_solver. cbn. f_equal. apply IH. set_solver.
Qed.
(** Removing the only element equal to [x]. *)
Lemma remove_one d s hs y x : uniq d → d !! s = Some (Some (hs, y)) → equal y x = true →
  ks_remove x (c_iter d) ≡ₚ c_iter (<[s := None]> d).
Proof.
  intros Hu Hs C. unfold CHmapSpec.ks_remove.
  pose proof (c_iter_insert d s (Some (hs, y)) None Hs) as P. cbn in P.
  rewrite <- (filter_perm _ _ _ P). cbn. rewrite C. cbn.
  rewrite filter_absent; [done|]. apply absent_iter. intros i h e Hi.
  assert (Hsl : (s < length d)%nat) by (by eapply lookup_lt_Some).
  destruct (decide (i = s)) as [->|Hne]; [by rewrite list_lookup_insert in Hi|].
  rewrite list_lookup_insert_ne in Hi by done.
  destruct (equal e x) eqn:C'; [|done]. exfalso. apply Hne. eapply Hu; [done..|].
  eapply eq_trans'; [done|]. by apply eq_sym'.
Qed.

Lemma put_refines m l x : R m l → put_ties m x = false →
  c_put hash equal m x = MNoMem ∨
  ∃ m', c_put hash equal m x = MOk (m', negb (ks_mem x l)) ∧ R m' (ks_put x l).
Proof.
  intros [[HI Hfree] HP] Ht. unfold c_put.
  destruct (absent_dec (ch_slots m) x) as [Ha|(s & h & y & Hs & C)].
  - destruct (put_internal_absent m x HI Ha Hfree) as (m1 & -> & HI1 & Hl1 & HP1).
    cbn [mbind_ fst snd].
    assert (Ha' : ∀ y, y ∈ l → equal y x = false).
    { rewrite absent_iter in Ha. intros y Hy. apply Ha. by rewrite HP. }
    rewrite ks_mem_false by done.
    assert (Hsp : c_iter (ch_slots m1) ≡ₚ ks_put x l).
    { rewrite HP1, HP. unfold CHmapSpec.ks_put, CHmapSpec.ks_remove. by rewrite filter_absent. }
    unfold c_resize_more.
    destruct (N.ltb_spec (N.of_nat (length (ch_slots m1))) (ideal_size (ch_items m1))).
    + destruct (rehash_ok m1 HI1) as [->|(m2 & -> & HI2 & HP2)]; [by left|]. right. cbn [mbind_].
      exists m2. split; [done|]. split; [done|]. by rewrite HP2.
    + right. cbn [mbind_]. exists m1. split; [done|]. split; [|done]. split; [done|].
      pose proof HI1 as (_ & _ & Hz & Hsm). pose proof (c_iter_length_le (ch_slots m1)).
      pose proof (ideal_size_gt (ch_items m1) ltac:(lia)). lia.
  - right. rewrite (put_internal_present m x s h y HI Hs C Ht). cbn [mbind_ fst snd].
    rewrite (ks_mem_true x l y); [|rewrite <- HP; apply elem_of_c_iter; eauto|done].
    eexists. split; [done|]. split.
    + split; [by eapply Inv0_overwrite|]. cbn [ch_slots ch_items]. by rewrite insert_length.
    + cbn [ch_slots]. unfold CHmapSpec.ks_put.
      assert (EQ : ks_remove x l ≡ₚ c_iter (<[s := None]> (ch_slots m))).
      { rewrite <- (remove_one (ch_slots m) s h y x); [|apply HI|done|done].
        symmetry. by apply filter_perm. }
      rewrite EQ.
      assert (Hsl : (s < length (ch_slots m))%nat) by (by eapply lookup_lt_Some).
      pose proof (c_iter_insert (<[s := None]> (ch_slots m)) s None
        (Some (c_home hash (length (ch_slots m)) x, x))) as P.
      rewrite list_insert_insert in P. cbn in P. apply P. by apply list_lookup_insert.
Qed.

Lemma get_refines m l x : R m l → c_get hash equal m x = MOk (ks_find x l).
Proof.
  intros [HI HP]. unfold c_get.
  destruct (absent_dec (ch_slots m) x) as [Ha|(s & h & y & Hs & C)].
  - rewrite (find_absent m x HI Ha). cbn [mbind_]. f_equal. symmetry.
    unfold CHmapSpec.ks_find. destruct (List.find _ l) as [y|] eqn:F; [|done].
    apply find_some in F as [Hy Cy]. apply elem_of_list_In in Hy. rewrite <- HP in Hy.
    rewrite absent_iter in Ha. rewrite Ha in Cy; done.
  - destruct HI as [HI Hfree]. rewrite (find_present m x s h y HI Hs C). cbn [mbind_]. rewrite Hs. f_equal.
    symmetry. unfold CHmapSpec.ks_find. destruct (List.find _ l) as [z|] eqn:F.
    + apply find_some in F as [Hz Cz]. apply elem_of_list_In in Hz. rewrite <- HP in Hz.
      apply elem_of_c_iter in Hz as (i & h' & Hi). destruct HI as (_ & Hu & _).
      assert (i = s) as ->. { eapply Hu; [done..|]. eapply eq_trans'; [done|]. by apply eq_sym'. }
      by simplify_eq.
    + exfalso. eapply find_none in F; [|apply elem_of_list_In; rewrite <- HP; apply elem_of_c_iter; eauto].
      cbn in F. congruence.
Qed.

Lemma remove_refines m l x : R m l →
  c_remove hash equal m x = MNoMem ∨
  ∃ m', c_remove hash equal m x = MOk m' ∧ R m' (ks_remove x l).
Proof.
  intros [HI HP]. unfold c_remove.
  destruct (absent_dec (ch_slots m) x) as [Ha|(s & h & y & Hs & C)].
  - right. rewrite (find_absent m x HI Ha). cbn [mbind_]. exists m. split; [done|]. split; [done|].
    unfold CHmapSpec.ks_remove. rewrite filter_absent; [done|].
    rewrite absent_iter in Ha. intros z Hz. apply Ha. by rewrite HP.
  - destruct HI as [HI Hfree]. rewrite (find_present m x s h y HI Hs C). cbn [mbind_].
    pose proof HI as (Hok & Hu & Hsz & Hsm).
    assert (Hsl : (s < length (ch_slots m))%nat) by (by eapply lookup_lt_Some).
    destruct (c_iter_has_empty (ch_slots m)) as [s0 Hs0]; [lia|].
    assert (Hne : s0 ≠ s) by congruence.
    destruct (backshift_ok (S (length (ch_slots m))) (<[s := None]> (ch_slots m)) s s0)
      as (d' & -> & Hl' & Hok' & Hu' & HP'); rewrite ?insert_length; try done.
    + intros i h0 y0 Hi. rewrite insert_length.
      destruct (decide (i = s)) as [->|]; [by rewrite list_lookup_insert in Hi|].
      rewrite list_lookup_insert_ne in Hi by done. destruct (Hok _ _ _ Hi) as [Hh Hr]. split; [done|].
      intros e He. rewrite insert_length.
      destruct (decide (pos (length (ch_slots m)) h0 e = s)) as [->|Hp]; [by left|]. right.
      destruct (Hr e He) as [?|(h' & y' & Hn & Hp')]; [done|].
      exists h', y'. by rewrite list_lookup_insert_ne.
    + intros i1 i2 h1 h2 e1 e2 G1 G2 C'.
      destruct (decide (i1 = s)) as [->|]; [by rewrite list_lookup_insert in G1|].
      destruct (decide (i2 = s)) as [->|]; [by rewrite list_lookup_insert in G2|].
      rewrite list_lookup_insert_ne in G1, G2 by done. by eapply Hu.
    + by apply list_lookup_insert.
    + by rewrite list_lookup_insert_ne.
    + assert (s0 < length (ch_slots m))%nat by (by eapply lookup_lt_Some).
      pose proof (dist_lt (length (ch_slots m)) s s0). lia.
    + rewrite insert_length in Hl'. cbn [mbind_].
      set (m1 := CHmap d' (N.pred (ch_items m))).
      assert (Hsp : c_iter d' ≡ₚ ks_remove x l).
      { rewrite HP'. unfold CHmapSpec.ks_remove. rewrite <- (filter_perm _ _ _ HP).
        symmetry. by eapply remove_one. }
      pose proof (c_iter_insert (ch_slots m) s (Some (h, y)) None Hs) as P. cbn in P.
      pose proof (Permutation_length P) as L1. cbn in L1.
      pose proof (Permutation_length HP') as L2.
      assert (HI1 : Inv0 m1).
      { unfold Inv0. cbn [m1 ch_slots ch_items]. split_and!; try done; [lia|by rewrite Hl']. }
      unfold c_resize_less.
      destruct (ideal_size (ch_items m1) <? N.of_nat (length (ch_slots m1)))%N.
      * destruct (rehash_ok m1 HI1) as [->|(m2 & -> & HI2 & HP2)]; [by left|]. right.
        exists m2. split; [done|]. split; [done|]. rewrite HP2. done.
      * right. exists m1. split; [done|]. split; [|done]. split; [done|].
        cbn [m1 ch_slots ch_items]. lia.
Qed.

Definition op_ties (m : chmap) (o : cop E) : bool :=
  match o with CPut x => put_ties m x | _ => false end.
Fixpoint no_tie (m : chmap) (ops : list (cop E)) : bool :=
  match ops with
  | [] => true
  | o :: rest =>
    negb (op_ties m o) &&
    match c_step hash equal m o with MOk r => no_tie (fst r) rest | _ => true end
  end.

Lemma step_refines m l o : R m l → op_ties m o = false →
  c_step hash equal m o = MNoMem ∨
  ∃ m', c_step hash equal m o = MOk (m', snd (ks_step l o)) ∧ R m' (fst (ks_step l o)).
Proof.
  intros HR Ht. destruct o as [x|x|x|]; cbn [c_step CHmapSpec.ks_step fst snd op_ties] in *.
  - destruct (put_refines m l x HR Ht) as [->|(m' & -> & HR')]; [by left|right]. by exists m'.
  - right. rewrite (get_refines m l x HR). cbn [mbind_]. by exists m.
  - destruct (remove_refines m l x HR) as [->|(m' & -> & HR')]; [by left|right]. by exists m'.
  - right. exists m. split; [|done]. destruct HR as [((_ & _ & -> & _) & _) HP]. by rewrite HP.
Qed.
Lemma run_refines ops : ∀ m l, R m l → no_tie m ops = true →
  c_run hash equal m ops = MNoMem ∨
  ∃ m', c_run hash equal m ops = MOk (m', snd (ks_run l ops)) ∧ R m' (fst (ks_run l ops)).
Proof.
  induction ops as [|o ops IH]; intros m l HR Ht.
  - right. by exists m.
  - cbn [no_tie] in Ht. apply andb_prop in Ht as [Ht1 Ht2]. apply negb_true_iff in Ht1.
    cbn [c_run CHmapSpec.ks_run fst snd].
    destruct (step_refines m l o HR Ht1) as [->|(m1 & Es & HR1)]; [by left|].
    rewrite Es in Ht2 |- *. cbn [mbind_ fst snd] in *.
    destruct (IH m1 _ HR1 Ht2) as [->|(m2 & -> & HR2)]; [by left|right]. by exists m2.
Qed.
Lemma init_R n : (n < 2 ^ 64)%N → @c_init E n = MNoMem ∨ ∃ m, @c_init E n = MOk m ∧ R m [].
Proof.
  intros Hn. unfold c_init, c_alloc.
  destruct (N.ltb_spec (ideal_size n) (2 ^ 60)) as [H|]; [right|by left].
  eexists. split; [done|]. split; [|cbn; by rewrite c_iter_replicate].
  split; [by apply replicate_Inv0|]. cbn [ch_slots ch_items]. rewrite replicate_length.
  pose proof (ideal_size_gt n Hn). lia.
Qed.

(** Clients which put only elements that are not in the map never tie. *)
Fixpoint fresh_puts (l : list E) (ops : list (cop E)) : Prop :=
  match ops with
  | [] => True
  | o :: rest =>
    match o with CPut x => ∀ y, y ∈ l → equal y x = false | _ => True end ∧
    fresh_puts (fst (ks_step l o)) rest
  end.
Lemma fresh_no_tie ops : ∀ m l, R m l → fresh_puts l ops → no_tie m ops = true.
Proof.
  induction ops as [|o ops IH]; intros m l HR Hf; [done|].
  cbn [fresh_puts no_tie] in *. destruct Hf as [Hf1 Hf2].
  assert (Ht : op_ties m o = false).
  { destruct o as [x| | |]; try done. cbn. unfold put_ties.
    destruct HR as [HI HP]. rewrite find_absent; [done..|]. apply absent_iter.
    intros y Hy. apply Hf1. by rewrite <- HP. }
  rewrite Ht. cbn [negb andb].
  destruct (step_refines m l o HR Ht) as [->|(m1 & -> & HR1)]; [done|]. cbn [fst]. by apply (IH m1 _ HR1).
Qed.
End proofs.
