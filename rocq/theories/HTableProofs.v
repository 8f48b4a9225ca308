From stdpp Require Import list numbers sets.
From Verif Require Import Cyclic HTableModel HTableSpec.

(** * Capacities *)
Notation prime_at m := (nth m ht_primes 0%N).
Lemma primes_sorted x y : (x ≤ y < 15)%nat → (prime_at x ≤ prime_at y)%N.
Proof.
  intros H.
  assert (F : forallb (λ y, forallb (λ x, implb (x <=? y)%nat (prime_at x <=? prime_at y)%N)
     (seq 0 15)) (seq 0 15) = true) by (vm_compute; reflexivity).
  rewrite forallb_forall in F. specialize (F y). rewrite in_seq in F. specialize (F ltac:(lia)).
  rewrite forallb_forall in F. specialize (F x). rewrite in_seq in F. specialize (F ltac:(lia)).
  rewrite implb_true_iff in F. apply N.leb_le, F. apply Nat.leb_le. lia.
Qed.
Lemma next_prime_loop_spec fuel : ∀ i j k,
  (j ≤ k ≤ 15)%nat → (k - j ≤ fuel)%nat →
  (∀ x, (x < j)%nat → (prime_at x ≤ i)%N) →
  (∀ x, (k ≤ x < 15)%nat → (i < prime_at x)%N) →
  let r := next_prime_loop fuel i j k in
  (r ≤ 15)%nat ∧ (∀ x, (x < r)%nat → (prime_at x ≤ i)%N) ∧
  (∀ x, (r ≤ x < 15)%nat → (i < prime_at x)%N).
Proof.
  induction fuel as [|fuel IH]; intros i j k Hjk Hf Hlo Hhi; cbn [next_prime_loop].
  - split; [lia|]. split; [intros x Hx; apply Hlo; lia|done].
  - destruct (Nat.ltb_spec j k).
    + assert (Hm : (j ≤ (j + k) / 2 < k)%nat).
      { split; [apply Nat.div_le_lower_bound; lia|apply Nat.div_lt_upper_bound; lia]. }
      set (m := ((j + k) / 2)%nat) in *.
      destruct (N.leb_spec (prime_at m) i).
      * apply IH; [lia|lia| |done]. intros x Hx.
        apply N.le_trans with (prime_at m); [|done]. apply primes_sorted. lia.
      * apply IH; [lia|lia|done|]. intros x Hx.
        apply N.lt_le_trans with (prime_at m); [done|]. apply primes_sorted. lia.
    + split; [lia|]. split; [intros x Hx; apply Hlo; lia|done].
Qed.
(** [nextPrime] returns the smallest listed prime above its argument. *)
Lemma next_prime_spec i : (i < 1048583)%N →
  (i < next_prime i)%N ∧ In (next_prime i) ht_primes ∧
  ∀ p, In p ht_primes → (i < p)%N → (next_prime i ≤ p)%N.
Proof.
  intros Hi. unfold next_prime. change (length ht_primes) with 15%nat.
  destruct (next_prime_loop_spec 15 i 0 15) as (Hr & Hlo & Hhi); [lia..| |lia|].
  { intros x Hx. lia. }
  set (r := next_prime_loop _ _ _ _) in *.
  assert (Hr15 : (r < 15)%nat).
  { destruct (decide (r = 15%nat)) as [E|]; [|lia].
    specialize (Hlo 14%nat ltac:(lia)). cbn in Hlo. lia. }
  destruct (Nat.leb_spec 15 r); [lia|].
  split; [apply Hhi; lia|]. split; [apply nth_In; change (r < 15)%nat; done|].
  intros p Hp Hip. destruct (In_nth _ _ 0%N Hp) as (x & Hx & <-).
  change (x < 15)%nat in Hx. apply primes_sorted. split; [|lia].
  destruct (le_lt_dec r x); [done|]. specialize (Hlo x l). lia.
Qed.
Lemma next_prime_pos i : (0 < next_prime i)%N.
Proof.
  unfold next_prime. set (k := next_prime_loop _ _ _ _).
  set (j := if (length ht_primes <=? k)%nat then _ else _).
  assert (Hj : (j < 15)%nat).
  { unfold j. destruct (Nat.leb_spec (length ht_primes) k); cbn in *; lia. }
  apply N.lt_le_trans with (prime_at 0); [cbn; lia|]. apply primes_sorted. lia.
Qed.
Lemma rehash_capacity_gt cap : (N.of_nat cap < rehash_capacity cap)%N.
Proof.
  unfold rehash_capacity. destruct (N.leb_spec (next_prime (N.of_nat cap)) (N.of_nat cap)); lia.
Qed.

Section contents.
Context {E : Type}.
Notation bucket := (option (N * E)).
Implicit Types d : list bucket.

Definition ent (o : bucket) : list E := match o with Some (_, e) => [e] | None => [] end.
Lemma enumerate_cons o d : enumerate (o :: d) = ent o ++ enumerate d.
Proof. by destruct o as [[]|]. Qed.
Local Arguments enumerate : simpl never.
Lemma enumerate_insert d i old x : d !! i = Some old →
  ent old ++ enumerate (<[i := x]> d) ≡ₚ ent x ++ enumerate d.
Proof.
  revert i. induction d as [|o d IH]; intros i Hi; [done|].
  destruct i as [|i].
  - injection Hi as ->. cbn. rewrite !enumerate_cons.
    rewrite !app_assoc. apply Permutation_app_tail. apply Permutation_app_comm.
  - cbn in Hi |- *. rewrite !enumerate_cons.
    rewrite (Permutation_app_swap_app (ent old)), (IH _ Hi).
    apply Permutation_app_swap_app.
Qed.
Lemma elem_of_enumerate d e : e ∈ enumerate d ↔ ∃ i h, d !! i = Some (Some (h, e)).
Proof.
  induction d as [|o d IH].
  - split; [intros H; by apply elem_of_nil in H|]. intros (i & h & ?). done.
  - rewrite enumerate_cons, elem_of_app, IH. split.
    + intros [H|(i & h & ?)].
      * destruct o as [[h e']|]; cbn in H; [|by apply elem_of_nil in H].
        apply elem_of_list_singleton in H as ->. by exists 0%nat, h.
      * by exists (S i), h.
    + intros (i & h & H). destruct i as [|i].
      * injection H as ->. left. cbn. set_solver.
      * right. eauto.
Qed.
Lemma enumerate_replicate n : enumerate (replicate n (None : bucket)) = [].
Proof. by induction n. Qed.
Lemma enumerate_length_le d : (length (enumerate d) ≤ length d)%nat.
Proof.
  induction d as [|[[h e]|] d IH]; [done|..]; rewrite enumerate_cons; cbn; lia.
Qed.
Lemma enumerate_has_empty d : (length (enumerate d) < length d)%nat → ∃ i, d !! i = Some None.
Proof.
  induction d as [|[[h e]|] d IH]; [cbn; lia|..]; rewrite enumerate_cons; cbn; intros H;
    [|by exists 0%nat].
  destruct IH as [i Hi]; [lia|]. by exists (S i).
Qed.

End contents.
Local Arguments enumerate : simpl never.

Section proofs.
Context {E : Type} (hash : E → N) (compare : E → E → bool).
Context (cmp_sym : ∀ a b, compare a b = true → compare b a = true)
        (cmp_trans : ∀ a b c, compare a b = true → compare b c = true → compare a c = true)
        (hash_cmp : ∀ a b, compare a b = true → hash a = hash b).
Notation bucket := (option (N * E)).
Implicit Types d : list bucket.

(** * Invariant of linear probing *)
Definition occupied d (i : nat) : Prop := ∃ b, d !! i = Some (Some b).
Definition lreach d (h t : nat) : Prop :=
  ∀ e, (e < t)%nat → occupied d (pos (length d) h e).
Definition hm (d : list bucket) (h : N) : nat := home (length d) h.
Definition tbl_ok d : Prop :=
  ∀ i h e, d !! i = Some (Some (h, e)) →
    h = stored_hash hash e ∧ lreach d (hm d h) (dist (length d) (hm d h) i).
Definition uniq d : Prop :=
  ∀ i1 i2 h1 h2 e1 e2, d !! i1 = Some (Some (h1, e1)) → d !! i2 = Some (Some (h2, e2)) →
    compare e1 e2 = true → i1 = i2.
Definition absent d (e : E) : Prop :=
  ∀ i h e', d !! i = Some (Some (h, e')) → compare e' e = false.

Lemma home_lt cap h : (0 < cap)%nat → (home cap h < cap)%nat.
Proof.
  intros. unfold home.
  assert (h mod N.of_nat cap < N.of_nat cap)%N by (apply N.mod_lt; lia). lia.
Qed.
Lemma stored_cmp a b : compare a b = true → stored_hash hash a = stored_hash hash b.
Proof. intros H. unfold stored_hash. by rewrite (hash_cmp _ _ H). Qed.
Lemma cmp_false_sym a b : compare a b = false → compare b a = false.
Proof. intros H. destruct (compare b a) eqn:C; [|done]. apply cmp_sym in C. congruence. Qed.

Lemma lreach_mono d d' h t : length d' = length d →
  (∀ i, occupied d i → occupied d' i) → lreach d h t → lreach d' h t.
Proof. intros Hl Ho Hr e He. rewrite Hl. by apply Ho, Hr. Qed.
Lemma occupied_fill d i b j : (i < length d)%nat → occupied d j → occupied (<[i := Some b]> d) j.
Proof.
  intros Hi [b' Hb]. destruct (decide (i = j)) as [->|].
  - exists b. by rewrite list_lookup_insert.
  - exists b'. by rewrite list_lookup_insert_ne.
Qed.

(** The probe of an absent element ends in a free bucket all of whose
    predecessors on the path are occupied. *)
Lemma probe_absent fuel : ∀ d i e s,
  absent d e → (i < length d)%nat → d !! s = Some None →
  (dist (length d) i s < fuel)%nat →
  ∃ f, probe_loop compare fuel d i (stored_hash hash e) e = TOk (inl f) ∧
       d !! f = Some None ∧ lreach d i (dist (length d) i f).
Proof.
  induction fuel as [|fuel IH]; intros d i e s Ha Hi Hs Hf; [lia|].
  cbn [probe_loop]. destruct (d !! i) as [[[h' e']|]|] eqn:Hdi.
  - rewrite (Ha _ _ _ Hdi), andb_false_r.
    assert (Hsl : (s < length d)%nat) by (by eapply lookup_lt_Some).
    assert (Hne : s ≠ i) by congruence.
    destruct (IH d (increment_wrap (length d) i) e s) as (f & -> & Hdf & Hr); try done.
    { by apply succ_wrap_lt. }
    { pose proof (dist_from_succ_wrap (length d) i s). unfold increment_wrap. lia. }
    exists f. split; [done|]. split; [done|].
    assert (Hfl : (f < length d)%nat) by (by eapply lookup_lt_Some).
    assert (Hfi : f ≠ i) by congruence.
    intros t Ht. unfold increment_wrap in *.
    rewrite <- (dist_from_succ_wrap (length d) i f) in Ht by done.
    destruct t as [|t]; [exists (h', e'); by rewrite pos_0|].
    specialize (Hr t ltac:(lia)).
    assert (EQ : pos (length d) i (S t) = pos (length d) (succ_wrap (length d) i) t).
    { pose proof (dist_lt (length d) (succ_wrap (length d) i) f ltac:(by apply succ_wrap_lt) Hfl).
      clear -Hi Ht H. cyc. }
    by rewrite EQ.
  - exists i. split; [done|]. split; [done|]. intros t Ht. rewrite dist_self in Ht. lia.
  - apply lookup_ge_None in Hdi. lia.
Qed.

Lemma probe_present fuel : ∀ d e i s hs es,
  tbl_ok d → uniq d → d !! s = Some (Some (hs, es)) → compare es e = true →
  (i < length d)%nat →
  (dist (length d) (hm d hs) i ≤ dist (length d) (hm d hs) s)%nat →
  (dist (length d) (hm d hs) s < fuel + dist (length d) (hm d hs) i)%nat →
  probe_loop compare fuel d i (stored_hash hash e) e = TOk (inr s).
Proof.
  induction fuel as [|fuel IH]; intros d e i s hs es Hok Hu Hs Hc Hi Hle Hf; [lia|].
  assert (Hsl : (s < length d)%nat) by (by eapply lookup_lt_Some).
  destruct (Hok _ _ _ Hs) as [Hhs Hr].
  assert (Hhl : (hm d hs < length d)%nat) by (apply home_lt; lia).
  cbn [probe_loop].
  destruct (decide (i = s)) as [->|Hne].
  { rewrite Hs, Hc, Hhs, (stored_cmp _ _ Hc), N.eqb_refl. done. }
  assert (Hlt : (dist (length d) (hm d hs) i < dist (length d) (hm d hs) s)%nat).
  { assert (dist (length d) (hm d hs) i ≠ dist (length d) (hm d hs) s); [|lia].
    intros EQ. apply Hne. rewrite <- (pos_dist (length d) (hm d hs) i), EQ, pos_dist; done. }
  destruct (Hr _ Hlt) as [[h' e'] Hb]. rewrite pos_dist in Hb by done. rewrite Hb.
  destruct (compare e' e) eqn:C.
  { exfalso. apply Hne. eapply Hu; [done..|]. eapply cmp_trans; [done|]. by apply cmp_sym. }
  rewrite andb_false_r.
  pose proof (dist_lt (length d) (hm d hs) s Hhl Hsl).
  apply (IH d e (increment_wrap (length d) i) s hs es); try done; unfold increment_wrap.
  - by apply succ_wrap_lt.
  - rewrite dist_succ_wrap by lia. lia.
  - rewrite dist_succ_wrap by lia. lia.
Qed.

Lemma tbl_fill d f e : tbl_ok d → d !! f = Some None →
  lreach d (hm d (stored_hash hash e)) (dist (length d) (hm d (stored_hash hash e)) f) →
  tbl_ok (<[f := Some (stored_hash hash e, e)]> d).
Proof.
  intros Hok Hf Hr i h e' Hi. unfold hm. rewrite insert_length.
  assert (Hfl : (f < length d)%nat) by (by eapply lookup_lt_Some).
  assert (Hmono : ∀ h t, lreach d h t → lreach (<[f := Some (stored_hash hash e, e)]> d) h t).
  { intros h' t. apply lreach_mono; [apply insert_length|]. intros j. by apply occupied_fill. }
  destruct (decide (i = f)) as [->|].
  - rewrite list_lookup_insert in Hi by done. injection Hi as <- <-. split; [done|]. by apply Hmono.
  - rewrite list_lookup_insert_ne in Hi by done. destruct (Hok _ _ _ Hi). split; [done|]. by apply Hmono.
Qed.
Lemma uniq_fill d f h e : uniq d → d !! f = Some None → absent d e →
  uniq (<[f := Some (h, e)]> d).
Proof.
  intros Hu Hf Ha i1 i2 h1 h2 e1 e2 H1 H2 C.
  assert (Hfl : (f < length d)%nat) by (by eapply lookup_lt_Some).
  destruct (decide (i1 = f)) as [->|N1], (decide (i2 = f)) as [->|N2]; [done|..].
  - rewrite list_lookup_insert in H1 by done. injection H1 as <- <-.
    rewrite list_lookup_insert_ne in H2 by done.
    apply cmp_sym in C. rewrite (Ha _ _ _ H2) in C. done.
  - rewrite list_lookup_insert in H2 by done. injection H2 as <- <-.
    rewrite list_lookup_insert_ne in H1 by done. rewrite (Ha _ _ _ H1) in C. done.
  - rewrite list_lookup_insert_ne in H1, H2 by done. by eapply Hu.
Qed.

Lemma absent_enumerate d e : absent d e ↔ ∀ x, x ∈ enumerate d → compare x e = false.
Proof.
  split.
  - intros Ha x (i & h & Hi)%elem_of_enumerate. by eapply Ha.
  - intros H i h e' Hi. apply H, elem_of_enumerate. eauto.
Qed.
Lemma absent_dec d e : absent d e ∨ ∃ s h x, d !! s = Some (Some (h, x)) ∧ compare x e = true.
Proof.
  induction d as [|o d IH].
  - left. intros i h x H. done.
  - destruct IH as [IH|(s & h & x & ? & ?)].
    + destruct o as [[h x]|].
      * destruct (compare x e) eqn:C.
        -- right. by exists 0%nat, h, x.
        -- left. intros [|i] h' x' H'; cbn in H'; [by simplify_eq|by eapply IH].
      * left. intros [|i] h' x' H'; cbn in H'; [by simplify_eq|by eapply IH].
    + right. by exists (S s), h, x.
Qed.

(** * Rehash *)
Lemma free_from_spec fuel : ∀ d i s, (i < length d)%nat → d !! s = Some None →
  (dist (length d) i s < fuel)%nat →
  ∃ f, free_from fuel d i = TOk f ∧ d !! f = Some None ∧ lreach d i (dist (length d) i f).
Proof.
  induction fuel as [|fuel IH]; intros d i s Hi Hs Hf; [lia|].
  cbn [free_from]. destruct (d !! i) as [[[h' e']|]|] eqn:Hdi.
  - assert (Hsl : (s < length d)%nat) by (by eapply lookup_lt_Some).
    assert (Hne : s ≠ i) by congruence.
    destruct (IH d (increment_wrap (length d) i) s) as (f & -> & Hdf & Hr); try done.
    { by apply succ_wrap_lt. }
    { pose proof (dist_from_succ_wrap (length d) i s). unfold increment_wrap. lia. }
    exists f. split; [done|]. split; [done|].
    assert (Hfl : (f < length d)%nat) by (by eapply lookup_lt_Some).
    assert (Hfi : f ≠ i) by congruence.
    intros t Ht. unfold increment_wrap in *.
    rewrite <- (dist_from_succ_wrap (length d) i f) in Ht by done.
    destruct t as [|t]; [exists (h', e'); by rewrite pos_0|].
    specialize (Hr t ltac:(lia)).
    assert (EQ : pos (length d) i (S t) = pos (length d) (succ_wrap (length d) i) t).
    { pose proof (dist_lt (length d) (succ_wrap (length d) i) f ltac:(by apply succ_wrap_lt) Hfl).
      clear -Hi Ht H. cyc. }
    by rewrite EQ.
  - exists i. split; [done|]. split; [done|]. intros t Ht. rewrite dist_self in Ht. lia.
  - apply lookup_ge_None in Hdi. lia.
Qed.

Lemma rehash_buckets_ok old : ∀ d,
  tbl_ok d → uniq d → uniq old →
  (∀ i h e, old !! i = Some (Some (h, e)) → h = stored_hash hash e ∧ absent d e) →
  (length (enumerate old) + length (enumerate d) < length d)%nat →
  ∃ d', rehash_buckets old d = TOk d' ∧ length d' = length d ∧ tbl_ok d' ∧ uniq d' ∧
        enumerate d' ≡ₚ enumerate old ++ enumerate d.
Proof.
  induction old as [|[[h e]|] old IH]; intros d Hok Hu Huo Ha Hl.
  - exists d. done.
  - cbn [rehash_buckets fst]. rewrite enumerate_cons in Hl |- *. cbn in Hl.
    destruct (Ha 0%nat h e eq_refl) as [-> Habs].
    destruct (enumerate_has_empty d) as [s Hs]; [lia|].
    assert (Hsl : (s < length d)%nat) by (by eapply lookup_lt_Some).
    assert (Hhl : (hm d (stored_hash hash e) < length d)%nat) by (apply home_lt; lia).
    destruct (free_from_spec (S (length d)) d (hm d (stored_hash hash e)) s) as (f & Ef & Hf & Hr);
      [done|done| |].
    { pose proof (dist_lt (length d) (hm d (stored_hash hash e)) s). lia. }
    unfold hm in Ef. rewrite Ef. cbn [tbind].
    set (d1 := <[f := Some (stored_hash hash e, e)]> d).
    pose proof (enumerate_insert d f None (Some (stored_hash hash e, e)) Hf) as HP. cbn in HP.
    fold d1 in HP.
    destruct (IH d1) as (d' & -> & Hl' & Hok' & Hu' & HP').
    + by apply tbl_fill.
    + by apply uniq_fill.
    + intros i1 i2 h1 h2 e1 e2 H1 H2 C. specialize (Huo (S i1) (S i2) _ _ _ _ H1 H2 C). lia.
    + intros i h' e' Hi. destruct (Ha (S i) h' e' Hi) as [-> Habs']. split; [done|].
      apply absent_enumerate. intros x Hx. rewrite HP in Hx. apply elem_of_cons in Hx as [->|Hx].
      * destruct (compare e e') eqn:C; [|done].
        specialize (Huo 0%nat (S i) _ _ e e' eq_refl Hi C). lia.
      * rewrite absent_enumerate in Habs'. by apply Habs'.
    + rewrite HP. cbn. unfold d1. rewrite insert_length. lia.
    + exists d'. split; [done|]. split; [by rewrite Hl'; unfold d1; rewrite insert_length|].
      split; [done|]. split; [done|]. rewrite HP', HP. cbn. by rewrite Permutation_middle.
  - cbn [rehash_buckets]. rewrite enumerate_cons in Hl |- *. cbn in Hl |- *. apply IH; try done.
    + intros i1 i2 h1 h2 e1 e2 H1 H2 C. specialize (Huo (S i1) (S i2) _ _ _ _ H1 H2 C). lia.
    + intros i h e Hi. by apply (Ha (S i)).
Qed.

(** * Table-level invariant *)
Notation set_mem := (set_mem compare).
Notation set_find := (set_find compare).
Notation set_insert := (set_insert compare).
Notation set_remove := (set_remove compare).
Notation set_step := (set_step compare).
Notation set_run := (set_run compare).
Notation htable := (htable E).
Definition TInv (t : htable) : Prop :=
  tbl_ok (ht_slots t) ∧ uniq (ht_slots t) ∧
  ht_size t = N.of_nat (length (enumerate (ht_slots t))) ∧
  (length (enumerate (ht_slots t)) < length (ht_slots t))%nat.

Lemma replicate_tbl n : tbl_ok (replicate n None) ∧ uniq (replicate n None).
Proof.
  split.
  - intros i h e Hi. apply lookup_replicate in Hi as [? _]. done.
  - intros i1 i2 h1 h2 e1 e2 Hi. apply lookup_replicate in Hi as [? _]. done.
Qed.
Lemma new_inv c : TInv (ht_new c).
Proof.
  destruct (replicate_tbl (N.to_nat (next_prime c))) as [H1 H2].
  unfold ht_new, TInv. cbn [ht_slots ht_size]. split_and!; try done.
  - by rewrite enumerate_replicate.
  - rewrite enumerate_replicate, replicate_length. change (length (A:=E) []) with 0%nat. pose proof (next_prime_pos c). lia.
Qed.

Lemma rehash_ok t : tbl_ok (ht_slots t) → uniq (ht_slots t) →
  ht_size t = N.of_nat (length (enumerate (ht_slots t))) →
  ∃ t', ht_rehash t = TOk t' ∧ TInv t' ∧ enumerate (ht_slots t') ≡ₚ enumerate (ht_slots t).
Proof.
  intros Hok Hu Hsz. unfold ht_rehash.
  set (n := rehash_capacity _).
  assert (Hn : (N.of_nat (length (ht_slots t)) < n)%N) by apply rehash_capacity_gt.
  destruct (replicate_tbl (N.to_nat n)) as [H1 H2].
  pose proof (enumerate_length_le (ht_slots t)).
  destruct (rehash_buckets_ok (ht_slots t) (replicate (N.to_nat n) None)) as (d' & -> & Hl & Hok' & Hu' & HP);
    try done.
  - intros i h e Hi. split; [by destruct (Hok _ _ _ Hi)|].
    intros i' h' e' Hi'. apply lookup_replicate in Hi' as [? _]. done.
  - rewrite enumerate_replicate, replicate_length. cbn. lia.
  - rewrite enumerate_replicate, app_nil_r in HP. cbn [tbind]. eexists. split; [done|].
    split; [|done]. unfold TInv. cbn [ht_slots ht_size]. split_and!; try done.
    + by rewrite HP.
    + rewrite HP, Hl, replicate_length. lia.
Qed.

Definition TR (t : htable) (l : list E) : Prop := TInv t ∧ enumerate (ht_slots t) ≡ₚ l.

Lemma set_mem_perm e l l' : l ≡ₚ l' → set_mem e l = set_mem e l'.
Proof.
  intros P. unfold HTableSpec.set_mem. apply Bool.eq_true_iff_eq. rewrite !existsb_exists.
  split; intros (x & Hx & C); exists x; (split; [|done]); apply elem_of_list_In;
    apply elem_of_list_In in Hx; [by rewrite <- P|by rewrite P].
Qed.
Lemma set_mem_true e l x : x ∈ l → compare x e = true → set_mem e l = true.
Proof. intros Hx C. apply existsb_exists. exists x. split; [by apply elem_of_list_In|done]. Qed.
Lemma set_mem_false e l : (∀ x, x ∈ l → compare x e = false) → set_mem e l = false.
Proof.
  intros H. unfold HTableSpec.set_mem. destruct (existsb _ _) eqn:X; [|done].
  apply existsb_exists in X as (x & Hx & C). apply elem_of_list_In in Hx. rewrite H in C; done.
Qed.

Lemma find_cases t l e : TR t l →
  (absent (ht_slots t) e ∧
   ∃ f, probe_loop compare (S (length (ht_slots t))) (ht_slots t)
          (home (length (ht_slots t)) (stored_hash hash e)) (stored_hash hash e) e = TOk (inl f) ∧
        ht_slots t !! f = Some None ∧
        lreach (ht_slots t) (hm (ht_slots t) (stored_hash hash e))
          (dist (length (ht_slots t)) (hm (ht_slots t) (stored_hash hash e)) f)) ∨
  (∃ s h x, ht_slots t !! s = Some (Some (h, x)) ∧ compare x e = true ∧
     probe_loop compare (S (length (ht_slots t))) (ht_slots t)
          (home (length (ht_slots t)) (stored_hash hash e)) (stored_hash hash e) e = TOk (inr s)).
Proof.
  intros [(Hok & Hu & Hsz & Hfree) _].
  destruct (enumerate_has_empty _ Hfree) as [s0 Hs0].
  assert (Hs0l : (s0 < length (ht_slots t))%nat) by (by eapply lookup_lt_Some).
  destruct (absent_dec (ht_slots t) e) as [Ha|(s & h & x & Hs & C)].
  - left. split; [done|].
    assert (Hhl : (home (length (ht_slots t)) (stored_hash hash e) < length (ht_slots t))%nat)
      by (apply home_lt; lia).
    destruct (probe_absent (S (length (ht_slots t))) (ht_slots t)
       (home (length (ht_slots t)) (stored_hash hash e)) e s0) as (f & Ef & Hf & Hr); try done.
    { pose proof (dist_lt (length (ht_slots t)) (home (length (ht_slots t)) (stored_hash hash e)) s0). lia. }
    by exists f.
  - right. exists s, h, x. split; [done|]. split; [done|].
    assert (Hsl : (s < length (ht_slots t))%nat) by (by eapply lookup_lt_Some).
    destruct (Hok _ _ _ Hs) as [Hh _].
    assert (EQ : stored_hash hash e = h) by (rewrite Hh; symmetry; by apply stored_cmp).
    rewrite EQ. rewrite <- EQ at 2.
    assert (Hhl : (hm (ht_slots t) h < length (ht_slots t))%nat) by (apply home_lt; lia).
    apply (probe_present _ (ht_slots t) e _ s h x); try done.
    + unfold hm. rewrite dist_self. lia.
    + unfold hm. rewrite dist_self.
      pose proof (dist_lt (length (ht_slots t)) (hm (ht_slots t) h) s). unfold hm in *. lia.
Qed.

Lemma insert_refines t l e : TR t l →
  ∃ t', ht_insert hash compare t e = TOk (t', negb (set_mem e l)) ∧ TR t' (set_insert e l).
Proof.
  intros HR. unfold ht_insert, HTableSpec.set_insert.
  destruct (find_cases t l e HR) as [(Ha & f & -> & Hf & Hr)|(s & h & x & Hs & C & ->)];
    cbn [tbind]; destruct HR as [HI HP]; pose proof HI as (Hok & Hu & Hsz & Hfree).
  - assert (Hm : set_mem e l = false).
    { apply set_mem_false. intros x Hx. rewrite <- HP in Hx. rewrite absent_enumerate in Ha. by apply Ha. }
    rewrite Hm. cbn [negb].
    set (t1 := HTable _ _).
    pose proof (enumerate_insert (ht_slots t) f None (Some (stored_hash hash e, e)) Hf) as HP1. cbn in HP1.
    assert (H1 : tbl_ok (ht_slots t1)) by (by apply tbl_fill).
    assert (H2 : uniq (ht_slots t1)) by (by apply uniq_fill).
    assert (H3 : ht_size t1 = N.of_nat (length (enumerate (ht_slots t1)))).
    { cbn. rewrite HP1, Hsz. cbn. lia. }
    destruct (needs_rehash t1) eqn:NR.
    + destruct (rehash_ok t1 H1 H2 H3) as (t2 & -> & HI2 & HP2). cbn [tbind].
      exists t2. split; [done|]. split; [done|]. rewrite HP2. cbn. by rewrite HP1, HP.
    + exists t1. split; [done|]. split; [|cbn; by rewrite HP1, HP]. split_and!; try done.
      unfold needs_rehash in NR. apply N.leb_gt in NR. rewrite H3 in NR. lia.
  - assert (Hm : set_mem e l = true).
    { eapply set_mem_true; [|done]. rewrite <- HP. apply elem_of_enumerate. eauto. }
    rewrite Hm. exists t. done.
Qed.

Lemma set_find_present l e x : x ∈ l → compare x e = true →
  (∀ a b, a ∈ l → b ∈ l → compare a b = true → a = b) → set_find e l = Some x.
Proof.
  intros Hx C Hf. unfold HTableSpec.set_find. destruct (List.find _ l) as [y|] eqn:F.
  - apply find_some in F as [Hy Cy]. apply elem_of_list_In in Hy.
    f_equal. apply Hf; [done..|]. eapply cmp_trans; [done|]. by apply cmp_sym.
  - exfalso. eapply find_none in F; [|by apply elem_of_list_In]. cbn in F. congruence.
Qed.

Lemma find_refines t l e : TR t l →
  ∃ r, ht_find hash compare t e = TOk r ∧
       match r with Some i => elem_at t i | None => None end = set_find e l.
Proof.
  intros HR. unfold ht_find.
  destruct (find_cases t l e HR) as [(Ha & f & -> & Hf & Hr)|(s & h & x & Hs & C & ->)];
    cbn [tbind]; destruct HR as [(Hok & Hu & Hsz & Hfree) HP]; eexists; (split; [done|]).
  - symmetry. unfold HTableSpec.set_find. destruct (List.find _ l) as [y|] eqn:F; [|done].
    apply find_some in F as [Hy Cy]. apply elem_of_list_In in Hy. rewrite <- HP in Hy.
    rewrite absent_enumerate in Ha. rewrite Ha in Cy; done.
  - unfold elem_at. rewrite Hs. symmetry. apply set_find_present; [|done|].
    + rewrite <- HP. apply elem_of_enumerate. eauto.
    + intros a b Hai Hbi Cab. rewrite <- HP in Hai, Hbi.
      apply elem_of_enumerate in Hai as (i1 & h1 & G1), Hbi as (i2 & h2 & G2).
      pose proof (Hu _ _ _ _ _ _ G1 G2 Cab) as ->. by simplify_eq.
Qed.

(** * Removal *)
(** The decision linear probing requires: the element in bucket [next] whose
    home is [desired] must move to the hole [index] iff its path passes it. *)
Definition must_move (cap index next desired : nat) : bool :=
  (dist cap index next <=? dist cap desired next)%nat.
(** The code's decision is wrong at some step of the scan. *)
Fixpoint wrong_move (fuel : nat) (d : list bucket) (index next : nat) : bool :=
  match fuel with
  | O => false
  | S f =>
    match d !! next with
    | Some (Some (h, e)) =>
      let desired := home (length d) h in
      let code := (desired <=? index)%nat || (next <? desired)%nat in
      if Bool.eqb code (must_move (length d) index next desired) then
        if code then
          wrong_move f (<[index := Some (h, e)]> d) next (increment_wrap (length d) next)
        else wrong_move f d index (increment_wrap (length d) next)
      else true
    | _ => false
    end
  end.

(** As long as the scan has not wrapped round, the code's decision is right. *)
Lemma decision_right cap index next desired : (index < next)%nat → (next < cap)%nat →
  (desired < cap)%nat →
  ((desired <=? index)%nat || (next <? desired)%nat) = must_move cap index next desired.
Proof.
  intros H1 H2 H3. unfold must_move.
  destruct (Nat.leb_spec desired index), (Nat.ltb_spec next desired); cbn [orb];
    symmetry; first [apply Nat.leb_le | apply Nat.leb_gt]; clear -H1 H2 H3 H H0; cyc.
Qed.

(** Invariant of the scan: [index] is the hole (logically empty), all buckets
    strictly between it and [next] hold elements whose path avoids the hole. *)
Definition hole_ok d (index : nat) : Prop :=
  ∀ i h e, i ≠ index → d !! i = Some (Some (h, e)) →
    h = stored_hash hash e ∧
    ∀ t, (t < dist (length d) (hm d h) i)%nat →
      pos (length d) (hm d h) t = index ∨ occupied d (pos (length d) (hm d h) t).
Definition scanned d (index next : nat) : Prop :=
  ∀ i, i ≠ index → (i < length d)%nat → (dist (length d) index i < dist (length d) index next)%nat →
    ∃ h e, d !! i = Some (Some (h, e)) ∧
           (dist (length d) (hm d h) i < dist (length d) index i)%nat.
Definition uniq_but d (index : nat) : Prop :=
  ∀ i1 i2 h1 h2 e1 e2, i1 ≠ index → i2 ≠ index →
    d !! i1 = Some (Some (h1, e1)) → d !! i2 = Some (Some (h2, e2)) →
    compare e1 e2 = true → i1 = i2.

Lemma remove_loop_ok fuel : ∀ d index next s,
  (index < length d)%nat → (next < length d)%nat → index ≠ next →
  occupied d index → hole_ok d index → scanned d index next → uniq_but d index →
  d !! s = Some None →
  (dist (length d) next s < fuel)%nat →
  (dist (length d) index next + dist (length d) next s = dist (length d) index s)%nat →
  wrong_move fuel d index next = false →
  ∃ d' k, remove_loop fuel d index next = TOk (d', k) ∧ (k < length d)%nat ∧ length d' = length d ∧
          tbl_ok (<[k := None]> d') ∧ uniq (<[k := None]> d') ∧
          enumerate (<[k := None]> d') ≡ₚ enumerate (<[index := None]> d).
Proof.
  induction fuel as [|fuel IH]; intros d index next s Hi Hn Hne Hocc Hok Hsc Hu Hs Hf Hd Hw; [lia|].
  assert (Hsl : (s < length d)%nat) by (by eapply lookup_lt_Some).
  assert (Hsi : s ≠ index). { intros ->. destruct Hocc as [b Hb]. congruence. }
  cbn [remove_loop wrong_move] in *.
  destruct (d !! next) as [[[h e]|]|] eqn:Hdn.
  - set (desired := home (length d) h) in *.
    assert (Hdl : (desired < length d)%nat) by (apply home_lt; lia).
    assert (Hns : next ≠ s) by congruence.
    assert (Hsn' : S (dist (length d) (succ_wrap (length d) next) s) = dist (length d) next s)
      by (by apply dist_from_succ_wrap).
    assert (Hnn : succ_wrap (length d) next ≠ index).
    { intros EQ. assert (Hc: (dist (length d) index s < length d)%nat) by (by apply dist_lt).
      rewrite EQ in Hsn'. lia. }
    destruct (Bool.eqb _ _) eqn:EB; [|done].
    apply eqb_prop in EB. rewrite EB in *.
    destruct (must_move (length d) index next desired) eqn:MM.
    + (* move *)
      unfold must_move in MM. apply Nat.leb_le in MM.
      set (d1 := <[index := Some (h, e)]> d) in *.
      assert (Hl1 : length d1 = length d) by apply insert_length.
      assert (H1i : d1 !! index = Some (Some (h, e))) by (unfold d1; by rewrite list_lookup_insert).
      assert (H1o : ∀ j, j ≠ index → d1 !! j = d !! j)
        by (intros j ?; unfold d1; by rewrite list_lookup_insert_ne).
      destruct (IH d1 next (succ_wrap (length d) next) s) as (d' & k & Er & Hk & Hl' & Hok' & Hu' & HP').
      * by rewrite Hl1.
      * rewrite Hl1. by apply succ_wrap_lt.
      * intros EQ. clear -Hn EQ Hns Hsl. cyc.
      * exists (h, e). rewrite H1o by done. done.
      * intros i h' e' Hin Hi'. unfold hm. rewrite Hl1.
        destruct (decide (i = index)) as [->|Hii].
        -- rewrite H1i in Hi'. injection Hi' as <- <-.
           destruct (Hok next h e (not_eq_sym Hne) Hdn) as [Hh Hp]. split; [done|].
           fold desired. intros t Ht. right.
           assert (Hd1 : dist (length d) desired next = (dist (length d) desired index + dist (length d) index next)%nat).
           { clear -MM Hi Hn Hdl Hne. cyc. }
           assert (dist (length d) index next ≠ 0)%nat.
           { intros E0. apply dist_0 in E0; done. }
           assert (Hin' := dist_lt (length d) desired index Hdl Hi).
           assert (Htl : (t < length d)%nat) by lia.
           unfold hm in Hp. fold desired in Hp. destruct (Hp t) as [EQ|[b Hb]]; [lia| |].
           ++ exfalso. rewrite <- EQ, dist_pos in Ht by done. lia.
           ++ exists b. rewrite H1o; [done|]. intros EQ. rewrite <- EQ, dist_pos in Ht by done. lia.
        -- rewrite H1o in Hi' by done. destruct (Hok i h' e' Hii Hi') as [Hh Hp]. split; [done|].
           intros t Ht. unfold hm in Hp.
           destruct (decide (pos (length d) (home (length d) h') t = next)) as [->|Hpn]; [by left|].
           right. destruct (Hp t Ht) as [->|[b Hb]].
           ++ by exists (h, e).
           ++ destruct (decide (pos (length d) (home (length d) h') t = index)) as [->|].
              ** by exists (h, e).
              ** exists b. by rewrite H1o.
      * intros i Hin Hil Hlt. rewrite Hl1 in Hlt, Hil.
        rewrite (dist_succ_wrap (length d) next next) in Hlt;
          [rewrite dist_self in Hlt|done|done|rewrite dist_self; clear -Hi Hn Hne; lia].
        exfalso. apply Hin. apply (dist_0 (length d)); [done|done|lia].
      * intros i1 i2 h1 h2 e1 e2 N1 N2 G1 G2 C.
        assert (Hto : ∀ i h' e', i ≠ next → d1 !! i = Some (Some (h', e')) →
           ∃ i', i' ≠ index ∧ d !! i' = Some (Some (h', e')) ∧ i = if decide (i' = next) then index else i').
        { intros i h' e' Hin Hi'. destruct (decide (i = index)) as [->|].
          - rewrite H1i in Hi'. injection Hi' as <- <-. exists next. by rewrite decide_True.
          - rewrite H1o in Hi' by done. exists i. by rewrite decide_False. }
        destruct (Hto _ _ _ N1 G1) as (j1 & M1 & K1 & ->), (Hto _ _ _ N2 G2) as (j2 & M2 & K2 & ->).
        by rewrite (Hu j1 j2 _ _ _ _ M1 M2 K1 K2 C).
      * by rewrite H1o.
      * rewrite Hl1. lia.
      * rewrite Hl1. rewrite (dist_succ_wrap (length d) next next);
          [rewrite dist_self; lia|done|done|rewrite dist_self; clear -Hi Hn Hne; lia].
      * done.
      * exists d', k. unfold increment_wrap. rewrite Er. split; [done|]. split; [lia|]. split; [lia|]. split; [done|].
        split; [done|]. rewrite HP'.
        (* emptying [next] in d1 = emptying [index] in d, up to order *)
        apply (Permutation_app_inv_l (ent (Some (h, e)))).
        pose proof (enumerate_insert d1 next (Some (h, e)) None) as P1.
        rewrite P1 by (by rewrite H1o). cbn [ent app].
        unfold d1. destruct Hocc as [[h0 e0] H0].
        pose proof (enumerate_insert (<[index := None]> d) index None (Some (h, e))) as P2.
        rewrite list_insert_insert in P2. cbn [ent app] in P2. apply P2. by rewrite list_lookup_insert.
    + (* keep *)
      unfold must_move in MM. apply Nat.leb_gt in MM.
      destruct (IH d index (succ_wrap (length d) next) s) as (d' & k & Er & Hk & Hl' & Hok' & Hu' & HP'); try done.
      * by apply succ_wrap_lt.
      * intros i Hii Hil Hlt.
        rewrite dist_succ_wrap in Hlt; [|done|done|].
        2:{ pose proof (dist_lt (length d) index s). lia. }
        destruct (decide (i = next)) as [->|Hin].
        -- exists h, e. split; [done|]. done.
        -- apply Hsc; [done|done|].
           assert (dist (length d) index i ≠ dist (length d) index next); [|lia].
           intros EQ. apply Hin.
           rewrite <- (pos_dist (length d) index i), EQ, pos_dist; done.
      * lia.
      * rewrite dist_succ_wrap; [lia|done|done|]. pose proof (dist_lt (length d) index s). lia.
      * exists d', k. unfold increment_wrap. rewrite Er. done.
  - (* end of the run *)
    exists d, index. split; [done|]. split; [done|]. split; [done|].
    assert (Hl : length (<[index := None]> d) = length d) by apply insert_length.
    assert (Ho : ∀ j, j ≠ index → (<[index := None]> d) !! j = d !! j)
      by (intros; by rewrite list_lookup_insert_ne).
    split_and!; [| |done].
    + intros i h e Hdi. unfold hm. rewrite Hl.
      destruct (decide (i = index)) as [->|Hii]; [by rewrite list_lookup_insert in Hdi|].
      rewrite Ho in Hdi by done. destruct (Hok i h e Hii Hdi) as [Hh Hp]. split; [done|].
      fold (hm d h). intros t Ht. rewrite Hl.
      assert (Hil : (i < length d)%nat) by (by eapply lookup_lt_Some).
      assert (Hhl : (hm d h < length d)%nat) by (apply home_lt; lia).
      pose proof (dist_lt _ _ _ Hhl Hil) as Hdl.
      destruct (decide (pos (length d) (hm d h) t = index)) as [EQ|NE].
      * exfalso.
        assert (Ht' : t = dist (length d) (hm d h) index) by (rewrite <- EQ, dist_pos; [done|done|lia]).
        destruct (le_lt_dec (dist (length d) index next) (dist (length d) index i)) as [Hge|Hlt].
        -- (* the path would pass the empty bucket [next] *)
           assert (Hin : i ≠ next) by congruence.
           assert (Hgt : (dist (length d) index next < dist (length d) index i)%nat).
           { assert (dist (length d) index i ≠ dist (length d) index next); [|lia].
             intros EQ'. apply Hin. rewrite <- (pos_dist (length d) index i), EQ', pos_dist; done. }
           set (u := dist (length d) (hm d h) next).
           assert (Hu1 : (u < dist (length d) (hm d h) i)%nat).
           { unfold u. rewrite Ht' in Ht. clear -Ht Hgt Hhl Hil Hi Hn. cyc. }
           assert (Hpu : pos (length d) (hm d h) u = next) by (by apply pos_dist).
           destruct (Hp u Hu1) as [E1|[b E1]]; rewrite Hpu in E1; congruence.
        -- destruct (Hsc i Hii Hil Hlt) as (h2 & e2 & G & Hlt2). rewrite Hdi in G. injection G as <- <-.
           rewrite Ht' in Ht. clear -Ht Hlt2 Hhl Hil Hi. cyc.
      * destruct (Hp t Ht) as [E1|[b Hb]]; [done|]. exists b. by rewrite Ho.
    + intros i1 i2 h1 h2 e1 e2 G1 G2.
      destruct (decide (i1 = index)) as [->|]; [by rewrite list_lookup_insert in G1|].
      destruct (decide (i2 = index)) as [->|]; [by rewrite list_lookup_insert in G2|].
      rewrite Ho in G1, G2 by done. intros C. by eapply Hu.
  - apply lookup_ge_None in Hdn. lia.
Qed.

(** Removing [e] makes a wrong decision somewhere in its scan. *)
Definition remove_wrong (t : htable) (e : E) : bool :=
  match ht_find hash compare t e with
  | TOk (Some i) => wrong_move (S (length (ht_slots t))) (ht_slots t) i
                      (increment_wrap (length (ht_slots t)) i)
  | _ => false
  end.

Lemma filter_perm (P : E → bool) (l l' : list E) : l ≡ₚ l' → List.filter P l ≡ₚ List.filter P l'.
Proof.
  induction 1; cbn; [done|..].
  - case_match; [by constructor|done].
  - repeat case_match; solve [done | by constructor].
  - by etrans.
Qed.
Lemma filter_absent (l : list E) e : (∀ x, x ∈ l → compare x e = false) →
  List.filter (λ x, negb (compare x e)) l = l.
Proof.
  induction l as [|x l IH]; intros H; [done|]. cbn.
  rewrite (H x) by set_solver. cbn. f_equal. apply IH. set_solver.
Qed.

Lemma remove_refines t l e : TR t l → remove_wrong t e = false →
  ∃ t', ht_remove hash compare t e = TOk (t', set_mem e l) ∧ TR t' (set_remove e l).
Proof.
  intros HR Hw. unfold ht_remove, remove_wrong in *.
  destruct (find_cases t l e HR) as [(Ha & f & Hp & Hf & Hr)|(s & h & x & Hs & C & Hp)];
    destruct HR as [HI HP]; pose proof HI as (Hok & Hu & Hsz & Hfree);
    unfold ht_find in *; rewrite Hp in *; cbn [tbind] in *.
  - rewrite absent_enumerate in Ha.
    assert (Ha' : ∀ x, x ∈ l → compare x e = false) by (intros x Hx; apply Ha; by rewrite HP).
    rewrite set_mem_false by done. exists t. split; [done|]. split; [done|].
    unfold HTableSpec.set_remove. by rewrite filter_absent.
  - assert (Hsl : (s < length (ht_slots t))%nat) by (by eapply lookup_lt_Some).
    destruct (enumerate_has_empty _ Hfree) as [s0 Hs0].
    assert (Hs0l : (s0 < length (ht_slots t))%nat) by (by eapply lookup_lt_Some).
    assert (Hne : s0 ≠ s) by congruence.
    unfold ht_remove_at. rewrite Hs.
    destruct (remove_loop_ok (S (length (ht_slots t))) (ht_slots t) s
       (increment_wrap (length (ht_slots t)) s) s0) as (d' & k & -> & Hk & Hl' & Hok' & Hu' & HP');
       unfold increment_wrap in *; try done.
    + by apply succ_wrap_lt.
    + intros EQ. clear -EQ Hsl Hs0l Hne. cyc.
    + by exists (h, x).
    + intros i h' e' _ Hi. destruct (Hok _ _ _ Hi) as [Hh Hr]. split; [done|]. intros u Hut. right. by apply Hr.
    + intros i Hi Hil Hlt. exfalso.
      rewrite dist_succ_wrap in Hlt by (rewrite ?dist_self; done || lia). rewrite dist_self in Hlt.
      apply Hi. apply (dist_0 (length (ht_slots t))); [done|done|lia].
    + intros i1 i2 h1 h2 e1 e2 _ _. apply Hu.
    + pose proof (dist_lt (length (ht_slots t)) (succ_wrap (length (ht_slots t)) s) s0).
      pose proof (succ_wrap_lt (length (ht_slots t)) s). lia.
    + pose proof (dist_from_succ_wrap (length (ht_slots t)) s s0 Hs0l Hsl Hne).
      rewrite dist_succ_wrap by (rewrite ?dist_self; done || lia). rewrite dist_self. lia.
    + cbn [tbind fst snd].
      assert (Hm : set_mem e l = true).
      { eapply set_mem_true; [|done]. rewrite <- HP. apply elem_of_enumerate. eauto. }
      rewrite Hm. eexists. split; [done|].
      pose proof (enumerate_insert (ht_slots t) s (Some (h, x)) None Hs) as P1. cbn in P1.
      pose proof (Permutation_length P1) as L1. cbn in L1.
      pose proof (Permutation_length HP') as L2.
      split.
      * unfold TInv. cbn [ht_slots ht_size]. split_and!; try done.
        -- rewrite Hsz. lia.
        -- rewrite insert_length. lia.
      * cbn [ht_slots]. rewrite HP'. unfold HTableSpec.set_remove.
        rewrite <- (filter_perm _ _ _ HP), <- (filter_perm _ _ _ P1). cbn. rewrite C. cbn.
        rewrite filter_absent; [done|].
        apply absent_enumerate. intros i h' e' Hi.
        destruct (decide (i = s)) as [->|Hii]; [by rewrite list_lookup_insert in Hi|].
        rewrite list_lookup_insert_ne in Hi by done.
        destruct (compare e' e) eqn:C'; [|done]. exfalso. apply Hii.
        eapply Hu; [done..|]. eapply cmp_trans; [done|]. by apply cmp_sym.
Qed.

(** * Histories *)
Notation top := (top E).
Fixpoint no_wrong_move (t : htable) (ops : list top) : bool :=
  match ops with
  | [] => true
  | o :: rest =>
    match o with TRemove e => negb (remove_wrong t e) | _ => true end &&
    match ht_step hash compare t o with
    | TOk r => no_wrong_move (fst r) rest
    | _ => true
    end
  end.

Lemma clear_refines t l : TR t l → TR (ht_clear t) [].
Proof.
  intros [(Hok & Hu & Hsz & Hfree) HP]. unfold ht_clear.
  destruct (N.eqb_spec (ht_size t) 0) as [E0|].
  - assert (EQ : enumerate (ht_slots t) = []).
    { destruct (enumerate (ht_slots t)); [done|]. cbn in Hsz. lia. }
    split; [done|]. by rewrite EQ.
  - destruct (replicate_tbl (length (ht_slots t))).
    split; [|cbn; by rewrite enumerate_replicate].
    unfold TInv. cbn [ht_slots ht_size]. rewrite enumerate_replicate, replicate_length. cbn.
    split_and!; try done. lia.
Qed.

Lemma step_refines t l o : TR t l →
  match o with TRemove e => remove_wrong t e = false | _ => True end →
  ∃ t', ht_step hash compare t o = TOk (t', snd (set_step l o)) ∧ TR t' (fst (set_step l o)).
Proof.
  intros HR Hw. destruct o as [e|e|e| |]; cbn [ht_step HTableSpec.set_step fst snd].
  - destruct (insert_refines t l e HR) as (t' & -> & HR'). by exists t'.
  - destruct (find_refines t l e HR) as (r & -> & Er). cbn [tbind]. rewrite Er. by exists t.
  - destruct (remove_refines t l e HR Hw) as (t' & -> & HR'). by exists t'.
  - eexists. split; [done|]. by eapply clear_refines.
  - exists t. split; [|done]. destruct HR as [(_ & _ & -> & _) HP]. by rewrite HP.
Qed.
Lemma run_refines ops : ∀ t l, TR t l → no_wrong_move t ops = true →
  ∃ t', ht_run hash compare t ops = TOk (t', snd (set_run l ops)) ∧ TR t' (fst (set_run l ops)).
Proof.
  induction ops as [|o ops IH]; intros t l HR Hw.
  - by exists t.
  - cbn [no_wrong_move] in Hw. apply andb_prop in Hw as [Hw1 Hw2].
    cbn [ht_run HTableSpec.set_run fst snd].
    destruct (step_refines t l o HR) as (t1 & Es & HR1).
    { destruct o; try done. by apply negb_true_iff in Hw1. }
    rewrite Es in Hw2 |- *. cbn [tbind fst snd] in *.
    destruct (IH t1 _ HR1 Hw2) as (t2 & -> & HR2). by exists t2.
Qed.
Lemma new_TR c : TR (ht_new c) [].
Proof. split; [apply new_inv|]. cbn. by rewrite enumerate_replicate. Qed.

Definition is_tremove (o : top) : bool := match o with TRemove _ => true | _ => false end.
Lemma no_remove_no_wrong ops : ∀ t, forallb (λ o, negb (is_tremove o)) ops = true →
  no_wrong_move t ops = true.
Proof.
  induction ops as [|o ops IH]; intros t H; [done|].
  cbn in H. apply andb_prop in H as [H1 H2]. cbn [no_wrong_move].
  apply andb_true_intro. split; [by destruct o|].
  destruct (ht_step hash compare t o); auto.
Qed.

(** A run of occupied buckets that stays clear of the end of the table is
    scanned correctly. *)
Lemma wrong_move_inside fuel : ∀ d index next,
  (index < next)%nat →
  (∃ s, (next ≤ s < length d)%nat ∧ d !! s = Some None) →
  wrong_move fuel d index next = false.
Proof.
  induction fuel as [|fuel IH]; intros d index next Hlt (s & Hs & Hds); [done|].
  cbn [wrong_move]. destruct (d !! next) as [[[h e]|]|] eqn:Hdn; [|done..].
  assert (Hhl : (home (length d) h < length d)%nat) by (apply home_lt; lia).
  rewrite (decision_right (length d)) by lia. rewrite eqb_reflx.
  assert (Hns : next ≠ s) by congruence.
  assert (EQ : increment_wrap (length d) next = S next).
  { unfold increment_wrap. clear -Hs Hns. cyc. }
  rewrite EQ.
  case_match; apply IH; try lia.
  - exists s. rewrite insert_length, list_lookup_insert_ne by lia. split; [lia|done].
  - exists s. split; [lia|done].
Qed.
End proofs.
