(** The keyed table is a finite map from keys to records. *)
From stdpp Require Import list numbers.
From Verif Require Import HTableModel HTableSpec HTableProofs KTableModel.
Local Arguments enumerate : simpl never.

Definition upd {K V} (keq : K → K → bool) (k : K) (v : V) (m : K → option V) : K → option V :=
  λ k', if keq k k' then Some v else m k'.

Section keyed.
Context {K V : Type} (keq : K → K → bool) (hk : K → N).
Context (keq_ok : ∀ a b, keq a b = true ↔ a = b).
Notation cmp := (@kcmp K V keq).
Notation hs := (@khash K V hk).

Lemma kc_sym (a b : K * V) : cmp a b = true → cmp b a = true.
Proof. unfold kcmp. rewrite !keq_ok. congruence. Qed.
Lemma kc_trans (a b c : K * V) : cmp a b = true → cmp b c = true → cmp a c = true.
Proof. unfold kcmp. rewrite !keq_ok. congruence. Qed.
Lemma kc_hash (a b : K * V) : cmp a b = true → hs a = hs b.
Proof. unfold kcmp, khash. rewrite !keq_ok. congruence. Qed.
Lemma keq_refl k : keq k k = true.
Proof. by apply keq_ok. Qed.
Lemma keq_neq a b : a ≠ b → keq a b = false.
Proof. intros. destruct (keq a b) eqn:X; [|done]. by apply keq_ok in X. Qed.
Lemma upd_eq k v (m : K → option V) : upd keq k v m k = Some v.
Proof. unfold upd. by rewrite keq_refl. Qed.
Lemma upd_ne k k' v (m : K → option V) : k ≠ k' → upd keq k v m k' = m k'.
Proof. intros. unfold upd. by rewrite keq_neq. Qed.

(** Table [t] represents the map [m]. *)
Definition reps (t : ktable K V) (m : K → option V) : Prop :=
  ∃ l, TR hs cmp t l ∧ ∀ k v, (k, v) ∈ l ↔ m k = Some v.

Lemma reps_ext t m m' : (∀ k, m k = m' k) → reps t m → reps t m'.
Proof. intros E (l & H & Hl). exists l. split; [done|]. intros. by rewrite Hl, E. Qed.

Lemma kt_new_reps : reps kt_new (λ _, None).
Proof.
  exists []. split; [apply new_TR|]. intros. split; [|done]. intros X. by apply elem_of_nil in X.
Qed.

Lemma mem_iff (l : list (K * V)) m k v : (∀ k v, (k, v) ∈ l ↔ m k = Some v) →
  set_mem cmp (k, v) l = match m k with Some _ => true | None => false end.
Proof.
  intros Hl. destruct (m k) as [w|] eqn:E.
  - apply (set_mem_true _ _ _ (k, w)); [by apply Hl|]. unfold kcmp. cbn. apply keq_refl.
  - apply set_mem_false. intros [k' v'] Hx. unfold kcmp. cbn. apply keq_neq. intros ->.
    apply Hl in Hx. congruence.
Qed.

Lemma kt_insert_reps t m k v : reps t m →
  ∃ t', kt_insert keq hk t k v
          = TOk (t', match m k with Some _ => false | None => true end) ∧
        reps t' (match m k with Some _ => m | None => upd keq k v m end).
Proof.
  intros (l & HR & Hl). unfold kt_insert.
  destruct (insert_refines hs cmp kc_sym kc_trans kc_hash t l (k, v) HR) as (t' & E & HR').
  exists t'. rewrite E, (mem_iff l m) by done. unfold HTableSpec.set_insert in HR'.
  rewrite (mem_iff l m) in HR' by done.
  destruct (m k) as [w|] eqn:Em; (split; [done|]).
  - by exists l.
  - exists ((k, v) :: l). split; [done|]. intros k' v'. rewrite elem_of_cons, Hl.
    unfold upd. destruct (keq k k') eqn:Q.
    + apply keq_ok in Q as <-. rewrite Em. split; [intros [|]; by simplify_eq|]. intros; simplify_eq. by left.
    + split; [|by right]. intros [?|?]; [|done]. simplify_eq. by rewrite keq_refl in Q.
Qed.

Lemma kt_find_reps t m k d : reps t m →
  match m k with
  | None => kt_find keq hk t k d = TOk None
  | Some v => ∃ i, kt_find keq hk t k d = TOk (Some (i, v)) ∧
                   ∀ v', reps (kt_store t i (k, v')) (upd keq k v' m)
  end.
Proof.
  intros (l & HR & Hl). unfold kt_find, ht_find.
  destruct (find_cases hs cmp kc_sym kc_trans kc_hash t l (k, d) HR)
    as [(Ha & f & -> & _)|(s & h & [k' v] & Hs & C & ->)]; cbn [tbind];
    destruct HR as [HI HP]; pose proof HI as (Hok & Hu & Hsz & Hfree).
  - destruct (m k) as [v|] eqn:Em; [|done]. exfalso.
    assert (Hx : (k, v) ∈ l) by (by apply Hl). rewrite <- HP in Hx.
    apply elem_of_enumerate in Hx as (i & h & Hi). specialize (Ha _ _ _ Hi). unfold kcmp in Ha.
    cbn in Ha. by rewrite keq_refl in Ha.
  - unfold kcmp in C. cbn in C. apply keq_ok in C as ->.
    assert (Em : m k = Some v).
    { apply Hl. rewrite <- HP. apply elem_of_enumerate. eauto. }
    rewrite Em. exists s. unfold elem_at. rewrite Hs. split; [done|]. intros v'.
    unfold kt_store. rewrite Hs.
    assert (Hsl : (s < length (ht_slots t))%nat) by (by eapply lookup_lt_Some).
    pose proof (enumerate_insert (ht_slots t) s _ (Some (h, (k, v'))) Hs) as HP1. cbn [ent app] in HP1.
    set (d' := <[s := Some (h, (k, v'))]> (ht_slots t)) in *.
    assert (Ld : length d' = length (ht_slots t)) by (unfold d'; by rewrite insert_length).
    assert (Le : length (enumerate d') = length (enumerate (ht_slots t))).
    { pose proof (Permutation_length HP1). cbn in *. lia. }
    assert (Look : ∀ i h1 e1, d' !! i = Some (Some (h1, e1)) →
              ∃ v1, ht_slots t !! i = Some (Some (h1, (fst e1, v1))) ∧
                    (i ≠ s → v1 = snd e1) ∧ (i = s → e1 = (k, v'))).
    { intros i h1 [k1 w1] Hi. unfold d' in Hi. destruct (decide (i = s)) as [->|].
      - rewrite list_lookup_insert in Hi by done. simplify_eq. exists v. done.
      - rewrite list_lookup_insert_ne in Hi by done. exists w1. done. }
    assert (Occ : ∀ i, occupied (ht_slots t) i → occupied d' i).
    { intros i Hi. by apply occupied_fill. }
    destruct (enumerate_has_empty _ Hfree) as [s0 Hs0].
    (* the rest of the table *)
    assert (Hl1 : ∀ x, x ∈ enumerate (ht_slots t) ↔ x = (k, v) ∨ (x ∈ enumerate d' ∧ fst x ≠ k)).
    { intros x. split.
      - intros Hx. apply elem_of_enumerate in Hx as (i & h1 & Hi). destruct (decide (i = s)) as [->|Ni].
        + rewrite Hs in Hi. simplify_eq. by left.
        + right. split.
          * apply elem_of_enumerate. exists i, h1. unfold d'. by rewrite list_lookup_insert_ne.
          * intros Ek. apply Ni. apply (Hu _ _ _ _ _ _ Hi Hs). unfold kcmp. rewrite Ek. apply keq_refl.
      - intros [->|[Hx Nk]]; [apply elem_of_enumerate; eauto|].
        apply elem_of_enumerate in Hx as (i & h1 & Hi). destruct (Look _ _ _ Hi) as (v1 & Hi' & N1 & N2).
        destruct (decide (i = s)) as [->|Ni]; [rewrite (N2 eq_refl) in Nk; done|].
        rewrite (N1 Ni) in Hi'. apply elem_of_enumerate. exists i, h1. by rewrite <- surjective_pairing in Hi'. }
    exists (enumerate d'). split; [split; [|done]|].
    + unfold TInv. cbn [ht_slots ht_size]. split_and!.
      * intros i h1 e1 Hi. destruct (Look _ _ _ Hi) as (v1 & Hi' & _). destruct (Hok _ _ _ Hi') as [H1 H2].
        split; [rewrite H1; unfold stored_hash, khash; done|].
        unfold hm in *. rewrite Ld. eapply lreach_mono; [|by apply Occ|exact H2]. done.
      * intros i1 i2 h1 h2 e1 e2 G1 G2 C.
        destruct (Look _ _ _ G1) as (w1 & G1' & _). destruct (Look _ _ _ G2) as (w2 & G2' & _).
        apply (Hu _ _ _ _ _ _ G1' G2'). unfold kcmp in *. done.
      * rewrite Le. done.
      * rewrite Le, Ld. done.
    + intros k1 w1. unfold upd. destruct (keq k k1) eqn:Q.
      * apply keq_ok in Q as <-. split.
        -- intros Hx. apply elem_of_enumerate in Hx as (i & h1 & Hi).
           destruct (Look _ _ _ Hi) as (v1 & Hi' & N1 & N2). cbn in Hi'.
           assert (i = s) as -> by (apply (Hu _ _ _ _ _ _ Hi' Hs); unfold kcmp; apply keq_refl).
           specialize (N2 eq_refl). by simplify_eq.
        -- intros; simplify_eq. apply elem_of_enumerate. exists s, h. unfold d'. by rewrite list_lookup_insert.
      * assert (Nk : k1 ≠ k) by (intros ->; by rewrite keq_refl in Q).
        rewrite <- Hl, <- HP, (Hl1 (k1, w1)). cbn. split; [by right|]. intros [?|[? ?]]; by simplify_eq.
Qed.

Lemma kt_clear_reps t m : reps t m → reps (kt_clear t) (λ _, None).
Proof.
  intros (l & HR & Hl). exists []. split; [by eapply clear_refines|].
  intros. split; [|done]. intros X. by apply elem_of_nil in X.
Qed.

Lemma kt_enumerate_reps t m : reps t m →
  (∀ k v, (k, v) ∈ kt_enumerate t ↔ m k = Some v) ∧ NoDup (map fst (kt_enumerate t)).
Proof.
  intros (l & [(Hok & Hu & Hsz & Hfree) HP] & Hl). unfold kt_enumerate. split.
  - intros. by rewrite HP.
  - clear - Hu keq_ok. revert Hu. generalize (ht_slots t) as d. induction d as [|b d IH]; intros Hu; [constructor|].
    rewrite enumerate_cons, map_app.
    assert (Hd : NoDup (map fst (enumerate d))).
    { apply IH. intros i1 i2 h1 h2 e1 e2 G1 G2 C. by injection (Hu (S i1) (S i2) _ _ _ _ G1 G2 C). }
    destruct b as [[h [k v]]|]; cbn; [|done]. constructor; [|done].
    intros Hx. apply elem_of_list_fmap in Hx as ([k' v'] & E & Hx). cbn in E. subst k'.
    apply elem_of_enumerate in Hx as (i & h' & Hi).
    assert (0 = S i)%nat; [|lia]. apply (Hu 0%nat (S i) h h' (k, v) (k, v')); [done..|].
    unfold kcmp. apply keq_refl.
Qed.
End keyed.
