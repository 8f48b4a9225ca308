(** Property C28: the compiler's hash table (core/htable.c) as a finite set. *)
From stdpp Require Import list numbers.
From Verif Require Import Cyclic HTableModel HTableSpec HTableProofs.

(** What a client must supply: [compare] is an equivalence (on the elements it
    relates) and equal elements are given equal hashes. *)
Definition htable_client_ok {E} (hash : E → N) (compare : E → E → bool) : Prop :=
  (∀ a b, compare a b = true → compare b a = true) ∧
  (∀ a b c, compare a b = true → compare b c = true → compare a c = true) ∧
  (∀ a b, compare a b = true → hash a = hash b).

(** C28, full statement. *)
Definition htable_is_finite_set_statement : Prop :=
  ∀ (E : Type) (hash : E → N) (compare : E → E → bool) (c : N) (ops : list (top E)),
    htable_client_ok hash compare →
    ∃ t, ht_run hash compare (ht_new c) ops = TOk (t, snd (set_run compare [] ops)) ∧
         enumerate (ht_slots t) ≡ₚ fst (set_run compare [] ops).

(** It is false of the code: in a table of 7 buckets insert 4 and 5 (whose
    homes with bit 31 set are the last and the first bucket), remove 4, and 5
    is no longer found. *)
Definition htable_losing_history : list (top N) :=
  [TInsert 4; TInsert 5; TRemove 4; TFind 5]%N.
Theorem htable_is_finite_set_refuted : ¬ htable_is_finite_set_statement.
Proof.
  intros H. destruct (H N (λ k, k) N.eqb 4%N htable_losing_history) as (t & Ht & _).
  { split_and!; intros *; rewrite ?N.eqb_eq; congruence. }
  vm_compute in Ht. discriminate Ht.
Qed.
Print Assumptions htable_is_finite_set_refuted.

(** The answers in that history, and what they should be. *)
Example htable_losing_answers :
  match ht_run (λ k, k) N.eqb (ht_new 4) htable_losing_history with
  | TOk (_, outs) => outs | _ => [] end
    = [TBool true; TBool true; TBool true; TElem None]%N ∧
  snd (set_run N.eqb [] htable_losing_history)
    = [TBool true; TBool true; TBool true; TElem (Some 5)]%N.
Proof. split; vm_compute; reflexivity. Qed.

(** C28 for every history in which no removal takes the wrong decision about
    moving an element (only possible after the scan wrapped round). *)
Theorem htable_is_finite_set_partial :
  ∀ (E : Type) (hash : E → N) (compare : E → E → bool) (c : N) (ops : list (top E)),
    htable_client_ok hash compare →
    no_wrong_move hash compare (ht_new c) ops = true →
    ∃ t, ht_run hash compare (ht_new c) ops = TOk (t, snd (set_run compare [] ops)) ∧
         enumerate (ht_slots t) ≡ₚ fst (set_run compare [] ops).
Proof.
  intros E hash compare c ops (H1 & H2 & H3) Hw.
  destruct (run_refines hash compare H1 H2 H3 ops _ [] (new_TR hash compare c) Hw) as (t & Ht & HR).
  exists t. split; [done|]. apply HR.
Qed.
Print Assumptions htable_is_finite_set_partial.

(** The guard is met by histories with removals which shift elements: 6 and 13
    share bucket 1 and push 0 out of bucket 2. *)
Example htable_guard_met :
  no_wrong_move (λ k, k) N.eqb (ht_new 4)
    [TInsert 6; TInsert 13; TInsert 0; TRemove 6; TFind 13; TFind 0; TClear; TSize]%N = true ∧
  match ht_run (λ k, k) N.eqb (ht_new 4)
    [TInsert 6; TInsert 13; TInsert 0; TRemove 6; TFind 13; TFind 0; TClear; TSize]%N with
  | TOk (_, outs) => outs | _ => [] end
    = [TBool true; TBool true; TBool true; TBool true; TElem (Some 13); TElem (Some 0);
       TUnit; TNum 0]%N.
Proof. split; vm_compute; reflexivity. Qed.

(** A table from which nothing is removed is a finite set, without exception:
    no element is lost or duplicated by collisions or by any number of
    rehashes, and every probe terminates.  (The string pool and the scopes of
    the compiler use tables this way.) *)
Theorem htable_without_remove_is_finite_set :
  ∀ (E : Type) (hash : E → N) (compare : E → E → bool) (c : N) (ops : list (top E)),
    htable_client_ok hash compare →
    (∀ e, TRemove e ∉ ops) →
    ∃ t, ht_run hash compare (ht_new c) ops = TOk (t, snd (set_run compare [] ops)) ∧
         enumerate (ht_slots t) ≡ₚ fst (set_run compare [] ops).
Proof.
  intros E hash compare c ops Hok Hr. apply htable_is_finite_set_partial; [done|].
  apply no_remove_no_wrong. apply forallb_forall. intros o Ho. apply elem_of_list_In in Ho.
  destruct o as [| |e| |]; try done. by destruct (Hr e).
Qed.
Print Assumptions htable_without_remove_is_finite_set.
Example htable_growth :
  match ht_run (λ k, k * 7)%N N.eqb (ht_new 0)
    (map TInsert (map N.of_nat (seq 0 30)) ++ [TFind 29; TFind 30; TSize]%N) with
  | TOk (t, outs) => (length (ht_slots t), drop 30 outs) | _ => (0%nat, []) end
    = (67%nat, [TElem (Some 29); TElem None; TNum 30]%N).
Proof. vm_compute; reflexivity. Qed.

(** A single removal whose scan does not reach the end of the table takes only
    right decisions: the defect needs wrap-around. *)
Theorem htable_remove_right_inside :
  ∀ (E : Type) (hash : E → N) (compare : E → E → bool) (t : htable E) (e : E) (i s : nat),
    ht_find hash compare t e = TOk (Some i) →
    (i < s < length (ht_slots t))%nat → ht_slots t !! s = Some None →
    remove_wrong hash compare t e = false.
Proof.
  intros E hash compare t e i s Hf His Hs. unfold remove_wrong. rewrite Hf.
  assert (EQ : increment_wrap (length (ht_slots t)) i = S i).
  { unfold increment_wrap, succ_wrap. destruct (Nat.ltb_spec (S i) (length (ht_slots t))); lia. }
  rewrite EQ. apply wrong_move_inside; [lia|]. exists s. split; [lia|done].
Qed.
Print Assumptions htable_remove_right_inside.
Example htable_remove_right_inside_met :
  ∃ t, ht_run (λ k, k) N.eqb (ht_new 4) [TInsert 6; TInsert 13; TInsert 0]%N
         = TOk (t, [TBool true; TBool true; TBool true]) ∧
       ht_find (λ k, k) N.eqb t 6%N = TOk (Some 1%nat) ∧ ht_slots t !! 5%nat = Some None.
Proof. eexists. split; [vm_compute; reflexivity|]. split; vm_compute; reflexivity. Qed.

(** The capacities: [nextPrime] yields the smallest listed prime above its
    argument, and rehashing always grows the table. *)
Theorem htable_capacity :
  (∀ i, (i < 1048583)%N →
    (i < next_prime i)%N ∧ In (next_prime i) ht_primes ∧
    ∀ p, In p ht_primes → (i < p)%N → (next_prime i ≤ p)%N) ∧
  (∀ cap : nat, (N.of_nat cap < rehash_capacity cap)%N).
Proof. split; [apply next_prime_spec|apply rehash_capacity_gt]. Qed.
Print Assumptions htable_capacity.
