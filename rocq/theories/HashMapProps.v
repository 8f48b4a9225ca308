(** Properties C01 and C02: the standard library's HashMap as a finite map. *)
From stdpp Require Import list numbers.
From Verif Require Import HashMapModel HashMapSpec HashMapProofs.

(** [eqb]/[hash] as the user must supply them: an equivalence and a hash that
    respects it. *)
Definition hash_key_ok {K} (hash : K → N) (eqb : K → K → bool) : Prop :=
  (∀ a, eqb a a = true) ∧
  (∀ a b, eqb a b = true → eqb b a = true) ∧
  (∀ a b c, eqb a b = true → eqb b c = true → eqb a c = true) ∧
  (∀ a b, eqb a b = true → hash a = hash b).

(** C01, full statement: for every history the outputs are those of the finite
    map (or memory runs out). *)
Definition hashmap_is_finite_map_statement : Prop :=
  ∀ (K V : Type) (hash : K → N) (eqb : K → K → bool) (n : N) (m : hmap K V) (ops : list (op K V)),
    hash_key_ok hash eqb → hm_init n = Ok m →
    hm_run hash eqb m ops = OutOfMemory ∨
    ∃ m', hm_run hash eqb m ops = Ok (m', snd (sp_run eqb [] ops)).

(** The history which loses an entry: keys 3, 8, 4, 13 (identity hash), remove
    8, look 13 up. *)
Definition losing_history : list (op N N) :=
  [OpInsert 3 1 true; OpInsert 8 2 true; OpInsert 4 3 true; OpInsert 13 4 true;
   OpRemove 8; OpGet 13]%N.

(** The full statement is false of the code: the last [get] returns null
    although 13 was never removed. *)
Theorem hashmap_is_finite_map_refuted :
  ∃ (m m' : hmap N N) (outs : list (out N)),
    hash_key_ok (λ k : N, k) N.eqb ∧ hm_init 0 = Ok m ∧
    hm_run (λ k, k) N.eqb m losing_history = Ok (m', outs) ∧
    outs !! 5%nat = Some (OutVal None) ∧
    snd (sp_run N.eqb [] losing_history) !! 5%nat = Some (OutVal (Some 4%N)).
Proof.
  eexists _, _, _. split.
  { split_and!; intros *; rewrite ?N.eqb_refl, ?N.eqb_eq; congruence. }
  split; [vm_compute; reflexivity|]. split; [vm_compute; reflexivity|].
  split; vm_compute; reflexivity.
Qed.
Print Assumptions hashmap_is_finite_map_refuted.

Theorem hashmap_is_finite_map_statement_refuted : ¬ hashmap_is_finite_map_statement.
Proof.
  intros H. destruct hashmap_is_finite_map_refuted as (m & m' & outs & Hk & Hi & Hr & Ho & Hs).
  destruct (H N N (λ k, k) N.eqb 0%N m losing_history Hk Hi) as [E|(m2 & E)];
    rewrite Hr in E; [done|]. injection E as _ E. rewrite E in Ho. discriminate (eq_trans (eq_sym Ho) Hs).
Qed.
Print Assumptions hashmap_is_finite_map_statement_refuted.

(** The loss persists: re-inserting the lost key is reported as new, so the map
    then holds two entries for one key and its size is wrong. *)
Theorem hashmap_duplicate_key_refuted :
  ∃ (m m' : hmap N N) (outs : list (out N)),
    hm_init 0 = Ok m ∧
    hm_run (λ k, k) N.eqb m (losing_history ++ [OpInsert 13 5 true; OpSize]%N) = Ok (m', outs) ∧
    outs !! 7%nat = Some (OutSize 4) ∧
    snd (sp_run N.eqb [] (losing_history ++ [OpInsert 13 5 true; OpSize]%N)) !! 7%nat
      = Some (OutSize 3).
Proof.
  eexists _, _, _. split; [vm_compute; reflexivity|]. split; [vm_compute; reflexivity|].
  split; vm_compute; reflexivity.
Qed.
Print Assumptions hashmap_duplicate_key_refuted.

(** C01 under the guard that no removal of the history moves the entry of the
    first slot back to the last slot of the table. *)
Theorem hashmap_is_finite_map_partial :
  ∀ (K V : Type) (hash : K → N) (eqb : K → K → bool) (n : N) (m : hmap K V) (ops : list (op K V)),
    hash_key_ok hash eqb → hm_init n = Ok m →
    no_crossing hash eqb m ops = true →
    hm_run hash eqb m ops = OutOfMemory ∨
    ∃ m', hm_run hash eqb m ops = Ok (m', snd (sp_run eqb [] ops)) ∧
          each_calls (hm_data m') ≡ₚ fst (sp_run eqb [] ops).
Proof.
  intros K V hash eqb n m ops (H1 & H2 & H3 & H4) Hi Hx.
  destruct (@init_R K V hash eqb n) as [E|(m0 & E & HR)]; [congruence|].
  rewrite Hi in E. injection E as <-.
  destruct (run_refines hash eqb H1 H2 H3 H4 ops m [] HR Hx) as [?|(m' & ? & HR')];
    [by left|right]. exists m'. split; [done|]. apply HR'.
Qed.
Print Assumptions hashmap_is_finite_map_partial.

(** Histories without removal need no guard. *)
Theorem hashmap_without_remove_is_finite_map :
  ∀ (K V : Type) (hash : K → N) (eqb : K → K → bool) (n : N) (m : hmap K V) (ops : list (op K V)),
    hash_key_ok hash eqb → hm_init n = Ok m →
    forallb (λ o, negb (is_remove o)) ops = true →
    hm_run hash eqb m ops = OutOfMemory ∨
    ∃ m', hm_run hash eqb m ops = Ok (m', snd (sp_run eqb [] ops)) ∧
          each_calls (hm_data m') ≡ₚ fst (sp_run eqb [] ops).
Proof.
  intros K V hash eqb n m ops Hk Hi Hr.
  eapply hashmap_is_finite_map_partial; [done..|]. by apply no_remove_no_crossing.
Qed.
Print Assumptions hashmap_without_remove_is_finite_map.

(** Non-vacuity: a history with collisions, replacement and removals that meets
    the guard. *)
Example hashmap_guard_met :
  ∃ m m' outs, @hm_init N N 0 = Ok m ∧
    no_crossing (λ k, k) N.eqb m
      [OpInsert 1 1 true; OpInsert 6 2 true; OpInsert 2 3 true; OpInsert 1 9 true;
       OpRemove 1; OpGet 6; OpSize]%N = true ∧
    hm_run (λ k, k) N.eqb m
      [OpInsert 1 1 true; OpInsert 6 2 true; OpInsert 2 3 true; OpInsert 1 9 true;
       OpRemove 1; OpGet 6; OpSize]%N = Ok (m', outs) ∧
    outs = [OutBool true; OutBool true; OutBool true; OutBool false; OutUnit;
            OutVal (Some 2%N); OutSize 2].
Proof. eexists _, _, _. repeat (split; [vm_compute; reflexivity|]). vm_compute; reflexivity. Qed.

(** C02: iteration yields every stored pair exactly once (in table order) and
    stops; [each] makes the same calls. *)
Theorem hashmap_iteration_exact :
  ∀ (K V : Type) (hash : K → N) (eqb : K → K → bool) (n : N) (m m' : hmap K V)
    (ops : list (op K V)) (outs : list (out V)),
    hash_key_ok hash eqb → hm_init n = Ok m → no_crossing hash eqb m ops = true →
    hm_run hash eqb m ops = Ok (m', outs) →
    ∃ l, iter_all (S (length (hm_data m'))) (hm_data m') 0 = Ok l ∧
         l ≡ₚ fst (sp_run eqb [] ops) ∧ each_calls (hm_data m') = l.
Proof.
  intros K V hash eqb n m m' ops outs Hk Hi Hx Hr.
  destruct (hashmap_is_finite_map_partial K V hash eqb n m ops Hk Hi Hx)
    as [E|(m1 & E & HP)]; rewrite Hr in E; [done|]. injection E as <- _.
  exists (each_calls (hm_data m')). split; [|done].
  rewrite iter_all_spec by lia. done.
Qed.
Print Assumptions hashmap_iteration_exact.

(** C02, [map]: it never returns on a map with any capacity (in particular on a
    freshly created one). *)
Theorem hashmap_map_terminates_refuted :
  ∀ (K V U : Type) (f : K → V → U) (m : hmap K V) (fuel : nat),
    hm_data m ≠ [] → hm_map fuel f m = Hang.
Proof.
  intros K V U f m fuel Hne. apply map_loop_hangs. destruct (hm_data m); [done|]. cbn. lia.
Qed.
Print Assumptions hashmap_map_terminates_refuted.

Example hashmap_fresh_has_capacity : ∃ m, @hm_init N N 0 = Ok m ∧ hm_data m ≠ [].
Proof. eexists. split; [vm_compute; reflexivity|done]. Qed.
