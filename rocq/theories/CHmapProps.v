(** Property C29: the compiler's Robin-Hood map (core/hmap.c). *)
From stdpp Require Import list numbers.
From Verif Require Import CHmapModel CHmapSpec CHmapProofs.

(** What a client supplies: an equivalence, and a hash that respects it. *)
Definition chmap_client_ok {E} (hash : E → N) (equal : E → E → bool) : Prop :=
  (∀ a, equal a a = true) ∧
  (∀ a b, equal a b = true → equal b a = true) ∧
  (∀ a b c, equal a b = true → equal b c = true → equal a c = true) ∧
  (∀ a b, equal a b = true → hash a = hash b).

(** C29, full statement: answers and final contents are those of the map with
    one element per key, unless memory runs out. *)
Definition chmap_is_map_statement : Prop :=
  ∀ (E : Type) (hash : E → N) (equal : E → E → bool) (n : N) (m : chmap E) (ops : list (cop E)),
    chmap_client_ok hash equal → (n < 2 ^ 64)%N → c_init n = MOk m →
    c_run hash equal m ops = MNoMem ∨
    ∃ m', c_run hash equal m ops = MOk (m', snd (ks_run equal [] ops)) ∧
          c_iter (ch_slots m') ≡ₚ fst (ks_run equal [] ops).

(** Elements are (key, value) pairs; keys 0 and 5 share a home in the table of
    five slots.  The second put of key 0 ties with key 5 and displaces it
    before reaching the old element of key 0: the map then has three elements,
    and after a remove of key 0 the stale value 1 comes back. *)
Definition kv_hash (p : N * N) : N := fst p.
Definition kv_equal (a b : N * N) : bool := (fst a =? fst b)%N.
Lemma kv_client_ok : chmap_client_ok kv_hash kv_equal.
Proof.
  unfold kv_equal, kv_hash. split_and!; intros *; rewrite ?N.eqb_refl, ?N.eqb_eq; congruence.
Qed.
Definition chmap_stale_history : list (cop (N * N)) :=
  [CPut (0, 1); CPut (5, 2); CPut (0, 3); CItems; CRemove (0, 0); CGet (0, 0)]%N.
Theorem chmap_is_map_refuted : ¬ chmap_is_map_statement.
Proof.
  intros H.
  destruct (H (N * N)%type kv_hash kv_equal 0%N (CHmap [None] 0) chmap_stale_history kv_client_ok) as [Ho|(m' & Ho & _)];
    [lia|reflexivity|vm_compute in Ho; discriminate Ho..].
Qed.
Print Assumptions chmap_is_map_refuted.
Example chmap_stale_answers :
  match c_init 0 with
  | MOk m => match c_run kv_hash kv_equal m chmap_stale_history with MOk r => snd r | _ => [] end
  | _ => [] end
    = [CNew true; CNew true; CNew true; CNum 3; CDone; CElem (Some (0, 1))]%N ∧
  snd (ks_run kv_equal [] chmap_stale_history)
    = [CNew true; CNew true; CNew false; CNum 2; CDone; CElem None]%N.
Proof. split; vm_compute; reflexivity. Qed.

(** After [hmapClear] the next [hmapPut] divides by zero. *)
Theorem chmap_put_after_clear_refuted :
  ∀ (E : Type) (hash : E → N) (equal : E → E → bool) (m : chmap E) (x : E),
    c_put hash equal (c_clear m) x = MDivZero.
Proof. reflexivity. Qed.
Print Assumptions chmap_put_after_clear_refuted.

(** C29 for every history in which no put of a present key meets, before that
    key, another one with the same home.  Includes: every loop terminates, no
    rehash happens within a rehash, and the iterator yields exactly the
    contents. *)
Theorem chmap_is_map_partial :
  ∀ (E : Type) (hash : E → N) (equal : E → E → bool) (n : N) (m : chmap E) (ops : list (cop E)),
    chmap_client_ok hash equal → (n < 2 ^ 64)%N → c_init n = MOk m →
    no_tie hash equal m ops = true →
    c_run hash equal m ops = MNoMem ∨
    ∃ m', c_run hash equal m ops = MOk (m', snd (ks_run equal [] ops)) ∧
          c_iter (ch_slots m') ≡ₚ fst (ks_run equal [] ops).
Proof.
  intros E hash equal n m ops (H1 & H2 & H3 & H4) Hn Hi Ht.
  destruct (init_R hash equal n Hn) as [EQ|(m0 & EQ & HR)]; [congruence|].
  rewrite Hi in EQ. injection EQ as <-.
  destruct (run_refines hash equal H1 H2 H3 H4 ops m [] HR Ht) as [?|(m' & ? & HR')];
    [by left|right]. exists m'. split; [done|]. apply HR'.
Qed.
Print Assumptions chmap_is_map_partial.
Example chmap_guard_met :
  match c_init 0 with
  | MOk m => no_tie kv_hash kv_equal m
      [CPut (0, 1); CPut (5, 2); CPut (5, 3); CPut (1, 4); CGet (5, 0); CRemove (0, 0); CGet (5, 0); CItems]%N
  | _ => false end = true.
Proof. vm_compute; reflexivity. Qed.

(** The compiler's own use (drop analysis) puts only variables which are not in
    the map yet; then the map is correct without exception. *)
Theorem chmap_fresh_puts_is_map :
  ∀ (E : Type) (hash : E → N) (equal : E → E → bool) (n : N) (m : chmap E) (ops : list (cop E)),
    chmap_client_ok hash equal → (n < 2 ^ 64)%N → c_init n = MOk m →
    fresh_puts equal [] ops →
    c_run hash equal m ops = MNoMem ∨
    ∃ m', c_run hash equal m ops = MOk (m', snd (ks_run equal [] ops)) ∧
          c_iter (ch_slots m') ≡ₚ fst (ks_run equal [] ops).
Proof.
  intros E hash equal n m ops Hok Hn Hi Hf. eapply chmap_is_map_partial; [done..|].
  destruct Hok as (H1 & H2 & H3 & H4).
  destruct (init_R hash equal n Hn) as [EQ|(m0 & EQ & HR)]; [congruence|].
  rewrite Hi in EQ. injection EQ as <-. by eapply fresh_no_tie.
Qed.
Print Assumptions chmap_fresh_puts_is_map.
Example chmap_fresh_puts_met :
  fresh_puts kv_equal [] [CPut (0, 1); CPut (5, 2); CRemove (0, 0); CPut (0, 3); CGet (5, 0)]%N ∧
  match c_init 0 with
  | MOk m => match c_run kv_hash kv_equal m
       [CPut (0, 1); CPut (5, 2); CRemove (0, 0); CPut (0, 3); CGet (5, 0)]%N with
       MOk r => snd r | _ => [] end
  | _ => [] end = [CNew true; CNew true; CDone; CNew true; CElem (Some (5, 2))]%N.
Proof.
  split; [|vm_compute; reflexivity].
  cbn. split_and!; try done; intros y Hy;
    repeat (apply elem_of_cons in Hy as [->|Hy]; [done|]); by apply elem_of_nil in Hy.
Qed.
