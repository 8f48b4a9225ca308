(** Property C58: types are interned (lang/frontend/ttable.c). *)
From stdpp Require Import list numbers.
From Verif Require Import FnvModel HTableModel InternModel InternSpec InternProofs.

(** Every history of calls, from every first namespace, whose types obey one discipline: each
    call returns, and two calls return the same object exactly when the types asked for are the
    same.  The types asked for are those built from the types asked for before, without a
    table. *)
Theorem C58_interned_partial :
  ∀ (d : discipline) (n : option name) (ops : list op) (ws : list type),
    wanted ops n [] = Some ws → forallb (good d) ws = true → forallb wrap_ok ops = true →
    ∃ st, run (new_table n) ops = TOk st ∧ length (results st) = length ws ∧
      ∀ i j a b u v, results st !! i = Some a → results st !! j = Some b → ws !! i = Some u → ws !! j = Some v →
        (fst a = fst b ↔ norm u = norm v) ∧ (fst a = fst b → a = b).
Proof. exact interned. Qed.
Print Assumptions C58_interned_partial.

(** The comparison of the table holds exactly for the same types, and these have the same
    hash, whatever the functions that mix a number into a hash are. *)
Theorem C58_compare_partial :
  ∀ (d : discipline) (a b : type), good d a = true → good d b = true →
    (compare a 0 b = true ↔ norm a = norm b) ∧
    (∀ u8 u32 u64 h, compare a 0 b = true → hash_type u8 u32 u64 h a = hash_type u8 u32 u64 h b).
Proof.
  intros d a b Ga Gb. split; [by apply (compare_iff d)|]. intros u8 u32 u64 h C. apply (compare_iff d) in C; try done. by apply (type_hash_norm u8 u32 u64 d).
Qed.
Print Assumptions C58_compare_partial.

(** The objects returned by the calls after the first twenty. *)
Definition objects (ops : list op) : option (list N) :=
  match run (new_table None) (initial ++ ops) with TOk st => Some (drop 20 (map fst (results st))) | _ => None end.
Definition kinds (ops : list op) : option (list type) :=
  option_map (λ ws, map norm (drop 20 ws)) (wanted (initial ++ ops) None []).

(** A pointer to a constant and a constant pointer differ, but two tuples holding arrays of
    them are the same object: flags of a wrapper and of what it wraps are joined before they
    are compared. *)
Definition const_ops : list op :=
  [Make (BWrap flgConst) [5]; Make (BOne Pointer 0) [20]; Make (BOne Pointer 0) [5]; Make (BWrap flgConst) [22];
   Make (BArr 0 3) [21]; Make (BArr 0 3) [23]; Make (BMany Tuple 0) [24]; Make (BMany Tuple 0) [25]].
Theorem C58_const_refuted :
  ∃ a b, option_map (drop 6) (kinds const_ops) = Some [TMany Tuple 0 [TArr 0 3 a]; TMany Tuple 0 [TArr 0 3 b]] ∧
    a = TOne Pointer flgConst (TPrim 5) ∧ b = TWrap flgConst (TOne Pointer 0 (TPrim 5)) ∧ objects const_ops = Some [20; 21; 22; 23; 24; 25; 26; 26]%N.
Proof. eexists _, _. split; [vm_compute; reflexivity|]. vm_compute. done. Qed.
Print Assumptions C58_const_refuted.

(** The pointer to an alias of a constant type is the pointer to the type without const. *)
Definition alias_ops : list op :=
  [Make (BWrap flgConst) [5]; Make (BAlias 0 [65%N]) [20]; Make (BOne Pointer 0) [21]; Make (BOne Pointer 0) [5]; Make (BOne Pointer 0) [20]].
Theorem C58_alias_const_refuted : objects alias_ops = Some [20; 21; 22; 22; 23]%N.
Proof. by vm_compute. Qed.
Print Assumptions C58_alias_const_refuted.

(** Two structs of one name with different declarations, and two opaque types of one name in
    different namespaces: one object. *)
Theorem C58_names_refuted :
  let A := [65%N] in
  objects [Make (BName Struct 0 A 1) []; Make (BName Struct 0 A 2) []] = Some [20; 20]%N ∧
  objects [Namespace (Some [97%N]); Make (BName Opaque 0 A 1) []; Namespace (Some [98%N]); Make (BName Opaque 0 A 1) []] = Some [20; 20]%N.
Proof. by vm_compute. Qed.
Print Assumptions C58_names_refuted.

(** Function types of the same name without and with the scopes of two declarations: which of
    them are one object depends on the order of the calls, the last call finds the first object
    although the scopes differ. *)
Theorem C58_scopes_refuted :
  let f s := Make (BFunc 0 (Some [102%N]) s) [5; 5] in
  objects [f (Some 1%N); f None; f (Some 2%N)] = Some [20; 20; 21]%N ∧
  objects [f None; f (Some 1%N); f (Some 2%N)] = Some [20; 20; 20]%N.
Proof. by vm_compute. Qed.
Print Assumptions C58_scopes_refuted.

(** Two extern aliases of one name with different targets: one object. *)
Theorem C58_extern_alias_refuted :
  objects [Make (BAlias flgExtern [65%N]) [5]; Make (BAlias flgExtern [65%N]) [6]] = Some [20; 20]%N.
Proof. by vm_compute. Qed.
Print Assumptions C58_extern_alias_refuted.

(** The same anonymous struct made twice: two objects.  The comparison expects three members
    more in the struct that is in the table, the methods it gets later on. *)
Theorem C58_anonymous_refuted :
  objects [Make (BAnon 0 [(0%N, [65%N])]) [5]; Make (BAnon 0 [(0%N, [65%N])]) [5]] = Some [20; 21]%N.
Proof. by vm_compute. Qed.
Print Assumptions C58_anonymous_refuted.

(** ** Examples *)
(** const is for wrappers of primitive types only *)
Definition disc : discipline := Discipline (λ k, if (k =? 8)%N then flgConst else 0%N) (λ _ _ _, 1%N) (λ _, None) (λ _, ([109%N], None)) (λ _, 2%N).
Definition ex_ops : list op :=
  [Make (BWrap flgConst) [5]; Make (BOne Pointer 0) [20]; Make (BOne Pointer 0) [5]; Make (BOne Pointer flgConst) [5];
   Make (BName Struct 0 [83%N] 1) []; Namespace (Some [97%N]); Make (BName Struct 0 [83%N] 1) []; Make (BMany Tuple 0) [24; 25; 21];
   Make (BAlias 0 [65%N]) [24]; Make (BOne Reference 0) [27]; Make (BOne Reference 0) [24]; Make (BFunc 0 None (Some 3%N)) [15; 22];
   Make (BFunc 0 None None) [15; 22]; Make (BMany Tuple 0) [24; 25; 23]; Make (BArr 0 3) [5]; Make (BArr 0 4) [5]; Make (BWrap flgConst) [20]].
Example C58_ex_good :
  option_map (forallb (good disc)) (wanted (initial ++ ex_ops) None []) = Some true ∧ forallb wrap_ok (initial ++ ex_ops) = true.
Proof. by vm_compute. Qed.
Example C58_ex : objects ex_ops = Some [20; 21; 22; 21; 23; 24; 25; 26; 27; 27; 28; 28; 25; 29; 30; 20]%N.
Proof. vm_compute. reflexivity. Qed.
(** Sixty tuples, each of the one before: the hash table grows and keeps them. *)
Example C58_ex_grow :
  let ops := map (λ i, Make (BMany Tuple 0) [5; (19 + i)%nat]) (seq 0 60) in
  objects (ops ++ ops) = Some (map N.of_nat (seq 20 60 ++ seq 20 60)).
Proof. vm_compute. reflexivity. Qed.
