(** C05: the trie. *)
From Coq Require Import NArith.
From stdpp Require Import numbers list.
From Verif Require Import TrieModel TrieSpec TrieProofs.

(** For every set of keys: the prefix search returns the longest registered prefix of
    [s], exactly when the empty key is not registered or a longer prefix is. *)
Theorem C05_longest_prefix_exact_partial {V} (ks : list (list N * V)) : NoDup (ks.*1) ->
  exists root, add_all new_node ks = Some root /\
  forall s, longest_prefix ks s (find_prefix root s) <->
     ([] ∈ ks.*1 -> exists k w t, registered ks k w /\ k <> [] /\ s = k ++ t).
Proof. intros ND. destruct (find_ok ks ND) as (root & E & P & _). by exists root. Qed.
Print Assumptions C05_longest_prefix_exact_partial.
(** The public find returns the data of a non-empty key iff the key was added. *)
Theorem C05_find_partial {V} (ks : list (list N * V)) : NoDup (ks.*1) ->
  exists root, add_all new_node ks = Some root /\
  forall s v, s <> [] -> find root s = Some v <-> registered ks s v.
Proof. intros ND. destruct (find_ok ks ND) as (root & E & _ & P). by exists root. Qed.
Print Assumptions C05_find_partial.
(** Adding fails (assertion) only for a key added before. *)
Theorem C05_add_distinct {V} (ks : list (list N * V)) :
  (exists root, add_all new_node ks = Some root) <-> NoDup (ks.*1).
Proof.
  split; [|intros ND; destruct (find_ok ks ND) as (root & E & _); by exists root].
  apply add_all_distinct.
Qed.
Print Assumptions C05_add_distinct.
(** The data of the empty key is never found. *)
Theorem C05_empty_key_refuted :
  exists root, add_all new_node [([], 7)] = Some root /\ find root [] = None /\ find_prefix root [97%N] = None /\
    longest_prefix [([], 7)] [97%N] (Some (0, 7)) /\ ~ longest_prefix [([], 7)] [97%N] None.
Proof.
  eexists. split; [by vm_compute|]. split; [done|]. split; [done|]. split.
  - split; [apply Nat.le_0_l|]. split; [left|]. intros k w t X. apply elem_of_list_singleton in X. injection X as -> ->.
    intros _. apply Nat.le_0_l.
  - intros L. apply (L [] 7 [97%N]); [left|done].
Qed.
Print Assumptions C05_empty_key_refuted.

Example C05_ex : let ks := [([97; 98], 1); ([97], 2); ([98; 99; 100], 3)]%N in NoDup (ks.*1) /\
  exists root, add_all new_node ks = Some root /\ find_prefix root [97; 98; 99]%N = Some (2, 1%N) /\
  find_prefix root [98; 99]%N = None /\ find root [97]%N = Some 2%N /\ find root [97; 99]%N = None.
Proof.
  split; [by apply (bool_decide_unpack _); vm_compute|]. eexists. split; [by vm_compute|]. by vm_compute.
Qed.
