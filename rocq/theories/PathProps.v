(** C16: joining and splitting paths. *)
From Coq Require Import NArith.
From stdpp Require Import numbers list.
From Verif Require Import StrModel StrSpec PathModel PathSpec PathProofs.

(** A path with a separator: joining its parts names the same file, with the same text
    exactly when its directory part does not end in a separator. *)
Theorem C16_round_trip_partial (p : list N) : nul_free p -> sep ∈ p ->
  exists d b, dirname p = SOk d /\ basename p = SOk b /\
  exists q, join d b = SOk q /\ same_path q p /\ (q = p <-> forall d', d <> d' ++ [sep]).
Proof. apply round_trip. Qed.
Print Assumptions C16_round_trip_partial.
(** Without a separator both parts are the path itself and the join is not the path. *)
Theorem C16_plain_name (p : list N) : nul_free p -> sep ∉ p ->
  dirname p = SOk p /\ basename p = SOk p /\ join p p = SOk (p ++ sep :: p).
Proof. apply no_sep_join. Qed.
Print Assumptions C16_plain_name.
(** A join contains a doubled separator exactly when a part does or the suffix starts
    with a separator. *)
Theorem C16_join_exact_partial (p s : list N) : nul_free p -> exists q, join p s = SOk q /\
  (doubled q <-> doubled p \/ doubled s \/ exists t, s = sep :: t).
Proof. apply join_doubled. Qed.
Print Assumptions C16_join_exact_partial.

(** The file a: joining its dirname and its basename gives a/a. *)
Theorem C16_round_trip_refuted :
  dirname [97%N] = SOk [97%N] /\ basename [97%N] = SOk [97%N] /\ join [97%N] [97%N] = SOk [97%N; sep; 97%N] /\
  ~ same_path [97%N; sep; 97%N] [97%N].
Proof. by vm_compute. Qed.
Print Assumptions C16_round_trip_refuted.
(** a joined with /b is a//b; and the empty path joined with b is the absolute /b. *)
Theorem C16_join_refuted :
  join [97%N] [sep; 98%N] = SOk [97%N; sep; sep; 98%N] /\ join [] [98%N] = SOk [sep; 98%N].
Proof. by vm_compute. Qed.
Print Assumptions C16_join_refuted.

Example C16_ex : let p := [47; 97; 47; 98; 46; 99]%N in nul_free p /\ sep ∈ p /\
  dirname p = SOk [47; 97]%N /\ basename p = SOk [98; 46; 99]%N.
Proof. split; [by repeat constructor|]. split; [left|by vm_compute]. Qed.
