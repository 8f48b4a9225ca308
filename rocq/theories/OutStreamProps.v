(** C06: buffered output; C63: printing integers. *)
From Coq Require Import ZArith.
From stdpp Require Import numbers list.
From Verif Require Import FormatSpec OutStreamModel OutStreamSpec OutStreamProofs.

(** The delivered and the buffered bytes are the appended data in order, unless an
    append exactly fills the room behind buffered bytes. *)
Theorem C06_order_partial (cap : nat) (ops : list oop) :
  (forall pre d post, ops = pre ++ OAppend d :: post -> ~ exact_fill (o_run cap pre) d) ->
  o_out (o_run cap ops) ++ o_buf (o_run cap ops) = written ops.
Proof. apply run_ordered. Qed.
Print Assumptions C06_order_partial.
(** What one append does in each case: in the exact-fill case the new data overtakes
    the buffered bytes. *)
Theorem C06_append_exact_partial (cap : nat) (ops : list oop) (d : list N) :
  let s := o_run cap ops in let s' := o_append s d in
  (exact_fill s d -> o_out s' ++ o_buf s' = o_out s ++ d ++ o_buf s) /\
  (~ exact_fill s d -> o_out s' ++ o_buf s' = (o_out s ++ o_buf s) ++ d).
Proof. destruct (run_wf cap ops) as [W _]. apply (o_append_cases _ d W). Qed.
Print Assumptions C06_append_exact_partial.
(** No byte is lost or duplicated, whatever the sizes. *)
Theorem C06_content (cap : nat) (ops : list oop) :
  o_out (o_run cap ops) ++ o_buf (o_run cap ops) ≡ₚ written ops.
Proof. apply run_perm. Qed.
Print Assumptions C06_content.
(** After sync nothing is buffered and all bytes have been delivered as they stood. *)
Theorem C06_sync (cap : nat) (ops : list oop) :
  o_buf (o_run cap (ops ++ [OSync])) = [] /\
  o_out (o_run cap (ops ++ [OSync])) = o_out (o_run cap ops) ++ o_buf (o_run cap ops).
Proof.
  rewrite run_snoc. cbn. destruct (sync_ok (o_run cap ops)) as (A & B & _). split; [done|].
  unfold all_bytes in A. rewrite B, app_nil_r in A. done.
Qed.
Print Assumptions C06_sync.

(** "ab" then "cd" through a buffer of four bytes arrives as "cdab". *)
Theorem C06_order_refuted :
  let ops := [OAppend [97; 98]%N; OAppend [99; 100]%N; OSync] in
  o_out (o_run 4 ops) = [99; 100; 97; 98]%N /\ written ops = [97; 98; 99; 100]%N.
Proof. by split. Qed.
Print Assumptions C06_order_refuted.
Example C06_example :
  let ops := [OAppend [97; 98]%N; OAppend [99]%N; OAppend [100; 101]%N; OAppend [1; 2; 3; 4; 5]%N; OAppend [6]%N] in
  o_out (o_run 4 ops) = [97; 98; 99; 100; 101; 1; 2; 3; 4; 5]%N /\ o_buf (o_run 4 ops) = [6]%N.
Proof. by split. Qed.

(** An integer of any integer type is printed in decimal exactly when it is below 2^63. *)
Theorem C63_exact_partial (z : Z) :
  (- 2 ^ 63 <= z < 2 ^ 64)%Z -> is_decimal_Z z (print_integer z) <-> (z < 2 ^ 63)%Z.
Proof. apply print_integer_exact. Qed.
Print Assumptions C63_exact_partial.
(** The largest u64 is printed as "-1". *)
Theorem C63_refuted : print_integer (2 ^ 64 - 1) = [45; 49]%N.
Proof. reflexivity. Qed.
Print Assumptions C63_refuted.
Example C63_example : print_integer (-120) = [45; 49; 50; 48]%N.
Proof. reflexivity. Qed.
