(** Properties of exceptions and of the recovery of the parser. *)
From Coq Require Import List Bool Arith Lia.
From Verif Require Import ExcModel ExcSpec ExcProofs.
Import ListNotations.

(** C82: try, catch and finally behave as usual in programs with at most 16 nested try blocks and none
    in finally blocks. *)
Theorem C82_run_iff_partial sup p o r : rooted sup -> tame p = true -> depth p <= 16 ->
  (run sup p = (o, match r with Normal => Finished | Raised t => Killed t end) <-> means sup p o r).
Proof. exact (run_iff sup p o r). Qed.
Print Assumptions C82_run_iff_partial.

(** ... and each such program has one meaning. *)
Theorem C82_one_meaning_partial sup p : rooted sup -> tame p = true ->
  exists o r, means sup p o r /\ forall o' r', means sup p o' r' -> o' = o /\ r' = r.
Proof.
  intros Hr Ht. destruct (proj1 (means_total sup Hr) p Ht) as (o & r & M).
  exists o, r. split; [exact M|]. intros o' r' M'. exact (proj1 (means_det sup) p o r M o' r' M').
Qed.
Print Assumptions C82_one_meaning_partial.

(** 3 is a subtype of 1: the inner clause for 2 does not take it, the outer one for 1 does; both finally
    blocks run, the action behind the throw does not. *)
Definition example_sup (t : nat) : nat := match t with 3 => 1 | _ => 0 end.
Definition example : prog :=
  Seq (Try (Seq (Act 1) (Try (Seq (Throw 3) (Act 9)) (CCons 2 (Act 8) CNil) (Act 2)))
         (CCons 2 (Act 8) (CCons 1 (Seq (Act 3) (Try (Throw 2) (CCons 0 (Act 4) CNil) Skip)) CNil)) (Act 5))
    (Throw 2).
Example C82_example : rooted example_sup /\ tame example = true /\ depth example <= 16 /\
  run example_sup example = ([1; 2; 3; 4; 5], Killed 2) /\ means example_sup example [1; 2; 3; 4; 5] (Raised 2).
Proof.
  assert (rooted example_sup) as Hr.
  { split; [reflexivity|]. intros t H. unfold example_sup. do 4 (destruct t as [|t]; [lia|]). lia. }
  assert (tame example = true) as Ht by reflexivity.
  assert (depth example <= 16) as Hd by (cbn; lia).
  assert (run example_sup example = ([1; 2; 3; 4; 5], Killed 2)) as E by reflexivity.
  repeat (split; [assumption|]). now apply (C82_run_iff_partial example_sup example _ (Raised 2)).
Qed.

(** An exception that is caught inside a finally block takes the place of the one on its way: the clause
    for 1 outside runs although 2 was thrown. *)
Definition finally_catches : prog :=
  Try (Try (Throw 2) CNil (Try (Throw 1) (CCons 1 (Act 5) CNil) Skip))
    (CCons 2 (Act 3) (CCons 1 (Act 8) CNil)) Skip.
Theorem C82_finally_catches_refuted : exists o r, means parser_sup finally_catches o r /\
  o = [5; 3] /\ r = Normal /\ run parser_sup finally_catches = ([5; 8], Finished).
Proof.
  assert (forall t u, subtype parser_sup t u -> t = u \/ u = 0) as Hs.
  { intros t u H. induction H as [t|t u H [IH|IH]]; auto. }
  exists [5; 3], Normal. split; [|repeat split].
  apply (means_try parser_sup _ _ _ [5] (Raised 2) [3] Normal [] Normal); [| |constructor].
  - apply (means_try parser_sup _ _ _ [] (Raised 2) [] (Raised 2) [5] Normal); [constructor|constructor|].
    apply (means_try parser_sup _ _ _ [] (Raised 1) [5] Normal [] Normal); [constructor| |constructor].
    apply catches_here; [constructor|constructor].
  - apply catches_here; [constructor|constructor].
Qed.
Print Assumptions C82_finally_catches_refuted.

(** Seventeen nested try blocks raise an exception of their own. *)
Fixpoint nested (n : nat) (p : prog) : prog :=
  match n with 0 => p | S n => Try (nested n p) CNil Skip end.
Theorem C82_seventeen_nested_refuted :
  means parser_sup (nested 17 (Act 1)) [1] Normal /\
  run parser_sup (nested 16 (Act 1)) = ([1], Finished) /\
  run parser_sup (nested 17 (Act 1)) = ([], Killed 0).
Proof.
  split; [|split; reflexivity].
  generalize 17. induction n as [|n IH]; cbn [nested]; [constructor|].
  apply (means_try parser_sup _ _ _ [1] Normal [] Normal [] Normal); [exact IH|constructor|constructor].
Qed.
Print Assumptions C82_seventeen_nested_refuted.

(** C83: parsing goes on behind syntax errors when errors of declarations come before blocks in error and
    there are few of those. *)
Theorem C83_recovers_partial ds :
  forallb settled ds = true -> all_bad ds + all_nest ds <= 16 ->
  parse ds = (concat (map seen_all ds), Finished).
Proof. exact (parse_recovers ds). Qed.
Print Assumptions C83_recovers_partial.

Definition stmts_of (l : list stmt) : stmts := fold_right SCons SNil l.
(** A function with an error in a nested block, one with an error in its head, and one without. *)
Definition example_file : list stmts :=
  [stmts_of [Good 1; Block (stmts_of [Good 2; Block (stmts_of [Bad 3; Good 4]); Good 5; Bad 6; Good 7]); Good 8];
   stmts_of [Good 9; Bad 10; Block (stmts_of [Good 11])];
   stmts_of [Good 12; Block (stmts_of [Good 13])]].
Example C83_example : forallb settled example_file = true /\ all_bad example_file + all_nest example_file <= 16 /\
  parse example_file = ([2; 4; 7; 10; 13; 16; 18; 21; 24; 26], Finished).
Proof. repeat split. cbn. lia. Qed.

(** An error of the declaration behind a block in error makes the parser jump into a function that has
    returned; the declarations after it are not looked at. *)
Theorem C83_error_behind_block_refuted :
  exists ds, map seen_all ds = [[3; 5]; [6]] /\ parse ds = ([3; 5], Astray).
Proof. exists [stmts_of [Block (stmts_of [Bad 1]); Bad 2]; stmts_of [Good 3]]. split; reflexivity. Qed.
Print Assumptions C83_error_behind_block_refuted.

(** Each block in error takes one of the sixteen frames for good: fifteen such functions are
    recovered from, the sixteenth is not. *)
Theorem C83_sixteen_blocks_refuted :
  let f := stmts_of [Block (stmts_of [Bad 1])] in
  parse (repeat f 15) = (repeat 3 15, Finished) /\ parse (repeat f 16) = (repeat 3 15, Astray).
Proof. split; vm_compute; reflexivity. Qed.
Print Assumptions C83_sixteen_blocks_refuted.
