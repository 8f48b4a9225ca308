(** Property C52: the lowering of defer statements (lang/middle/defer.c). *)
From Coq Require Import List Bool Arith.
From Verif Require Import DeferModel DeferSpec DeferProofs.
Import ListNotations.

(** Every body of a function in which no case of a switch or match is itself a jump or a defer
    statement (one inside a block is fine), every list of choices and every bound on the rounds
    of a loop: the lowered body goes through the same tests and actions, in the same order, and
    ends the same way, as the source does when each block runs the statements deferred in it, the
    last first, whenever it is left. *)
Theorem C52_lowering_partial :
  forall (N : nat) (l : list stmt) (ch : list nat),
    forallb no_bare_case l = true -> tgt N (lower l) ch = run_src N l ch.
Proof. exact lower_runs. Qed.
Print Assumptions C52_lowering_partial.

(** The order the source asks for: what was deferred in a block before it is left by a return
    runs in reverse, and before the return takes effect. *)
Theorem C52_order :
  forall (N : nat) (ds : list nat) (n : nat) (rest : list stmt) (ch : list nat),
    tgt N (lower (map Defer ds ++ Return n :: rest)) ch = (map A (rev ds), Ret n, ch).
Proof.
  intros N ds n rest ch. unfold lower. cbn [shake]. rewrite map_app. cbn [map shake]. rewrite visit_Block. unfold visit_block. rewrite tgt_block, tgt_drop.
  replace (map shake (map Defer ds)) with (map Defer ds).
  2: { induction ds as [|d ds IH]; [reflexivity|]. cbn [map shake]. f_equal. exact IH. }
  assert (forall p, tgt_list N (visit_list [Scope false false []] (map Defer ds ++ Return n :: map shake rest) (Scope false false p)) ch
                    = (map A (rev ds ++ p), Ret n, ch)) as H.
  { induction ds as [|d ds IH]; intros p.
    - cbn [map app visit_list sealed visit]. rewrite added_nil, return_open by (repeat constructor). rewrite tgt_acts. cbn. rewrite !app_nil_r. reflexivity.
    - cbn [map app visit_list sealed visit]. cbn [tgt_list tgt norm loop sealed defers]. rewrite IH. cbn [rev]. rewrite <- app_assoc. reflexivity. }
  specialize (H []). rewrite app_nil_r in H. exact H.
Qed.
Print Assumptions C52_order.

(** A case that is a return without braces: the deferred statement is run before the switch,
    whichever case is taken, and not at the end. *)
Theorem C52_case_return_refuted :
  exists (l : list stmt) (ch : list nat),
    run_src 1 l ch = ([T 0 1; A 2; A 1], Norm, []) /\ tgt 1 (lower l) ch = ([A 1; T 0 1; A 2], Norm, []).
Proof. exists [Defer 1; Switch 0 [Return 7]; Act 2], [1]. vm_compute. split; reflexivity. Qed.
Print Assumptions C52_case_return_refuted.

(** A case that is a defer: the statement is run when the enclosing block ends, also when the
    case was not taken. *)
Theorem C52_case_defer_refuted :
  exists (l : list stmt) (ch : list nat),
    run_src 1 l ch = ([T 0 1; A 2], Norm, []) /\ tgt 1 (lower l) ch = ([T 0 1; A 2; A 1], Norm, []).
Proof. exists [Switch 0 [Defer 1]; Act 2], [1]. vm_compute. split; reflexivity. Qed.
Print Assumptions C52_case_defer_refuted.

(** After such a case the later defer statements of the block are dropped. *)
Theorem C52_case_drops_refuted :
  exists (l : list stmt) (ch : list nat),
    run_src 1 l ch = ([T 0 1; A 2; A 4; A 3], Norm, []) /\ tgt 1 (lower l) ch = ([T 0 1; A 2; A 4], Norm, []).
Proof. exists [Switch 0 [Return 7; Act 2]; Defer 3; Act 4], [1]. vm_compute. split; reflexivity. Qed.
Print Assumptions C52_case_drops_refuted.

(** Example: a loop left by break, continue and return, with defers inside and outside. *)
Definition p5 : list stmt :=
  [Defer 1; While (Some 0) (Block [Defer 2; Act 3; If 1 Break (If 2 Continue (Return 4)); Act 5]); Act 6].
Example C52_ex1 :
  forallb no_bare_case p5 = true /\
  tgt 9 (lower p5) [1; 0; 1; 1; 1] = ([T 0 1; A 3; T 1 0; T 2 1; A 2; T 0 1; A 3; T 1 1; A 2; A 6; A 1], Norm, []) /\
  tgt 9 (lower p5) [1; 0; 0] = ([T 0 1; A 3; T 1 0; T 2 0; A 2; A 1], Ret 4, []).
Proof. vm_compute. repeat split; reflexivity. Qed.
(** Example: the case of the refutation in braces. *)
Example C52_ex2 :
  tgt 1 (lower [Defer 1; Switch 0 [Block [Return 7]]; Act 2]) [1] = ([T 0 1; A 2; A 1], Norm, []) /\
  tgt 1 (lower [Defer 1; Switch 0 [Block [Return 7]]; Act 2]) [0] = ([T 0 0; A 1], Ret 7, []).
Proof. vm_compute. split; reflexivity. Qed.
Example C52_ex3 : tgt 1 (lower [Defer 1; Defer 2; Return 0; Act 5]) [] = ([A 2; A 1], Ret 0, []).
Proof. reflexivity. Qed.
