(** C62: the growable text of the runtime. *)
From stdpp Require Import numbers list.
From Verif Require Import StrModel StrSpec StrProofs RtStringModel RtStringSpec RtStringProofs.
Local Open Scope nat_scope.

(** Any sequence of appends, trims, clears and reserves from the empty text succeeds,
    leaves the text the list operations give and, if the text is not empty and has no
    NUL, [str()] reads as the same text. *)
Theorem C62_history_partial (ops : list sop) :
  exists t s, do_ops ops rstr_new = TOk t /\ spec_run white ops [] s /\ text t = Some s /\
    (s <> [] -> nul_free s -> str t = TOk s).
Proof.
  destruct (do_ops_ok ops rstr_new [] new_holds) as (t & s & E & H & S).
  exists t, s. split; [done|]. split; [by apply spec_run_white|]. split; [by eapply holds_text|].
  intros. by apply holds_str.
Qed.
Print Assumptions C62_history_partial.
(** After every such history, appending the text to itself is right exactly when the
    capacity already suffices. *)
Theorem C62_append_self_exact_partial (ops : list sop) (t : rstr) (s : list N) :
  do_ops ops rstr_new = TOk t -> text t = Some s -> s <> [] ->
  ((exists t', append_self t = TOk t' /\ text t' = Some (s ++ s)) <-> 2 * length s <= t_cap t).
Proof.
  intros E Ht Hne. destruct (do_ops_ok ops rstr_new [] new_holds) as (t1 & s1 & E1 & H & _).
  rewrite E in E1. injection E1 as <-. rewrite (holds_text _ _ _ H) in Ht. injection Ht as ->.
  assert (K := append_self_ok t s H Hne). rewrite <- K. split.
  - intros (t' & E2 & _). apply K. destruct H as [Hs Hd].
    unfold append_self in E2. destruct (t_data t) as [d|] eqn:Ed; [|by destruct Hd].
    destruct Hd as (Hl & Hle & H16 & Htk & _). rewrite Htk, read_cells_map in E2.
    destruct (Nat.eqb_spec (length s) 0); [by destruct s|].
    unfold grow in E2. rewrite Ed in E2.
    destruct (Nat.ltb_spec (t_cap t) (Nat.max (t_size t + length s) 16)); [|lia].
    by destruct (cap_loop _ _ _).
  - intros (t' & E2 & H2). exists t'. split; [done|]. by eapply holds_text.
Qed.
Print Assumptions C62_append_self_exact_partial.
(** Reading a regular file as a whole works exactly for the sizes 0 and 16 or more. *)
Theorem C62_readAll_exact_partial (file : list N) :
  (exists t, readAll file = TOk t /\ text t = Some file) <-> length file = 0 \/ 16 <= length file.
Proof. apply readAll_ok. Qed.
Print Assumptions C62_readAll_exact_partial.

(** A file of two bytes aborts the program. *)
Theorem C62_readAll_refuted : readAll [104; 105]%N = TAssert.
Proof. reflexivity. Qed.
Print Assumptions C62_readAll_refuted.
(** trimLeft alone leaves the C string longer than the text: "  ab" reads as "abab". *)
Theorem C62_trimLeft_refuted :
  match append rstr_new [32; 32; 97; 98]%N with
  | TOk t => match trimLeft t with
             | TOk t => text t = Some [97; 98]%N /\ str t = TOk [97; 98; 97; 98]%N
             | _ => False end
  | _ => False end.
Proof. vm_compute. by split. Qed.
Print Assumptions C62_trimLeft_refuted.
(** [s << s] reads the block that growing has just given back. *)
Theorem C62_append_self_refuted :
  match append rstr_new (replicate 9 97%N) with TOk t => append_self t = TUb | _ => False end.
Proof. reflexivity. Qed.
Print Assumptions C62_append_self_refuted.
(** resize past the capacity writes outside the block. *)
Theorem C62_resize_refuted :
  match append rstr_new [97%N] with TOk t => resize t 17 = TUb /\ resize t 0 = TAssert | _ => False end.
Proof. by split. Qed.
Print Assumptions C62_resize_refuted.

Example C62_example :
  match do_ops [Append [32; 97]%N; Append (replicate 20 98%N); Append [10]%N; Trim] rstr_new with
  | TOk t => str t = TOk (97%N :: replicate 20 98%N) /\ t_cap t = 32
  | _ => False end.
Proof. vm_compute. by split. Qed.
