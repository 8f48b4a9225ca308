(** Classes with bases: places of fields, defaults of objects, virtual calls. *)
From Coq Require Import ZArith Lia.
From stdpp Require Import numbers list.
From Verif Require Import InhModel InhSpec InhProofs.

(** * C88: an object is also an object of its bases *)
(** Each field of the class and its bases is there once and in order, exactly if no class above the base has fields. *)
Theorem C88_fields_once_partial ch :
  fields_of ch = declared ch <-> Forall (fun c => c_fields c = []) (drop 2 ch).
Proof. apply fields_exact. Qed.
Print Assumptions C88_fields_once_partial.

(** Then the members of the base are at the same places, exactly if both have a table or both have none, or the base has
    no members at all. *)
Theorem C88_base_places_partial c up : Forall (fun c => c_fields c = []) (drop 1 up) ->
  (layout up `prefix_of` layout (c :: up) <->
   (near_mark up <-> near_mark (c :: up)) \/ (~ near_mark up /\ declared up = [])).
Proof.
  intros H. rewrite layout_step by done. rewrite table_agree, <- has_table_true.
  rewrite not_true_iff_false. done.
Qed.
Print Assumptions C88_base_places_partial.

(** Any base *)
Theorem C88_all_bases_partial l s : Forall (fun c => c_fields c = []) (drop 2 (l ++ s)) -> steady (l ++ s) -> s <> [] ->
  layout s `prefix_of` layout (l ++ s).
Proof. apply layout_all. Qed.
Print Assumptions C88_all_bases_partial.

Ltac wf := split; [apply (bool_decide_unpack _); by vm_compute|
  repeat first [apply Forall_nil; exact I|apply Forall_cons; split]; repeat split;
  first [apply (bool_decide_unpack _); by vm_compute|repeat first [apply Forall_nil; exact I|apply Forall_cons; split; [done|]]]].
Definition plain (i f : nat) : cls := Cls i [Field f None] [].
Definition virt (i f : nat) : cls := Cls i [Field f None] [Method 7 true true].
(** The field of the base of the base is there twice: in C, two members of one name. *)
Theorem C88_fields_once_refuted : exists ch, well_formed ch /\ ~ NoDup (layout ch) /\
  layout ch = [Data 1 10; Data 1 10; Data 2 20; Data 3 30].
Proof.
  exists [plain 3 30; plain 2 20; plain 1 10]. split; [|split; [|reflexivity]].
  - wf.
  - intros N. apply NoDup_cons in N as [N _]. apply N. left.
Qed.
Print Assumptions C88_fields_once_refuted.
(** The first virtual function below a base with fields: the functions of the base take the table for the field. *)
Theorem C88_base_places_refuted : exists c up, well_formed (c :: up) /\
  layout up !! 0 = Some (Data 1 10) /\ layout (c :: up) !! 0 = Some Table /\ layout (c :: up) !! 1 = Some (Data 1 10).
Proof.
  exists (virt 2 20), [plain 1 10]. split; [|repeat split].
  wf.
Qed.
Print Assumptions C88_base_places_refuted.
(** The table of the base is not in the objects of a class two steps below the last class with a virtual function. *)
Theorem C88_table_lost_refuted : exists c up, well_formed (c :: up) /\ Forall (fun c => c_fields c = []) (drop 1 up) /\
  layout up = [Table; Data 2 20] /\ layout (c :: up) = [Data 2 20; Data 3 30].
Proof.
  exists (plain 3 30), [plain 2 20; Cls 1 [] [Method 7 true true]]. split; [|split; [|split; reflexivity]].
  - wf.
  - by repeat constructor.
Qed.
Print Assumptions C88_table_lost_refuted.

Example C88_ex : let ch := [virt 3 30; virt 2 20; Cls 1 [] [Method 7 true false]] in
  steady ch /\ layout ch = [Table; Data 2 20; Data 3 30] /\ layout (drop 1 ch) = [Table; Data 2 20] /\
  layout (drop 2 ch) = [Table].
Proof.
  assert (forall a ch, near_mark (virt 3 a :: ch) /\ near_mark (virt 2 a :: ch)) as H.
  { intros a ch. split; eexists; (split; [left|]); eexists; (split; [left|reflexivity]). }
  assert (near_mark [Cls 1 [] [Method 7 true false]]) as H'.
  { eexists. split; [left|]. eexists. split; [left|reflexivity]. }
  repeat split; intros; try done; apply H.
Qed.

(** * C89: the fields of a new object have the defaults of their declarations *)
(** Exactly if every class without a function of its own for defaults has none (but zero) in its bases; it has one when it
    declares a default or a virtual function, or its base declares one. *)
Theorem C89_defaults_partial ch : well_formed ch ->
  ((forall c f z, default_of ch c f z -> value (inits ch) c f = z) <->
   (forall l s, ch = l ++ s ->
      (forall k r f z, s = k :: r -> Field f (Some z) ∉ c_fields k) -> ~ near_mark s ->
      forall c f z, default_of s c f z -> z = 0%Z)).
Proof.
  intros W. rewrite defaults_exact by done.
  assert (forall s, has_init s = false <->
    (forall k r f z, s = k :: r -> Field f (Some z) ∉ c_fields k) /\ ~ near_mark s) as H.
  { intros s. rewrite <- has_table_true. destruct s as [|k r]; [cbn; naive_solver|]. unfold has_init.
    rewrite orb_false_iff, negb_false_iff, bool_decide_eq_true. split.
    - intros [E T]. split; [|by rewrite T]. intros k' r' f z [= <- <-] I.
      assert ((c_id k, f, z) ∈ own_defaults k) as J by by apply own_defaults_in. rewrite E in J. by apply elem_of_nil in J.
    - intros [N T]. split; [|by apply not_true_iff_false]. destruct (own_defaults k) as [|[[a b] z] o] eqn:E; [done|].
      exfalso. apply (N k r b z eq_refl). apply (own_defaults_in k a). rewrite E. left. }
  split; intros K l s E; [intros H1 H2; apply (K l s E); by apply H|]. intros H1. apply H in H1 as [H1 H2]. by apply (K l s E).
Qed.
Print Assumptions C89_defaults_partial.

(** [class A { x = 5 }], [class B: A {}]: a new [B] has zero for [x]. *)
Theorem C89_defaults_refuted : exists ch c f z, well_formed ch /\ default_of ch c f z /\ z = 5%Z /\ value (inits ch) c f = 0%Z.
Proof.
  exists [Cls 2 [] []; Cls 1 [Field 10 (Some 5%Z)] []], 1, 10, 5%Z. split; [wf|]. repeat split; try reflexivity.
  - exists (Cls 1 [Field 10 (Some 5%Z)] []). split; [right; left|]. split; [done|left].
Qed.
Print Assumptions C89_defaults_refuted.
(** A default of its own brings those of the base back. *)
Example C89_ex : let ch := [Cls 2 [Field 20 (Some 6%Z)] []; Cls 1 [Field 10 (Some 5%Z)] []] in
  value (inits ch) 1 10 = 5%Z /\ value (inits ch) 2 20 = 6%Z /\ inits ch = [(1, 10, 5%Z); (2, 20, 6%Z)].
Proof. by vm_compute. Qed.

(** * C90: a call runs the most derived function *)
(** Exactly if it goes through the table, the class of the object or its base declares a virtual function, and the most
    derived function has a body; or it does not and the function found is the most derived. *)
Theorem C90_call_partial l s k n c m c' m' :
  well_formed (l ++ s) -> most_derived s n c m -> most_derived (l ++ s) n c' m' ->
  (call (l ++ s) s k n = Some (Runs (c_id c')) <->
   (through_table k s m -> near_mark (l ++ s) /\ m_body m' = true) /\
   (~ through_table k s m -> c' = c /\ m_body m = true)).
Proof. apply call_exact. Qed.
Print Assumptions C90_call_partial.

(** If all bases of the class declare virtual functions, calls of functions found as virtual run the most derived one. *)
Theorem C90_marked_partial l s k n c m c' m' :
  well_formed (l ++ s) -> Forall marks (tail (l ++ s)) -> tail (l ++ s) <> [] ->
  most_derived s n c m -> most_derived (l ++ s) n c' m' -> m_virtual m = true -> m_body m' = true ->
  call (l ++ s) s k n = Some (Runs (c_id c')).
Proof. apply call_marked. Qed.
Print Assumptions C90_marked_partial.

(** The table has no empty places exactly if the most derived of each virtual function has a body. *)
Theorem C90_slots_partial ch : well_formed ch ->
  ((forall n s, (n, s) ∈ table ch -> exists c, s = Fun c) <->
   (forall n c m k q, most_derived ch n c m -> k ∈ ch -> q ∈ c_methods k -> m_virtual q = true -> m_name q = n ->
      m_body m = true)).
Proof. apply slots_filled. Qed.
Print Assumptions C90_slots_partial.

Definition root (b : bool) : cls := Cls 1 [] [Method 7 true b].
Definition mid : cls := Cls 2 [] [Method 7 false true].
Definition leaf : cls := Cls 3 [] [Method 7 false true].
(** Overrides as in any class: the object of the third class has no table at all. *)
Theorem C90_no_table_refuted : exists ch s n c m, well_formed ch /\ ch = [leaf; mid] ++ s /\ most_derived ch n c m /\
  m_body m = true /\ call ch s Path n = Some No_table.
Proof.
  exists [leaf; mid; root true], [root true], 7, leaf, (Method 7 false true). split; [wf|]. repeat split; try reflexivity.
  - exists [], [mid; root true]. repeat split; [left|constructor].
Qed.
Print Assumptions C90_no_table_refuted.
(** An override not marked as virtual: calls through a variable of its class never run an override below. *)
Theorem C90_override_refuted : exists ch s n, well_formed ch /\
  ch = Cls 3 [] [Method 7 true true] :: s /\ call ch s Path n = Some (Runs 2) /\ call ch s Member n = Some (Runs 2) /\
  call ch [root true] Path n = Some (Runs 3).
Proof.
  exists [Cls 3 [] [Method 7 true true]; mid; root true], [mid; root true], 7. split; [wf|]. repeat split; try reflexivity.
Qed.
Print Assumptions C90_override_refuted.
(** A class that leaves a virtual function without a body is not abstract: objects are made, and the call goes to null, or
    to a function that is not there. *)
Theorem C90_abstract_refuted : exists c up, well_formed (c :: up) /\ is_abstract c = false /\
  call (c :: up) up Path 7 = Some Calls_null /\ call (c :: up) (c :: up) Path 7 = Some Unlinked.
Proof.
  exists (Cls 2 [] []), [root false]. split; [wf|]. repeat split; try reflexivity.
Qed.
Print Assumptions C90_abstract_refuted.

(** The streams of the runtime and of net.cxy: OutputStream.append (1), flush (2) of BufferedOutputStream *)
Definition stream : cls := Cls 1 [] [Method 1 true false; Method 9 false true].
Definition buffered : cls := Cls 2 [Field 1 None] [Method 2 true false; Method 1 false true].
Definition socket : cls := Cls 3 [Field 2 None] [Method 2 false true].
Example C90_ex : let ch := [socket; buffered; stream] in
  object_table ch = Some [(1, Fun 2); (2, Fun 3)] /\ layout ch = [Table; Data 2 1; Data 3 2] /\
  call ch [stream] Path 1 = Some (Runs 2) /\ call ch [buffered; stream] Path 2 = Some (Runs 3) /\
  call ch [stream] Member 9 = Some (Runs 1) /\ call ch ch Path 1 = Some (Runs 2).
Proof. by vm_compute. Qed.
