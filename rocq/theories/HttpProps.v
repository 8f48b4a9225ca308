(** C24: requests reach the handler of the matching route. *)
From Coq Require Import NArith String Ascii.
From stdpp Require Import numbers list gmap.
From Verif Require Import TrieModel HttpModel HttpSpec HttpProofs.

(** Registration of well-formed routes succeeds exactly when no two have the same literal part. *)
Theorem C24_register_exact es : Forall (fun e => good_pattern (e_pattern e)) es ->
  (exists t, register_all new_node (map reg_of es) = Ok t) <-> NoDup (map (fun e => literal (e_pattern e)) es).
Proof. exact (register_exact es). Qed.
Print Assumptions C24_register_exact.

(** Exactly which handler is called, with which parameters: that of the route with the
    longest literal part, if it allows the method and its parameters match.  Everything else
    is answered with 404. *)
Theorem C24_dispatch_partial es t : Forall (fun e => good_pattern (e_pattern e)) es ->
  register_all new_node (map reg_of es) = Ok t -> forall m path,
  (forall h b u, handleConnection t m path = Call h b u <->
     exists e, selected es path e /\ h = e_handler e /\ called e m path b u) /\
  ((forall h b u, handleConnection t m path <> Call h b u) -> handleConnection t m path = Status 404).
Proof. exact (dispatch_exact es t). Qed.
Print Assumptions C24_dispatch_partial.

(** In particular a matching route is reached when no registered literal part in front of
    the path is longer than its own. *)
Theorem C24_reached_partial es t e m path values : Forall (fun e => good_pattern (e_pattern e)) es ->
  register_all new_node (map reg_of es) = Ok t ->
  e ∈ es -> e_static e = false -> literal (e_pattern e) <> [] -> m = Get \/ m ∈ e_methods e ->
  matches (e_pattern e) path values ->
  (forall e', e' ∈ es -> is_prefix (literal (e_pattern e')) path ->
     length (literal (e_pattern e')) <= length (literal (e_pattern e))) ->
  handleConnection t m path = Call (e_handler e) (bound (names (e_pattern e)) values) None.
Proof.
  intros F R He Hs Hl Hm (L & Fv & q & Q & ->) Hmax.
  apply (proj1 (dispatch_exact es t F R m _)). exists e. split; [|split; [done|]].
  - split; [done|]. split; [done|]. split; [by eexists|done].
  - split; [done|]. rewrite Hs. split; [done|]. exists values. split; [|done]. split; [done|]. split; [done|]. by exists q.
Qed.
Print Assumptions C24_reached_partial.

(** A method is recognised at the start of a text exactly by its name, in any case. *)
Theorem C24_method s m : m <> Unknown ->
  methodFromString s = (m, length (methodName m)) <-> case_equal (take (length (methodName m)) s) (methodName m).
Proof. exact (method_ok s m). Qed.
Print Assumptions C24_method.

(** Whatever is registered, a request for a path gets only to handlers whose route text
    starts with a slash: "POST /x" is never found. *)
Theorem C24_only_slash gs t m path h b u : register_all new_node gs = Ok t ->
  handleConnection t m (47%N :: path) = Call h b u ->
  exists g rest, g ∈ gs /\ g_handler g = h /\ g_text g = 47%N :: rest.
Proof. exact (only_slash_routes gs t m path h b u). Qed.
Print Assumptions C24_only_slash.
Theorem C24_method_route_refuted :
  exists t, register_all new_node [Reg (codes "POST /save") [] false 7] = Ok t /\
    forall m path, handleConnection t m (47%N :: path) = Status 404.
Proof.
  eexists. split; [vm_compute; reflexivity|]. intros m path.
  destruct (handleConnection _ m (47%N :: path)) as [h b u|c] eqn:E.
  - eapply (only_slash_routes [Reg (codes "POST /save") [] false 7]) in E as (g & rest & Hg & _ & Ht); [|vm_compute; reflexivity].
    apply elem_of_list_singleton in Hg as ->. discriminate Ht.
  - unfold handleConnection in E. destruct (find_route _ _ _); congruence.
Qed.
Print Assumptions C24_method_route_refuted.

(** A longer literal part hides a route that matches. *)
Theorem C24_shadow_refuted :
  let a := Entry (Pattern (codes "/user") [codes "id"]) [] false 1 in
  let b := Entry (Pattern (codes "/user/list") []) [] false 2 in
  matches (e_pattern a) (codes "/user/listing") [codes "listing"] /\
  exists t, register_all new_node (map reg_of [a; b]) = Ok t /\
    handleConnection t Get (codes "/user/listing") = Status 404 /\
    handleConnection t Get (codes "/user/lisa") = Call 1 {[codes "id" := codes "lisa"]} None.
Proof.
  split.
  - split; [done|]. split; [|exists []; split; [by left|done]]. constructor; [|constructor].
    assert (D : bool_decide (47%N ∉ codes "listing" /\ 63%N ∉ codes "listing") = true) by by vm_compute.
    by apply bool_decide_eq_true in D.
  - eexists. split; [vm_compute; reflexivity|]. split; vm_compute; reflexivity.
Qed.
Print Assumptions C24_shadow_refuted.

(** A route of parameters only is registered and never found. *)
Theorem C24_root_param_refuted : exists t, register_all new_node [Reg (codes "/{id}") [] false 1] = Ok t /\
  forall m path, handleConnection t m path = Status 404.
Proof.
  destruct (register_exact [Entry (Pattern [] [codes "id"]) [] false 1]) as [_ R].
  { constructor; [|constructor]. split; [apply not_elem_of_nil|]. split; [apply not_elem_of_nil|]. split; [by right|].
    constructor; [|constructor].
    assert (D : bool_decide (0%N ∉ codes "id" /\ 125%N ∉ codes "id") = true) by by vm_compute.
    by apply bool_decide_eq_true in D. }
  destruct R as [t R]; [apply NoDup_singleton|]. exists t. split; [exact R|]. intros m path.
  destruct (dispatch_exact [Entry (Pattern [] [codes "id"]) [] false 1] t) with (m := m) (path := path) as [D1 D2]; [|done|].
  { constructor; [|constructor]. split; [apply not_elem_of_nil|]. split; [apply not_elem_of_nil|]. split; [by right|].
    constructor; [|constructor].
    assert (D : bool_decide (0%N ∉ codes "id" /\ 125%N ∉ codes "id") = true) by by vm_compute.
    by apply bool_decide_eq_true in D. }
  apply D2. intros h b u C. apply D1 in C as (e & (He & Hne & _) & _).
  apply elem_of_list_singleton in He as ->. done.
Qed.
Print Assumptions C24_root_param_refuted.

(** A route and the same one with a parameter cannot both be registered. *)
Theorem C24_same_literal_refuted :
  register_all new_node [Reg (codes "/user") [] false 1; Reg (codes "/user/{id}") [] false 2] = Abort.
Proof. vm_compute. reflexivity. Qed.
Print Assumptions C24_same_literal_refuted.

(** With assertions disabled the opening brace is not skipped (assert! holds the increment),
    and parameters get names with a brace in front. *)
Theorem C24_disable_assert_refuted :
  parseParams true 100 (codes "/{id}/{n}") = Ok [codes "id"; codes "n"] /\
  parseParams false 100 (codes "/{id}/{n}") = Ok [codes "{id"; codes "{n"].
Proof. split; vm_compute; reflexivity. Qed.
Print Assumptions C24_disable_assert_refuted.

Example C24_dispatch_example :
  let es := [Entry (Pattern (codes "/user") [codes "id"; codes "n"]) [Post] false 1;
             Entry (Pattern (codes "/files") []) [] true 2] in
  exists t, register_all new_node (map reg_of es) = Ok t /\
    handleConnection t Post (codes "/user/7/x?q=1") = Call 1 (<[codes "n" := codes "x"]> {[codes "id" := codes "7"]}) None /\
    handleConnection t Delete (codes "/user/7/x") = Status 404 /\
    handleConnection t Get (codes "/files/a/b.txt") = Call 2 ∅ (Some (codes "/a/b.txt")) /\
    handleConnection t Get (codes "/user/7") = Status 404.
Proof. eexists. split; [vm_compute; reflexivity|]. repeat split; vm_compute; reflexivity. Qed.
Example C24_method_example : methodFromString (codes "post /x") = (Post, 4) /\ methodFromString (codes "Patch") = (Unknown, 0).
Proof. split; vm_compute; reflexivity. Qed.
