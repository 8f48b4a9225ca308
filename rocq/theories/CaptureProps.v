(** Property C55: closure captures (lang/frontend/capture.c and the binder,
    lang/middle/bind/resolve.c). *)
From stdpp Require Import list numbers.
From Coq Require Import ZifyBool ZifyNat ZifyN.
From Verif Require Import HTableModel KTableModel KTableProofs CaptureModel CaptureSpec CaptureProofs CaptureProofs2.

(** Every sequence of captures in which equal names mean the same variable:
    no assertion fails and no probe runs on, every capture is answered with the
    slot of its variable, and the ordered list has each variable once, in
    order of first use. *)
Theorem C55_slots :
  ∀ (hashs : N → N) (nodes : list sym),
    (∀ a b, a ∈ nodes → b ∈ nodes → s_name a = s_name b → s_id a = s_id b) →
    let L := nub same_sym nodes in
    (N.of_nat (length L) ≤ 2 ^ 32)%N →
    ∃ set ids, add_all hashs cset_new nodes = TOk (set, ids) ∧
      get_ordered set = (map Some L, N.of_nat (length L)) ∧
      length ids = length nodes ∧
      ∀ i n k, nodes !! i = Some n → ids !! i = Some k →
        ∃ n', L !! N.to_nat k = Some n' ∧ s_name n' = s_name n ∧ s_id n' = s_id n.
Proof.
  intros hashs nodes HC L HL.
  destruct (add_all_ok hashs nodes cset_new [] (new_setrep hashs) HC HL) as (set & ids & E & S & Hlen & Hids).
  exists set, ids. split; [done|]. split; [by apply (ordered_ok hashs)|]. split; [done|].
  intros i n k Hn Hk. destruct (Hids i n k Hn Hk) as (n' & H1 & H2). exists n'. split; [done|].
  unfold same_sym in H2. lia.
Qed.
Print Assumptions C55_slots.

(** Two variables of one name in one set stop the compiler at an assertion. *)
Theorem C55_clash :
  ∀ (hashs : N → N) (a b : sym), s_name a = s_name b → s_id a ≠ s_id b →
    add_all hashs cset_new [a; b] = TAssert.
Proof.
  intros hashs a b Hn Hi. cbn [add_all].
  pose proof (add_ok hashs cset_new [] a (new_setrep hashs)) as A. cbn [slots length] in A.
  destruct A as (set & -> & S); [done|]. cbn [tbind fst snd].
  pose proof (add_ok hashs set _ b S) as B. cbn [slots app length] in B.
  rewrite Hn, N.eqb_refl in B. replace (s_id a =? s_id b)%N with false in B by lia.
  rewrite B; done.
Qed.
Print Assumptions C55_clash.

(** The binder, for every function without match cases that bind a variable:
    it never fails an assertion and every probe ends; if it reports no error,
    every use is resolved to the variable lexical scoping gives it, and every
    closure's list holds exactly the variables used inside (also by the
    closures nested in it) and declared outside, once each, in order of first
    use. *)
Theorem C55_binder_partial :
  ∀ (hashs : N → N) (tops params : list N) (body : term),
    no_case body = true → (uses body ≤ 2 ^ 32)%N →
    bind_function hashs tops params body = TOk None ∨
    ∃ st, bind_function hashs tops params body = TOk (Some st) ∧
      map fst (b_uses st) = map snd (fst (sem_function tops params body)) ∧
      length (b_out st) = length (snd (sem_function tops params body)) ∧
      ∀ i me arr count c,
        b_out st !! i = Some (me, (arr, count)) →
        snd (sem_function tops params body) !! i = Some c →
        count = N.of_nat (length c) ∧ map (fmap var) arr = map Some c.
Proof.
  intros hashs tops params body Hnc Hu. unfold bind_function, sem_function.
  set (ntop := N.of_nat (length tops)).
  set (G := Frame 0 None (tops_from 0 tops)). set (F := Frame 1 None []).
  assert (HT : ∀ l i x, assoc x (tops_from i l) = (λ j, Sym j x true None) <$> top_env i l x ∧
                        (∀ j, top_env i l x = Some j → i ≤ j < i + N.of_nat (length l))%N).
  { induction l as [|y l IH]; intros i x; [split; done|]. cbn [tops_from assoc top_env length].
    destruct (y =? x)%N eqn:Eyx.
    - apply N.eqb_eq in Eyx as ->. split; [done|]. intros j [= <-]. lia.
    - destruct (IH (i + 1)%N x) as [-> H2]. split; [done|]. intros j Hj. specialize (H2 j Hj). lia. }
  assert (E : einv hashs ntop ntop [F; G] [(ntop, [])]).
  { cbn [einv F G f_names f_set f_node assoc]. split; [lia|]. split; [lia|]. split; [done|].
    split; [intros g ->%elem_of_list_singleton; done|]. split; [done|]. split; [done|]. split; [lia|].
    intros x s. destruct (HT tops 0%N x) as [-> H2]. destruct (top_env 0 tops x) as [j|]; [|done].
    intros [= <-]. cbn. specialize (H2 j eq_refl). split; [done|]. split; [done|]. unfold ntop. lia. }
  assert (R : rel (top_env 0 tops) [F; G]).
  { intros x. cbn [find_sym F G f_names assoc]. destruct (HT tops 0%N x) as [-> _].
    by destruct (top_env 0 tops x). }
  destruct (define_params [F; G] ntop 1 params) as [[env n]|] eqn:P; [|by left].
  change 1%N with (f_node F) in P.
  assert (Hg0 : [(ntop, []) : N * list sym] ≠ []) by done.
  destruct (define_params_ok hashs ntop _ _ _ _ _ _ _ _ P Hg0 E R) as (f1 & ρ1 & -> & Nf & Sf & B & E1 & R1 & Ln).
  rewrite B.
  edestruct (bind_ok hashs ntop body Hnc (BState [f1; G] n 2 None [] []) [(ntop, [])] ρ1)
    as [->|(st & u & ρ2 & cs & o & us & -> & S1 & Hl & Ht & I1 & R2 & Sh & C1 & O1 & F1 & U1 & M1 & L1 & L2)].
  { split; [exact E1|]. split; cbn [b_env b_nscope b_closure].
    - intros f [->|[->|X%elem_of_nil]%elem_of_cons]%elem_of_cons; [rewrite Nf; done|done|done].
    - intros _ f [->|[->|X%elem_of_nil]%elem_of_cons]%elem_of_cons; [by rewrite Sf|done|done]. }
  { done. }
  { exact R1. }
  { intros g ->%elem_of_list_singleton. cbn [snd length]. lia. }
  { by left. }
  right. exists st. split; [done|]. cbn [b_nsym] in S1. rewrite S1. cbn [fst snd].
  cbn [b_uses b_out app] in U1, O1. rewrite U1, O1. split; [rewrite M1, map_map; done|].
  split; [by eapply Forall2_length|].
  intros i me arr count c Ho Hc. destruct (Forall2_lookup_lr _ _ _ _ _ _ F1 Ho Hc) as (L & [= -> ->] & <-).
  split; [by rewrite map_length|]. by rewrite !map_map.
Qed.
Print Assumptions C55_binder_partial.

(** The variable of a match case never gets the scope it belongs to: a closure
    around the match statement captures it, although it is declared inside, and
    two cases with a variable of the same name stop the compiler. *)
Theorem C55_case_refuted :
  ∃ (body body2 : term),
    (∀ hashs : N → N, ∃ st, bind_function hashs [] [7%N] body = TOk (Some st) ∧
      snd (sem_function [] [7%N] body) = [[]] ∧
      map (λ o, (map (fmap var) (fst (snd o)), snd (snd o))) (b_out st) = [([Some (8, 1)], 1)]%N) ∧
    bind_function (λ _, 0%N) [] [7%N] body2 = TAssert.
Proof.
  exists (TClosure [] (TCase 8 (TUse 8))),
    (TClosure [] (TSeq (TCase 8 (TUse 8)) (TCase 8 (TUse 8)))).
  split; [|vm_compute; reflexivity].
  intros hashs. cbv [bind_function define_params define_sym assoc]. cbn [bind b_env b_nsym b_nscope f_names f_set f_node define_params define_sym assoc find_sym b_closure capture_symbol s_top walk s_parent length tops_from N.of_nat s_name N.eqb Pos.eqb N.add].
  pose proof (add_ok hashs cset_new [] (Sym 1 8 false None) (new_setrep hashs)) as A. cbn [slots length] in A.
  destruct A as (set & A & S); [done|]. 
  change (0 + 1)%N with 1%N. rewrite A. cbn [tbind fst snd].
  eexists. split; [reflexivity|]. split; [vm_compute; reflexivity|].
  cbn [b_out app map pop_frame b_env top_set f_set fst snd]. rewrite (ordered_ok hashs set _ S). done.
Qed.
Print Assumptions C55_case_refuted.

(** In a nested closure, a use is resolved to the field of the outermost
    closure that captures the variable (node 2), not to that of the closure it
    stands in (node 3). *)
Theorem C55_field_refuted :
  ∃ (body : term) st, bind_function (λ x, x) [] [7%N] body = TOk (Some st) ∧
    b_uses st = [(0, Some 2)]%N ∧
    map (λ o, (fst o, map (fmap var) (fst (snd o)))) (b_out st) = [(3, [Some (7, 0)]); (2, [Some (7, 0)])]%N.
Proof.
  exists (TClosure [] (TClosure [] (TUse 7))). eexists. split; [vm_compute; reflexivity|].
  split; vm_compute; reflexivity.
Qed.
Print Assumptions C55_field_refuted.

(** f(7, 8) { var 5 = 7; (p) => { 8; 5; var 8 = p; 8; () => { 5; 8; 9; 7 }; 7; 5 } } with
    9 at the top level: the inner closure captures 5, 8 (the local) and 7, the
    outer one 8 (the parameter), 5, 7. *)
Example C55_ex1 :
  let body := TSeq (TLet 5 (TUse 7))
    (TClosure [4%N] (TScope (TSeq (TUse 8) (TSeq (TUse 5) (TScope (TSeq (TLet 8 (TUse 4)) (TSeq (TUse 8)
      (TSeq (TClosure [] (TSeq (TUse 5) (TSeq (TUse 8) (TSeq (TUse 9) (TUse 7)))))
            (TSeq (TUse 7) (TUse 5)))))))))) in
  snd (sem_function [9%N] [7; 8]%N body) = [[(5, 3); (8, 5); (7, 1)]; [(8, 2); (5, 3); (7, 1)]]%N ∧
  match bind_function (λ _, 3%N) [9%N] [7; 8]%N body with
  | TOk (Some st) => map (λ o, map (fmap var) (fst (snd o))) (b_out st)
  | _ => [] end = [[Some (5, 3); Some (8, 5); Some (7, 1)]; [Some (8, 2); Some (5, 3); Some (7, 1)]]%N.
Proof. split; vm_compute; reflexivity. Qed.
Example C55_ex2 :
  match add_all (λ _, 1%N) cset_new (map (λ x, Sym x x false None) [4; 2; 4; 9; 2]%N) with
  | TOk (set, ids) => (ids, map (fmap s_id) (fst (get_ordered set)))
  | _ => ([], []) end = ([0; 1; 0; 2; 1], [Some 4; Some 2; Some 9])%N.
Proof. vm_compute. reflexivity. Qed.
