(** C54: edits of AST node lists keep all other nodes. *)
From stdpp Require Import sets list numbers.
From Verif Require Import EditModel EditSpec EditProofs.

(** Reading: the count is the length, the node at an index the one of the list. *)
Theorem C54_index fuel h s l i :
  chain h s l → length l ≤ fuel →
  count_nodes fuel h s = AOk (N.of_nat (length l)) ∧
  at_index fuel h s 0 i = AOk (l !! N.to_nat i).
Proof.
  intros H Hf. split; [by apply count_nodes_spec|].
  rewrite (at_index_spec h s l fuel 0 i H Hf) by lia. do 2 f_equal. lia.
Qed.

(** A list built by [insertAstNode] from lists is their concatenation. *)
Fixpoint insert_all (fuel : nat) (h : heap) (l : nlist) (xss : list (list N)) : ares (heap * nlist) :=
  match xss with
  | [] => AOk (h, l)
  | xs :: rest => abind (insert_node fuel h l (head xs)) (λ r, insert_all fuel (fst r) (snd r) rest)
  end.
Theorem C54_insert fuel h xss :
  Forall (λ xs, chain h (head xs) xs) xss → NoDup (concat xss) → length (concat xss) ≤ fuel →
  ∃ h' l, insert_all fuel h (NList None None) xss = AOk (h', l) ∧
    chain h' (l_first l) (concat xss) ∧ l_last l = list.last (concat xss).
Proof.
  intros HF ND Hf.
  assert (G : ∀ xss h l pre,
    built h l pre → Forall (λ xs, chain h (head xs) xs) xss → NoDup (pre ++ concat xss) →
    length (concat xss) ≤ fuel →
    ∃ h' l', insert_all fuel h l xss = AOk (h', l') ∧ built h' l' (pre ++ concat xss)).
  { clear. induction xss as [|xs xss IH]; intros h l pre B HF ND Hf.
    - exists h, l. cbn. by rewrite app_nil_r.
    - inversion HF; subst. cbn [concat] in *. rewrite app_length in Hf.
      destruct (insert_node_spec fuel h l pre xs) as (h' & l' & E & B' & Hh); [done|done| |lia|].
      { rewrite app_assoc in ND. by apply list.NoDup_app in ND as [? _]. }
      cbn [insert_all]. rewrite E. cbn [abind fst snd].
      destruct (IH h' l' (pre ++ xs)) as (h'' & l'' & E' & B''); [done| | |lia|].
      + apply list.Forall_forall. intros ys Hys.
        apply chain_lseg.
        assert (Hc : chain h (head ys) ys) by (rewrite list.Forall_forall in H2; by apply H2).
        apply chain_lseg in Hc.
        assert (Hd : ∀ n, n ∈ ys → h' n = h n).
        { intros n Hn. apply Hh. intros Hp. apply list.NoDup_app in ND as (_ & ND & _).
          apply (ND n Hp). apply elem_of_app. right.
          clear -Hys Hn. induction Hys; cbn; apply elem_of_app; auto. }
        clear -Hc Hd. revert Hc. generalize (head ys) as s. induction ys as [|y ys IH]; intros s; [done|].
        intros [-> Hc]. split; [done|]. rewrite Hd by set_solver. apply IH; [|done]. set_solver.
      + by rewrite <- app_assoc.
      + exists h'', l''. split; [done|]. by rewrite app_assoc. }
  destruct (G xss h (NList None None) []) as (h' & l' & E & B1 & B2); try done.
  - split; [constructor|done].
  - exists h', l'. done.
Qed.

Theorem C54_insert_after fuel h s l1 b l2 xs :
  chain h s (l1 ++ b :: l2) → chain h (head xs) xs → xs <> [] → NoDup (l1 ++ b :: l2 ++ xs) →
  length xs ≤ fuel →
  ∃ h', insert_after fuel h b (head xs) = AOk h' ∧ chain h' s (l1 ++ b :: xs ++ l2).
Proof. apply insert_after_spec. Qed.

(** The node itself is passed as its predecessor when it is the first. *)
Theorem C54_unlink h s l1 n l2 :
  chain h s (l1 ++ n :: l2) → NoDup (l1 ++ n :: l2) →
  let '(h', head') := unlink_node h s (match list.last l1 with Some p => p | None => n end) n in
  chain h' head' (l1 ++ l2).
Proof.
  intros H ND. destruct l1 as [|p l1 _] using rev_ind.
  - cbn [list.last app] in *.
    assert (s = Some n) as -> by (by inversion H). by apply unlink_first.
  - rewrite last_snoc. rewrite <- app_assoc in *. cbn [app] in *. by apply unlink_later.
Qed.

(** The contents found along the list after [replaceAstNode]. *)
Theorem C54_replace_node fuel h body s l1 n l2 w ws :
  chain h s (l1 ++ n :: l2) → chain h (Some w) (w :: ws) → NoDup (l1 ++ n :: l2 ++ w :: ws) →
  length ws ≤ fuel →
  ∃ h' body' l', replace_node fuel h body n w = AOk (h', body') ∧ chain h' s l' ∧
    map body' l' = map body (l1 ++ w :: ws ++ l2).
Proof.
  intros H1 H2 H3 H4. destruct (replace_node_spec fuel h body s l1 n l2 w ws H1 H2 H3 H4) as (h' & b' & ? & ? & ?).
  eauto 10.
Qed.

(** [replaceAstNodeInList]: right for the first node only (or the last) ... *)
Theorem C54_replace_in_list_partial fuel h f l n xs :
  chain h (Some f) (f :: l) → chain h (head xs) xs → xs <> [] → NoDup (f :: l ++ xs) →
  length l + length xs ≤ fuel →
  (n = f → ∃ h', replace_in_list fuel h (Some f) n (head xs) = AOk (h', head xs) ∧ chain h' (head xs) (xs ++ l)) ∧
  (∀ l1, l = l1 ++ [n] →
    ∃ h', replace_in_list fuel h (Some f) n (head xs) = AOk (h', Some f) ∧ chain h' (Some f) (f :: l1 ++ xs)).
Proof.
  intros H Hx Hn ND Hf. split.
  - intros ->. apply replace_head_spec; try done. lia.
  - intros l1 ->. rewrite app_length in Hf. cbn in Hf.
    apply (replace_later_spec fuel h f l1 n [] xs); try done; [|lia].
    by rewrite <- app_assoc in ND.
Qed.
(** ... and drops everything behind any other node. *)
Theorem C54_replace_in_list_refuted fuel h f l1 n x l2 xs :
  chain h (Some f) (f :: l1 ++ n :: x :: l2) → chain h (head xs) xs →
  NoDup (f :: l1 ++ n :: (x :: l2) ++ xs) → length l1 ≤ fuel →
  ∃ h' s', replace_in_list fuel h (Some f) n (head xs) = AOk (h', s') ∧
    ∀ l', chain h' s' l' → x ∉ l'.
Proof.
  intros H Hx ND Hf. destruct (replace_later_spec fuel h f l1 n (x :: l2) xs H Hx ND Hf) as (h' & E & C).
  exists h', (Some f). split; [done|]. intros l' Hl. rewrite (chain_fun _ _ _ _ Hl C).
  eapply nodup_notin; [exact ND|].
  replace (f :: l1 ++ n :: (x :: l2) ++ xs) with ([f] ++ l1 ++ [n] ++ [x] ++ l2 ++ xs) by done.
  replace (x :: f :: l1 ++ xs) with ([x] ++ [f] ++ l1 ++ xs) by done. solve_submseteq.
Qed.

(** The modifiers.  [ops] is what a pass does while it goes over a list; new
    nodes are new, and the calls are among those the code gets right ([z_ok]). *)
Theorem C54_modifier_partial fuel h first l program ops :
  chain h first l → NoDup (l ++ concat (map nodes_of ops)) →
  (∀ o, o ∈ ops → chain h (head (nodes_of o)) (nodes_of o)) →
  z_all_ok program (z_init l) ops →
  length l + length (concat (map nodes_of ops)) ≤ fuel →
  let z := z_run (z_init l) ops in
  ∃ m, mod_run fuel (mod_init h first program) (map call ops) = AOk m ∧
    chain (m_heap m) (m_first m) (z_list z) ∧
    (* no node is lost, none comes from nowhere *)
    z_list z ++ z_removed z ≡ₚ l ++ concat (map nodes_of ops) ∧
    (* the old nodes are in their old order *)
    filter (λ x, x ∈ l) (z_list z) = filter (λ x, x ∉ z_removed z) l.
Proof.
  intros Hc ND Hp Hok Hf z.
  assert (I : inv (mod_init h first program) (z_init l) ops) by (by apply inv_init).
  destruct (run_ok fuel ops _ _ I Hok Hf) as (m & E & I').
  exists m. split; [done|]. split; [apply I'|].
  destruct (keeps_run l ops (z_init l)) as [K1 K2].
  - split.
    + unfold z_list, z_init. cbn [z_head z_before z_cur z_after z_removed cur_list app].
      clear. assert (G : ∀ k : list N, (∀ x, x ∈ k → x ∈ l) →
        filter (λ x, x ∈ l) k = filter (λ x, x ∉ @nil N) k); [|by apply G].
      induction k as [|x k IH]; [done|]. intros Hk. rewrite !filter_cons_True; [f_equal; apply IH|..]; set_solver.
    + cbn. by rewrite !app_nil_r.
  - done.
  - intros x Hx Hl. apply list.NoDup_app in ND as (_ & ND & _). by apply (ND x).
  - split; [|done]. unfold z. rewrite K2, z_run_added. done.
Qed.

(** [astModifierAddHead] on a block makes a list without an end, whatever the
    block: no finite list starts there. *)
Theorem C54_add_head_refuted fuel h first xs :
  chain h (head xs) xs → xs <> [] → NoDup xs → length xs ≤ fuel →
  ∃ m, mod_run fuel (mod_init h first false) [MNext; MAddHead (head xs)] = AOk m ∧
    ∀ l, ¬ chain (m_heap m) (m_first m) l.
Proof.
  intros H Hn ND Hf. destruct (snoc_of xs Hn) as (ys & z & ->).
  cbn [mod_run mod_step abind mod_add_head].
  assert (Hh : ∃ y, head (ys ++ [z]) = Some y) by (destruct ys; cbn; eauto).
  destruct Hh as [y Hy]. rewrite Hy. cbn [mod_add_head mod_next m_program m_heap mod_init m_first m_prev m_cur m_it].
  pose proof (set_last_spec fuel h ys z (Some y)) as Hs. rewrite Hy in Hs.
  rewrite Hs by (try (by rewrite <- Hy); rewrite app_length in Hf; cbn in Hf; lia).
  cbn [abind]. eexists; split; [done|]. cbn [m_heap m_first fst].
  apply chain_lseg in H. apply list.NoDup_app in ND as (ND & Hz & _).
  assert (L : lseg (hset h z (Some y)) (Some y) (ys ++ [z]) (Some y)).
  { rewrite Hy in H. eapply lseg_last; [|exact H]. set_solver. }
  intros l Hl. apply chain_lseg in Hl. revert Hl.
  (* a list from y is longer than itself *)
  remember (length l) as k eqn:Ek. revert l Ek. induction (lt_wf k) as [k _ IH]. intros l -> Hl.
  assert (G : ∀ h a b l1 l2, lseg h a l1 b → lseg h a l2 None → b <> None → ∃ l3, l2 = l1 ++ l3 ∧ lseg h b l3 None).
  { clear. intros h a b l1. revert a. induction l1 as [|x l1 IH]; intros a l2 H1 H2 Hb.
    - cbn in H1. subst. by exists l2.
    - destruct H1 as [-> H1]. destruct l2 as [|x' l2]; [by cbn in H2|]. destruct H2 as [[= <-] H2].
      destruct (IH _ _ H1 H2 Hb) as (l3 & -> & ?). by exists l3. }
  destruct (G _ _ _ _ _ L Hl ltac:(done)) as (l3 & -> & H3).
  rewrite !app_length in IH. cbn in IH. apply (IH (length l3)) with (l := l3); [lia|done|done].
Qed.

(** Adding after the current node was removed loses all nodes to come, and
    adding at the cursor while nothing is behind it loses the nodes put in
    front. *)
Definition heap3 : heap := λ n, if (n =? 1)%N then Some 2%N else if (n =? 2)%N then Some 3%N else None.
Theorem C54_add_after_remove_refuted :
  ∃ m, mod_run 9 (mod_init heap3 (Some 1%N) false) [MNext; MRemove; MAdd (Some 9%N)] = AOk m ∧
    chain (m_heap m) (m_first m) [9%N].
Proof. eexists; split; [vm_compute; reflexivity|]. repeat constructor. Qed.
Theorem C54_add_after_head_refuted :
  ∃ m, mod_run 9 (mod_init heap3 (Some 1%N) true) [MNext; MAddHead (Some 9%N); MAdd (Some 8%N)] = AOk m ∧
    chain (m_heap m) (m_first m) [8; 1; 2; 3]%N.
Proof. eexists; split; [vm_compute; reflexivity|]. repeat constructor. Qed.

(** Examples: the hypotheses can be met. *)
Definition heap5 : heap := λ n,
  if (n =? 1)%N then Some 2%N else if (n =? 2)%N then Some 3%N else if (n =? 7)%N then Some 8%N else None.
Example C54_ex_ops : list zop := [ZNext; ZAdd [7; 8]%N; ZNext; ZAddHead [9%N]; ZRemove; ZNext; ZAddNext [5%N]; ZAddLast [6%N]].
Example C54_ex_ok : z_all_ok true (z_init [1; 2; 3]%N) C54_ex_ops.
Proof. cbn. repeat split; try done; try (right; split; [left; done|done]); by right. Qed.
Example C54_ex_run : ∃ m, mod_run 20 (mod_init heap5 (Some 1%N) true) (map call C54_ex_ops) = AOk m ∧
  chain (m_heap m) (m_first m) [9; 7; 8; 1; 3; 5; 6]%N.
Proof. eexists; split; [vm_compute; reflexivity|]. repeat constructor. Qed.
Example C54_ex_replace : ∃ h', replace_in_list 9 heap5 (Some 1%N) 2%N (Some 7%N) = AOk (h', Some 1%N) ∧
  chain h' (Some 1%N) [1; 7; 8]%N.
Proof. eexists; split; [vm_compute; reflexivity|]. repeat constructor. Qed.
Example C54_ex_insert : ∃ h' l, insert_all 9 heap5 (NList None None) [[1; 2; 3]; []; [7; 8]; [9]]%N = AOk (h', l) ∧
  chain h' (l_first l) [1; 2; 3; 7; 8; 9]%N.
Proof. do 2 eexists; split; [vm_compute; reflexivity|]. repeat constructor. Qed.
Print Assumptions C54_index.
Print Assumptions C54_insert.
Print Assumptions C54_insert_after.
Print Assumptions C54_unlink.
Print Assumptions C54_replace_node.
Print Assumptions C54_replace_in_list_partial.
Print Assumptions C54_replace_in_list_refuted.
Print Assumptions C54_modifier_partial.
Print Assumptions C54_add_head_refuted.
Print Assumptions C54_add_after_remove_refuted.
Print Assumptions C54_add_after_head_refuted.
