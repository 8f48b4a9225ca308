(** Proofs about the edits of node lists. *)
From stdpp Require Import sets list numbers.
From Coq Require Import ZifyBool ZifyNat ZifyN.
From Verif Require Import EditModel EditSpec.

Lemma hset_eq {A} (h : N → A) n v : hset h n v n = v.
Proof. unfold hset. by rewrite N.eqb_refl. Qed.
Lemma hset_ne {A} (h : N → A) n v m : m <> n → hset h n v m = h m.
Proof. intros. unfold hset. destruct (N.eqb_spec m n); done. Qed.

Ltac nodup H := repeat first
  [rewrite list.NoDup_app in H | rewrite list.NoDup_cons in H | setoid_rewrite elem_of_cons in H
  | setoid_rewrite elem_of_app in H].
(** Membership facts from NoDup of everything. *)
Lemma nodup_notin (n : N) l L : NoDup L → n :: l ⊆+ L → n ∉ l.
Proof.
  intros ND H. apply submseteq_Permutation in H as [k Hk]. rewrite Hk in ND. cbn in ND.
  apply list.NoDup_cons in ND as [? _]. set_solver.
Qed.
Lemma nodup_ne (n m : N) L : NoDup L → [n; m] ⊆+ L → n <> m.
Proof. intros ND H. apply (nodup_notin _ _ _ ND) in H. set_solver. Qed.
Lemma elem_ne (i n : N) (r : list N) : i ∈ r → n ∉ r → i <> n.
Proof. by intros ? ? ->. Qed.
Ltac sv ND := first [apply (nodup_notin _ _ _ ND) | apply (nodup_ne _ _ _ ND)]; solve_submseteq.
Ltac svi ND := match goal with Hi : ?i ∈ ?r |- ?i <> ?n => apply (elem_ne i n r Hi); sv ND end.
(** A piece of a list: from [s] through [l] to [e]. *)
Fixpoint lseg (h : heap) (s : option N) (l : list N) (e : option N) : Prop :=
  match l with
  | [] => s = e
  | x :: l' => s = Some x ∧ lseg h (h x) l' e
  end.
Lemma chain_lseg h s l : chain h s l ↔ lseg h s l None.
Proof.
  split.
  - induction 1; cbn; done.
  - revert s. induction l as [|x l IH]; cbn; intros s.
    + intros ->. constructor.
    + intros [-> H]. constructor. eauto.
Qed.
Lemma lseg_app h s l1 l2 e : lseg h s (l1 ++ l2) e ↔ ∃ m, lseg h s l1 m ∧ lseg h m l2 e.
Proof.
  revert s. induction l1 as [|x l1 IH]; cbn; intros s.
  - split; [eauto|intros (? & -> & ?); done].
  - rewrite IH. split; [intros (-> & m & ? & ?)|intros (m & (-> & ?) & ?)]; eauto 10.
Qed.
Lemma lseg_one h s x e : lseg h s [x] e ↔ s = Some x ∧ h x = e.
Proof. done. Qed.
Lemma lseg_start h s l e : lseg h s l e → s = match l with [] => e | x :: _ => Some x end.
Proof. destruct l; cbn; [done|tauto]. Qed.
Lemma lseg_hset h s l e n v : n ∉ l → lseg h s l e → lseg (hset h n v) s l e.
Proof.
  revert s. induction l as [|x l IH]; cbn; intros s Hn; [done|].
  intros [-> H]. split; [done|]. rewrite hset_ne by set_solver. apply IH; [set_solver|done].
Qed.
Lemma lseg_last h s l z e v : z ∉ l → lseg h s (l ++ [z]) e → lseg (hset h z v) s (l ++ [z]) v.
Proof.
  intros Hz H. apply lseg_app in H as (m & H1 & H2). apply lseg_app. exists m.
  split; [by apply lseg_hset|]. destruct H2 as [-> _]. cbn. by rewrite hset_eq.
Qed.
Lemma chain_fun h s l l' : chain h s l → chain h s l' → l = l'.
Proof.
  intros H. revert l'. induction H; intros l'; inversion 1; subst; [done|]. f_equal; eauto.
Qed.

Lemma last_from_spec k h n l z : lseg h (Some n) (l ++ [z]) None → length l ≤ k → last_from k h n = AOk z.
Proof.
  revert k n. induction l as [|x l IH]; intros k n H Hk.
  - cbn in H. destruct H as ([= ->] & H). destruct k; cbn; by rewrite H.
  - cbn in H, Hk. destruct H as ([= ->] & H). destruct k; [lia|].
    cbn [last_from]. rewrite (lseg_start _ _ _ _ H).
    destruct l as [|y l]; cbn [app] in *.
    + apply (IH k z); [|cbn; lia]. by rewrite (lseg_start _ _ _ _ H) in H.
    + apply (IH k y); [|cbn in *; lia]. by rewrite (lseg_start _ _ _ _ H) in H.
Qed.
Lemma snoc_of {A} (l : list A) : l <> [] → ∃ l' z, l = l' ++ [z].
Proof. intros. destruct l using rev_ind; [done|eauto]. Qed.
Lemma set_last_spec fuel h xs z v :
  chain h (head (xs ++ [z])) (xs ++ [z]) → length xs ≤ fuel →
  set_last fuel h (head (xs ++ [z])) v = AOk (hset h z v, z).
Proof.
  intros H Hf. apply chain_lseg in H. pose proof (lseg_start _ _ _ _ H) as Hs.
  destruct (xs ++ [z]) as [|x l] eqn:E; [by destruct xs|]. cbn [head] in *.
  unfold set_last. rewrite <- E in H. by rewrite (last_from_spec _ _ _ _ _ H Hf).
Qed.

(** ast.c *)
Lemma count_nodes_spec h s l k : chain h s l → length l ≤ k → count_nodes k h s = AOk (N.of_nat (length l)).
Proof.
  intros H. revert k. induction H as [|n l H IH]; intros k Hk; [by destruct k|].
  cbn in Hk. destruct k; [lia|]. cbn [count_nodes]. rewrite IH by lia. cbn [abind length]. f_equal. lia.
Qed.
Lemma at_index_spec h s l k i index :
  chain h s l → length l ≤ k → (i <= index)%N →
  at_index k h s i index = AOk (l !! N.to_nat (index - i)).
Proof.
  intros H. revert k i. induction H as [|n l H IH]; intros k i Hk Hi; [by destruct k|].
  cbn in Hk. destruct k; [lia|]. cbn [at_index].
  destruct (N.eqb_spec i index).
  - subst. by rewrite N.sub_diag.
  - rewrite IH by lia. replace (N.to_nat (index - i)) with (S (N.to_nat (index - (i + 1)))) by lia. done.
Qed.

(** A list with a hole: what is left when a piece is exchanged. *)
Lemma insert_after_spec fuel h s l1 b l2 xs :
  chain h s (l1 ++ b :: l2) → chain h (head xs) xs → xs <> [] → NoDup (l1 ++ b :: l2 ++ xs) →
  length xs ≤ fuel →
  ∃ h', insert_after fuel h b (head xs) = AOk h' ∧ chain h' s (l1 ++ b :: xs ++ l2).
Proof.
  intros H Hx Hn ND Hf. destruct (snoc_of xs Hn) as (ys & z & ->).
  unfold insert_after. rewrite set_last_spec by (try done; rewrite app_length in Hf; cbn in Hf; lia).
  cbn [abind fst]. eexists; split; [done|].
  apply chain_lseg in H, Hx. apply chain_lseg.
  apply lseg_app in H as (m & H1 & -> & H2).
  nodup ND.
  apply lseg_app. exists (Some b). split.
  - apply lseg_hset; [set_solver|]. apply lseg_hset; [set_solver|done].
  - split; [done|]. rewrite hset_eq.
    apply lseg_app. exists (h b). split.
    + apply lseg_hset; [set_solver|]. eapply lseg_last; [|done]. set_solver.
    + apply lseg_hset; [set_solver|]. apply lseg_hset; [set_solver|done].
Qed.

Definition built (h : heap) (l : nlist) (xs : list N) : Prop :=
  chain h (l_first l) xs ∧ l_last l = list.last xs.
Lemma insert_node_spec fuel h l xs ys :
  built h l xs → chain h (head ys) ys → NoDup (xs ++ ys) → length ys ≤ fuel →
  ∃ h' l', insert_node fuel h l (head ys) = AOk (h', l') ∧ built h' l' (xs ++ ys) ∧
    ∀ n, n ∉ xs → h' n = h n.
Proof.
  intros [H1 H2] H3 ND Hf. destruct ys as [|y ys']; cbn [head insert_node].
  { rewrite app_nil_r. exists h, l. by repeat split. }
  destruct (snoc_of (y :: ys') ltac:(done)) as (ys & z & E).
  assert (Hl : ∀ h', lseg h' (Some y) (ys ++ [z]) None → last_from fuel h' y = AOk z).
  { intros. eapply last_from_spec; [done|]. rewrite E in Hf. rewrite app_length in Hf. cbn in Hf. lia. }
  apply chain_lseg in H1, H3. cbn [head] in H3.
  destruct xs as [|x xs0].
  - cbn [app]. cbn in H1. unfold insert_node. rewrite H1. cbn [abind]. rewrite Hl by (by rewrite <- E). cbn [abind].
    do 2 eexists; split; [done|]. split; [|done]. split; cbn [l_first l_last].
    + by apply chain_lseg.
    + by rewrite E, last_snoc.
  - pose proof (lseg_start _ _ _ _ H1) as Hs. unfold insert_node. rewrite Hs, H2. rewrite Hs in H1.
    destruct (snoc_of (x :: xs0) ltac:(done)) as (xs & w & E'). rewrite E' in *. rewrite last_snoc.
    rewrite E in *. nodup ND.
    assert (Hy : lseg (hset h w (Some y)) (Some y) (ys ++ [z]) None) by (apply lseg_hset; [set_solver|done]).
    cbn [abind]. rewrite Hl by done. cbn [abind].
    do 2 eexists; split; [done|]. split; [split; cbn [l_first l_last]|].
    + apply chain_lseg, lseg_app. exists (Some y). split; [|done].
      eapply lseg_last; [|done]. set_solver.
    + rewrite app_assoc. by rewrite last_snoc.
    + intros n Hn. apply hset_ne. set_solver.
Qed.

Lemma unlink_first h n l : chain h (Some n) (n :: l) →
  let '(h', head') := unlink_node h (Some n) n n in chain h' head' l.
Proof. intros H. unfold unlink_node. rewrite N.eqb_refl. inversion H; subst. done. Qed.
Lemma unlink_later h s l1 p n l2 : chain h s (l1 ++ p :: n :: l2) → NoDup (l1 ++ p :: n :: l2) →
  let '(h', head') := unlink_node h s p n in chain h' head' (l1 ++ p :: l2).
Proof.
  intros H ND. apply chain_lseg, lseg_app in H as (m & H1 & -> & H2 & H3).
  nodup ND.
  unfold unlink_node. destruct (N.eqb_spec p n); [subst; set_solver|].
  apply chain_lseg, lseg_app. exists (Some p). split; [apply lseg_hset; [set_solver|done]|].
  split; [done|]. rewrite hset_eq. apply lseg_hset; [set_solver|done].
Qed.

Lemma replace_loop_skip k h prev it node w l1 l2 p :
  lseg h it (l1 ++ node :: l2) None → node ∉ l1 → length l1 ≤ k →
  p = match list.last l1 with Some q => q | None => prev end →
  replace_loop k h prev it node w = AOk (hset h p w).
Proof.
  revert k prev it. induction l1 as [|x l1 IH]; intros k prev it H Hn Hk ->.
  - cbn in H. destruct H as [-> _]. destruct k; cbn [replace_loop]; by rewrite N.eqb_refl.
  - cbn in H, Hk. destruct H as [-> H]. destruct k; [lia|]. cbn [replace_loop].
    destruct (N.eqb_spec x node); [set_solver|].
    apply IH; [done|set_solver|lia|]. destruct l1 as [|y l1]; [done|].
    cbn [list.last]. destruct (last_is_Some (y :: l1)) as [_ Hl]. destruct (Hl ltac:(done)) as [q Hq].
    change (list.last (x :: y :: l1)) with (list.last (y :: l1)). by rewrite Hq.
Qed.
Lemma replace_head_spec fuel h n l xs :
  chain h (Some n) (n :: l) → chain h (head xs) xs → xs <> [] → NoDup (n :: l ++ xs) → length xs ≤ fuel →
  ∃ h', replace_in_list fuel h (Some n) n (head xs) = AOk (h', head xs) ∧ chain h' (head xs) (xs ++ l).
Proof.
  intros H Hx Hn ND Hf. destruct (snoc_of xs Hn) as (ys & z & ->).
  unfold replace_in_list. rewrite N.eqb_refl.
  rewrite set_last_spec by (try done; rewrite app_length in Hf; cbn in Hf; lia).
  cbn [abind fst]. eexists; split; [done|].
  inversion H; subst. nodup ND.
  apply chain_lseg, lseg_app. exists (h n). split.
  - eapply lseg_last; [set_solver|by apply chain_lseg].
  - apply lseg_hset; [set_solver|by apply chain_lseg].
Qed.
(** What replacing another node than the first does: the list ends with the
    replacement. *)
Lemma replace_later_spec fuel h f l1 n l2 xs :
  chain h (Some f) (f :: l1 ++ n :: l2) → chain h (head xs) xs →
  NoDup (f :: l1 ++ n :: l2 ++ xs) → length l1 ≤ fuel →
  ∃ h', replace_in_list fuel h (Some f) n (head xs) = AOk (h', Some f) ∧ chain h' (Some f) (f :: l1 ++ xs).
Proof.
  intros H Hx ND Hf. unfold replace_in_list.
  assert (f <> n) by (nodup ND; set_solver).
  destruct (N.eqb_spec f n); [done|]. inversion H; subst.
  apply chain_lseg in H3, Hx.
  rewrite (replace_loop_skip _ _ _ _ _ _ l1 l2 _ H3) by (try reflexivity; nodup ND; set_solver || lia).
  cbn [abind]. eexists; split; [done|]. apply chain_lseg.
  destruct l1 as [|y l1'] using rev_ind; [|clear IHl1'].
  - cbn [list.last]. cbn. split; [done|]. rewrite hset_eq. apply lseg_hset; [nodup ND; set_solver|done].
  - rewrite last_snoc.
    apply (lseg_app _ _ (f :: l1' ++ [y])). exists (head xs). split.
    + assert (Hs : lseg h (Some f) (f :: l1' ++ [y]) (Some n)).
      { split; [done|]. rewrite <- app_assoc in H3. apply lseg_app in H3 as (m & Ha & Hb).
        cbn in Hb. destruct Hb as (-> & Hb & _). apply lseg_app. exists (Some y). by repeat split. }
      eapply (lseg_last h (Some f) (f :: l1') y); [nodup ND; set_solver|]. exact Hs.
    + apply lseg_hset; [nodup ND; set_solver|done].
Qed.

(** replaceAstNode: contents along the list. *)
Lemma replace_node_spec fuel h body s l1 n l2 w ws :
  chain h s (l1 ++ n :: l2) → chain h (Some w) (w :: ws) → NoDup (l1 ++ n :: l2 ++ w :: ws) →
  length ws ≤ fuel →
  ∃ h' body', replace_node fuel h body n w = AOk (h', body') ∧
    chain h' s (l1 ++ n :: ws ++ l2) ∧
    map body' (l1 ++ n :: ws ++ l2) = map body (l1 ++ w :: ws ++ l2).
Proof.
  intros H Hw ND Hf. apply chain_lseg, lseg_app in H as (m & H1 & -> & H2).
  inversion Hw; subst. apply chain_lseg in H3. nodup ND.
  assert (Hc : chain (hset h n (h w)) (Some n) (n :: ws)).
  { apply chain_lseg. split; [done|]. rewrite hset_eq. apply lseg_hset; [set_solver|done]. }
  destruct (snoc_of (n :: ws) ltac:(done)) as (ys & z & E).
  unfold replace_node.
  pose proof (set_last_spec fuel (hset h n (h w)) ys z (h n)) as Hs. rewrite <- E in Hs.
  change (list.head (n :: ws)) with (Some n) in Hs.
  assert (length ys = length ws) by (apply (f_equal length) in E; rewrite app_length in E; cbn in E; lia).
  rewrite Hs by (done || lia). cbn [abind fst].
  do 2 eexists; split; [done|].
  assert (z ∈ n :: ws) by (rewrite E; set_solver).
  assert (z ∉ ys).
  { assert (ND' : NoDup (n :: ws)) by (apply list.NoDup_cons; split; [set_solver|tauto]).
    rewrite E in ND'. nodup ND'. set_solver. }
  split.
  - apply chain_lseg, lseg_app. exists (Some n). split.
    + apply lseg_hset; [set_solver|]. apply lseg_hset; [set_solver|done].
    + change (n :: ws ++ l2) with ((n :: ws) ++ l2). apply lseg_app. exists (h n). split.
      * rewrite E. eapply lseg_last; [done|]. rewrite <- E. by apply chain_lseg.
      * apply lseg_hset; [set_solver|]. apply lseg_hset; [set_solver|done].
  - rewrite !map_app. cbn [map]. rewrite !map_app, hset_eq.
    assert (Hm : ∀ l, n ∉ l → map (hset body n (body w)) l = map body l).
    { induction l as [|x l IH]; [done|]. intros Hl. cbn. rewrite hset_ne by set_solver. f_equal. apply IH. set_solver. }
    rewrite !Hm by set_solver. done.
Qed.

(** The modifiers. *)
Definition pending (ops : list zop) : list N := concat (map nodes_of ops).
Definition it_ok (m : modifier) (z : zip) : Prop :=
  match m_it m with
  | ItStart f => z_cur z = None ∧ f = head (z_after z)
  | ItAt None => z_cur z = None ∧ z_after z = []
  | ItAt (Some i) =>
    z_cur z = Some i ∨
    (z_cur z = None ∧ m_heap m i = head (z_after z) ∧ i ∈ z_removed z)
  end.
Record inv (m : modifier) (z : zip) (ops : list zop) : Prop := Inv {
  i_chain : chain (m_heap m) (m_first m) (z_list z);
  i_prev : m_prev m = list.last (z_before z);
  i_cur : m_cur m = z_cur z;
  i_it : it_ok m z;
  i_nodup : NoDup (z_list z ++ z_removed z ++ pending ops);
  i_pending : ∀ o, o ∈ ops → chain (m_heap m) (head (nodes_of o)) (nodes_of o) }.

Lemma pending_elem o ops x : o ∈ ops → x ∈ nodes_of o → x ∈ pending ops.
Proof.
  intros Ho Hx. unfold pending. induction Ho as [o l|o y l Ho IH]; cbn [map concat]; apply elem_of_app; auto.
Qed.
(** Writing to a node of the list leaves pending lists alone. *)
Lemma pending_hset h ops n v :
  n ∉ pending ops → (∀ o, o ∈ ops → chain h (head (nodes_of o)) (nodes_of o)) →
  ∀ o, o ∈ ops → chain (hset h n v) (head (nodes_of o)) (nodes_of o).
Proof.
  intros Hn H o Ho. apply chain_lseg, lseg_hset; [|by apply chain_lseg, H].
  intros Hx. apply Hn. eauto using pending_elem.
Qed.

Lemma last_head {A} (l : list A) (x : A) : list.last (l ++ [x]) = Some x.
Proof. apply last_snoc. Qed.
Lemma head_app {A} (l l' : list A) : head (l ++ l') = match l with [] => head l' | x :: _ => Some x end.
Proof. by destruct l. Qed.
Lemma lseg_head h l s : lseg h s l None → s = head l.
Proof. intros H. rewrite (lseg_start _ _ _ _ H). by destruct l. Qed.

Lemma relink h s l1 p l2 l3 v :
  lseg h s (l1 ++ p :: l2) None → lseg h v l3 None → p ∉ l1 → p ∉ l3 →
  lseg (hset h p v) s (l1 ++ p :: l3) None.
Proof.
  intros H H3 Hn1 Hn3. apply lseg_app in H as (m & H1 & -> & _). apply lseg_app. exists (Some p).
  split; [by apply lseg_hset|]. split; [done|]. rewrite hset_eq. by apply lseg_hset.
Qed.
(** The end of a list linked to another one. *)
Lemma link_last h xs z v l :
  lseg h (head (xs ++ [z])) (xs ++ [z]) None → lseg h v l None → z ∉ xs → z ∉ l →
  lseg (hset h z v) (head (xs ++ [z])) (xs ++ z :: l) None.
Proof. intros. eapply (relink _ _ _ _ []); done. Qed.

Lemma step_ok fuel m z o ops :
  inv m z (o :: ops) → z_ok (m_program m) z o →
  length (z_list z) + length (nodes_of o) ≤ fuel →
  ∃ m', mod_step fuel m (call o) = AOk m' ∧ inv m' (z_step z o) ops ∧ m_program m' = m_program m.
Proof.
  destruct z as [hd b c a r nw]. intros I Hok Hf.
  destruct I as [Hc Hp Hcur Hit ND Hpe]. unfold z_list in *. cbn [z_head z_before z_cur z_after z_removed] in *.
  assert (Hpe' : ∀ o', o' ∈ ops → chain (m_heap m) (head (nodes_of o')) (nodes_of o')).
  { intros. apply Hpe. by right. }
  assert (Hxs := Hpe o ltac:(by left)).
  unfold pending in ND. cbn [map concat] in ND. fold (pending ops) in ND.
  apply chain_lseg in Hc.
  destruct o as [| |xs|xs|xs|xs]; cbn [mod_step call z_step nodes_of z_ok z_cur z_before z_after z_head] in *.
  - (* next *)
    eexists; split; [done|]. split; [|done].
    assert (Hnext : match m_it m with ItStart f => f | ItAt None => None | ItAt (Some i) => m_heap m i end = head a).
    { unfold it_ok in Hit. cbn [z_cur z_after z_removed] in Hit. destruct (m_it m) as [f|[i|]].
      - tauto.
      - destruct Hit as [->|[-> [-> _]]]; [|done].
        apply lseg_app in Hc as (? & _ & Hc). apply lseg_app in Hc as (? & _ & Hc).
        cbn in Hc. destruct Hc as (_ & Hc). by apply lseg_head in Hc.
      - destruct Hit as [_ ->]. done. }
    assert (Hb : match m_cur m with Some c => Some c | None => m_prev m end = list.last (b ++ cur_list c)).
    { rewrite Hcur, Hp. destruct c; cbn [cur_list]; [by rewrite last_snoc|by rewrite app_nil_r]. }
    destruct a as [|x a]; (split; unfold z_list, mod_next; cbn [z_head z_before z_cur z_after z_removed m_heap m_first m_prev m_cur m_it]).
    + apply chain_lseg. rewrite ?app_nil_r in *. cbn [cur_list]. rewrite ?app_nil_r. done.
    + done.
    + done.
    + unfold it_ok. cbn [z_cur z_after z_removed m_it]. rewrite Hnext. done.
    + cbn [cur_list]. rewrite ?app_nil_r in *. done.
    + done.
    + apply chain_lseg. cbn [cur_list]. rewrite <- !app_assoc. done.
    + done.
    + done.
    + unfold it_ok. cbn [z_cur z_after z_removed m_it]. rewrite Hnext. by left.
    + cbn [cur_list]. rewrite <- !app_assoc in *. cbn. done.
    + done.
  - (* remove *)
    destruct Hok as [Hc0 Hb]. destruct c as [c|]; [|done]. cbn [cur_list] in *.
    assert (Hiti : m_it m = ItAt (Some c)).
    { unfold it_ok in Hit. cbn [z_cur z_after z_removed] in Hit. destruct (m_it m) as [|[|]]; naive_solver. }
    unfold mod_remove. rewrite Hcur.
    assert (Ha : lseg (m_heap m) (m_heap m c) a None).
    { apply lseg_app in Hc as (? & _ & Hc). apply lseg_app in Hc as (? & _ & Hc). cbn in Hc. tauto. }
    destruct b as [|p b] using rev_ind; [|clear IHb].
    + rewrite Hb in * by done. rewrite Hp. cbn [list.last].
      eexists; split; [done|]. split; [|done].
      split; unfold z_list; cbn [z_head z_before z_cur z_after z_removed m_heap m_first m_prev m_cur m_it cur_list app list.last]; try done.
      * by apply chain_lseg.
      * unfold it_ok. cbn [z_cur z_after z_removed m_it m_heap]. rewrite Hiti. right. split; [done|].
        split; [by apply lseg_head in Ha|set_solver].
      * eapply NoDup_Permutation_proper; [|exact ND]. cbn. rewrite <- app_assoc. cbn. solve_Permutation.
    + rewrite Hp, last_snoc. eexists; split; [done|]. split; [|done].
      assert (c <> p) by (sv ND).
      split; unfold z_list; cbn [z_head z_before z_cur z_after z_removed m_heap m_first m_prev m_cur m_it cur_list app list.last].
      * apply chain_lseg. replace (hd ++ (b ++ [p]) ++ [c] ++ a) with ((hd ++ b) ++ p :: c :: a) in Hc by (by rewrite <- !app_assoc).
        replace (hd ++ (b ++ [p]) ++ a) with ((hd ++ b) ++ p :: a) by (by rewrite <- !app_assoc).
        eapply relink; [exact Hc|done|sv ND..].
      * by rewrite last_snoc.
      * done.
      * unfold it_ok. cbn [z_cur z_after z_removed m_it m_heap]. rewrite Hiti. right. split; [done|].
        split; [|set_solver]. rewrite hset_ne by done. by apply lseg_head in Ha.
      * eapply NoDup_Permutation_proper; [|exact ND]. rewrite <- !app_assoc. cbn. solve_Permutation.
      * apply pending_hset; [sv ND|done].
  - (* add *)
    destruct xs as [|x xs0]; cbn [head mod_add].
    { exists m. rewrite !app_nil_r. split; [done|]. split; [|done]. split; try done.
      unfold z_list. cbn. by apply chain_lseg. }
    destruct Hok as [?|[Hca Hb]]; [done|].
    destruct (snoc_of (x :: xs0) ltac:(done)) as (xs & z & E). rewrite E in *.
    change (Some x) with (head (x :: xs0)). rewrite E. unfold mod_add.
    assert (Hh : ∃ y, head (xs ++ [z]) = Some y) by (rewrite <- E; cbn; eauto).
    destruct Hh as [y Hy].
    rewrite set_last_spec by (try done; rewrite ?app_length in Hf; cbn in Hf; lia).
    rewrite Hy. cbn [abind fst snd]. rewrite <- Hy.
    assert (Hstart : m_cur m = head (cur_list c ++ a)).
    { rewrite Hcur. destruct c; [done|]. cbn. destruct Hca as [?|Hca]; [done|]. by rewrite Hca. }
    apply chain_lseg in Hxs.
    assert (Hrest : lseg (m_heap m) (m_cur m) (cur_list c ++ a) None).
    { rewrite (app_assoc hd) in Hc. apply lseg_app in Hc as (q & _ & Hq).
      rewrite (lseg_head _ _ _ Hq) in Hq. by rewrite Hstart. }
    assert (Hnew : lseg (hset (m_heap m) z (m_cur m)) (head (xs ++ [z])) (xs ++ z :: cur_list c ++ a) None).
    { apply link_last; [done|done|sv ND..]. }
    eexists; split; [done|]. split; [|by destruct (m_prev m)].
    assert (NDp : NoDup ((hd ++ (b ++ xs ++ [z]) ++ cur_list c ++ a) ++ r ++ pending ops)).
    { eapply NoDup_Permutation_proper; [|exact ND]. rewrite <- !app_assoc. solve_Permutation. }
    destruct b as [|p b] using rev_ind; [|clear IHb].
    + rewrite Hb in * by done. rewrite Hp. cbn [list.last].
      split; unfold z_list; cbn [z_head z_before z_cur z_after z_removed m_heap m_first m_prev m_cur m_it app].
      * apply chain_lseg. rewrite <- app_assoc. done.
      * by rewrite last_snoc.
      * done.
      * revert Hit. unfold it_ok. cbn [z_cur z_after z_removed m_it m_heap].
        destruct (m_it m) as [|[i|]]; try done. intros [|(? & ? & ?)]; [by left|right]. split; [done|]. split; [|done].
        rewrite hset_ne; [done|]. svi ND.
      * done.
      * apply pending_hset; [sv ND|done].
    + rewrite Hp, last_snoc.
      split; unfold z_list; cbn [z_head z_before z_cur z_after z_removed m_heap m_first m_prev m_cur m_it app].
      * apply chain_lseg.
        replace (hd ++ (b ++ [p]) ++ cur_list c ++ a) with ((hd ++ b) ++ p :: cur_list c ++ a) in Hc by (by rewrite <- !app_assoc).
        replace (hd ++ ((b ++ [p]) ++ xs ++ [z]) ++ cur_list c ++ a) with ((hd ++ b) ++ p :: xs ++ z :: cur_list c ++ a)
          by (rewrite <- !app_assoc; cbn [app]; rewrite <- ?app_assoc; done).
        eapply (relink _ _ _ _ (cur_list c ++ a)).
        -- apply lseg_hset; [sv ND|exact Hc].
        -- exact Hnew.
        -- sv ND.
        -- sv ND.
      * by rewrite app_assoc, last_snoc.
      * done.
      * revert Hit. unfold it_ok. cbn [z_cur z_after z_removed m_it m_heap].
        destruct (m_it m) as [|[i|]]; try done. intros [|(? & ? & ?)]; [by left|right]. split; [done|]. split; [|done].
        rewrite !hset_ne; [done|svi ND..].
      * done.
      * apply pending_hset; [sv ND|]. apply pending_hset; [sv ND|done].
  - (* add as next *)
    destruct Hok as [Hc0 Hx]. destruct c as [c|]; [|done]. cbn [cur_list] in *.
    destruct (snoc_of xs Hx) as (ys & z & ->).
    unfold mod_add_next. rewrite Hcur.
    rewrite set_last_spec by (try done; rewrite ?app_length in Hf; cbn in Hf; lia).
    cbn [abind fst snd]. eexists; split; [done|]. split; [|done].
    apply chain_lseg in Hxs.
    assert (Ha : lseg (m_heap m) (m_heap m c) a None).
    { apply lseg_app in Hc as (? & _ & Hc). apply lseg_app in Hc as (? & _ & Hc). cbn in Hc. tauto. }
    split; unfold z_list; cbn [z_head z_before z_cur z_after z_removed m_heap m_first m_prev m_cur m_it cur_list app].
    + apply chain_lseg. cbn [app] in Hc. rewrite app_assoc in Hc |- *. 
      eapply (relink _ _ _ _ a).
      * apply lseg_hset; [sv ND|exact Hc].
      * rewrite <- app_assoc. apply link_last; [done|done|sv ND..].
      * sv ND.
      * sv ND.
    + done.
    + done.
    + revert Hit. unfold it_ok. cbn [z_cur z_after z_removed m_it m_heap].
      destruct (m_it m) as [|[i|]]; try naive_solver.
    + eapply NoDup_Permutation_proper; [|exact ND]. rewrite <- ?app_assoc. cbn. rewrite <- ?app_assoc. solve_Permutation.
    + apply pending_hset; [sv ND|]. apply pending_hset; [sv ND|done].
  - (* add as last *)
    destruct Hok as [Hc0 Hx]. destruct c as [c|]; [|done]. cbn [cur_list] in *.
    unfold mod_add_last. rewrite Hcur.
    assert (Hca : lseg (m_heap m) (Some c) (c :: a) None).
    { apply lseg_app in Hc as (? & _ & Hc). apply lseg_app in Hc as (? & _ & Hc). cbn in Hc |- *. tauto. }
    destruct (snoc_of (c :: a) ltac:(done)) as (ys & w & E).
    pose proof (set_last_spec fuel (m_heap m) ys w (head xs)) as Hs. rewrite <- E in Hs.
    change (list.head (c :: a)) with (Some c) in Hs.
    assert (length ys = length a) by (apply (f_equal length) in E; rewrite app_length in E; cbn in E; lia).
    rewrite Hs by (try (by apply chain_lseg); rewrite !app_length in Hf; cbn in Hf; lia).
    cbn [abind fst]. eexists; split; [done|]. split; [|done].
    cbn [app] in Hc, ND. rewrite E in Hc, ND. apply chain_lseg in Hxs.
    split; unfold z_list; cbn [z_head z_before z_cur z_after z_removed m_heap m_first m_prev m_cur m_it cur_list].
    + apply chain_lseg. replace (hd ++ b ++ [c] ++ a ++ xs) with ((hd ++ b ++ ys) ++ w :: xs)
        by (change ([c] ++ a ++ xs) with ((c :: a) ++ xs); rewrite E; by rewrite <- !app_assoc).
      replace (hd ++ b ++ ys ++ [w]) with ((hd ++ b ++ ys) ++ [w]) in Hc by (by rewrite <- !app_assoc).
      eapply (relink _ _ _ _ []); [exact Hc|exact Hxs|..].
      * sv ND.
      * sv ND.
    + done.
    + done.
    + revert Hit. unfold it_ok. cbn [z_cur z_after z_removed m_it m_heap].
      destruct (m_it m) as [|[i|]]; try naive_solver.
    + eapply NoDup_Permutation_proper; [|exact ND]. change ([c] ++ a ++ xs) with ((c :: a) ++ xs). rewrite E.
      rewrite <- ?app_assoc. cbn. rewrite <- ?app_assoc. solve_Permutation.
    + apply pending_hset; [sv ND|done].
  - (* add at the head *)
    destruct xs as [|x xs0]; cbn [head mod_add_head].
    { exists m. rewrite !app_nil_r. split; [done|]. split; [|done]. split; try done.
      unfold z_list. cbn. by apply chain_lseg. }
    destruct Hok as [?|Hprog]; [done|]. rewrite Hprog.
    destruct (snoc_of (x :: xs0) ltac:(done)) as (xs & z & E). rewrite E in *.
    change (Some x) with (head (x :: xs0)). rewrite E.
    rewrite set_last_spec by (try done; rewrite ?app_length in Hf; cbn in Hf; lia).
    cbn [abind fst]. eexists; split; [done|]. split; [|done].
    apply chain_lseg in Hxs.
    split; unfold z_list; cbn [z_head z_before z_cur z_after z_removed m_heap m_first m_prev m_cur m_it].
    + apply chain_lseg. rewrite <- !app_assoc. cbn [app].
      apply link_last; [done|done|sv ND..].
    + done.
    + done.
    + revert Hit. unfold it_ok. cbn [z_cur z_after z_removed m_it m_heap].
      destruct (m_it m) as [|[i|]]; try done. intros [|(? & ? & ?)]; [by left|right]. split; [done|]. split; [|done].
      rewrite hset_ne; [done|]. svi ND.
    + eapply NoDup_Permutation_proper; [|exact ND]. rewrite <- ?app_assoc. solve_Permutation.
    + apply pending_hset; [sv ND|done].
Qed.

Lemma step_length z o : length (z_list (z_step z o)) ≤ length (z_list z) + length (nodes_of o).
Proof.
  destruct z as [hd b c a r nw]. destruct o; cbn [z_step nodes_of]; unfold z_list; cbn [z_head z_before z_cur z_after];
    [destruct a|..]; cbn [z_head z_before z_cur z_after]; rewrite ?app_length; cbn [length cur_list]; lia.
Qed.
Lemma run_ok fuel ops : ∀ m z,
  inv m z ops → z_all_ok (m_program m) z ops →
  length (z_list z) + length (pending ops) ≤ fuel →
  ∃ m', mod_run fuel m (map call ops) = AOk m' ∧ inv m' (z_run z ops) [].
Proof.
  induction ops as [|o ops IH]; intros m z I Hok Hf.
  { exists m. done. }
  destruct Hok as [Ho Hok]. unfold pending in Hf. cbn [map concat] in Hf. fold (pending ops) in Hf.
  rewrite app_length in Hf.
  destruct (step_ok fuel m z o ops I Ho ltac:(lia)) as (m' & E & I' & Hp).
  cbn [map mod_run]. rewrite E. cbn [abind]. pose proof (step_length z o).
  rewrite <- Hp in Hok. apply (IH m' _ I' Hok). lia.
Qed.
Lemma inv_init h first l program ops :
  chain h first l → NoDup (l ++ pending ops) →
  (∀ o, o ∈ ops → chain h (head (nodes_of o)) (nodes_of o)) →
  inv (mod_init h first program) (z_init l) ops.
Proof.
  intros Hc ND Hp. split; try done. unfold it_ok. cbn. split; [done|].
  apply chain_lseg in Hc. by apply lseg_head in Hc.
Qed.

(** What the specification itself keeps. *)
Definition keeps (l : list N) (z : zip) : Prop :=
  filter (λ x, x ∈ l) (z_list z) = filter (λ x, x ∉ z_removed z) l ∧
  z_list z ++ z_removed z ≡ₚ l ++ z_added z.
Lemma filter_none (P : N → Prop) `{!∀ x, Decision (P x)} l : (∀ x, x ∈ l → ¬ P x) → filter P l = [].
Proof.
  induction l as [|x l IH]; [done|]. intros Hn. rewrite filter_cons_False by (apply Hn; set_solver).
  apply IH. set_solver.
Qed.
Lemma keeps_step l z o :
  keeps l z → NoDup (z_list z) → (∀ x, x ∈ nodes_of o → x ∉ l) → keeps l (z_step z o).
Proof.
  destruct z as [hd b c a r nw]. intros [H1 H2] ND Hx. unfold keeps, z_list in *.
  cbn [z_head z_before z_cur z_after z_removed z_added] in *.
  destruct o as [| |xs|xs|xs|xs]; cbn [z_step nodes_of] in *.
  - destruct a as [|x a]; cbn [z_head z_before z_cur z_after z_removed z_added cur_list];
      rewrite <- ?app_assoc, ?app_nil_r in *; cbn [app] in *; done.
  - cbn [z_head z_before z_cur z_after z_removed z_added cur_list app].
    destruct c as [c|]; cbn [cur_list] in *; [|by rewrite app_nil_r]. split.
    + assert (E : filter (λ x, x ∉ r ++ [c]) l = filter (λ x, x <> c) (filter (λ x, x ∉ r) l)).
      { rewrite list_filter_filter. apply list_filter_iff. intros x. set_solver. }
      rewrite E, <- H1, list_filter_filter.
      rewrite !list.filter_app. rewrite filter_cons_False by tauto. rewrite filter_nil. cbn [app].
      assert (Hf : ∀ k : list N, c ∉ k → filter (λ x, x <> c ∧ x ∈ l) k = filter (λ x, x ∈ l) k).
      { intros k. induction k as [|y k IH]; [done|]. intros Hk.
        destruct (decide (y ∈ l)).
        - rewrite !filter_cons_True; [f_equal; apply IH; set_solver|done|set_solver].
        - rewrite !filter_cons_False; [apply IH; set_solver|done|tauto]. }
      rewrite !Hf; [done| | |]; eapply nodup_notin; try exact ND; solve_submseteq.
    + etrans; [|exact H2]. rewrite <- !app_assoc. solve_Permutation.
  - cbn [z_head z_before z_cur z_after z_removed z_added]. split.
    + rewrite <- H1. rewrite !list.filter_app. rewrite (filter_none (λ x, x ∈ l) xs) by done. by rewrite app_nil_r.
    + rewrite (app_assoc l), <- H2. rewrite <- !app_assoc. solve_Permutation.
  - cbn [z_head z_before z_cur z_after z_removed z_added]. split.
    + rewrite <- H1. rewrite !list.filter_app. rewrite (filter_none (λ x, x ∈ l) xs) by done. done.
    + rewrite (app_assoc l), <- H2. rewrite <- !app_assoc. solve_Permutation.
  - cbn [z_head z_before z_cur z_after z_removed z_added]. split.
    + rewrite <- H1. rewrite !list.filter_app. rewrite (filter_none (λ x, x ∈ l) xs) by done. by rewrite !app_nil_r.
    + rewrite (app_assoc l), <- H2. rewrite <- !app_assoc. solve_Permutation.
  - cbn [z_head z_before z_cur z_after z_removed z_added]. split.
    + rewrite <- H1. rewrite !list.filter_app. rewrite (filter_none (λ x, x ∈ l) xs) by done. done.
    + rewrite (app_assoc l), <- H2. rewrite <- !app_assoc. solve_Permutation.
Qed.
Lemma z_list_nodup_step z o ops :
  NoDup (z_list z ++ z_removed z ++ pending (o :: ops)) →
  NoDup (z_list (z_step z o) ++ z_removed (z_step z o) ++ pending ops).
Proof.
  destruct z as [hd b c a r nw]. unfold pending. cbn [map concat]. fold (pending ops). unfold z_list.
  cbn [z_head z_before z_cur z_after z_removed]. intros ND.
  eapply NoDup_Permutation_proper; [|exact ND].
  destruct o; cbn [z_step nodes_of z_head z_before z_cur z_after z_removed]; [destruct a|..];
    cbn [z_step nodes_of z_head z_before z_cur z_after z_removed cur_list]; rewrite ?app_nil_r; rewrite <- ?app_assoc; solve_Permutation.
Qed.
Lemma keeps_run l ops : ∀ z,
  keeps l z → NoDup (z_list z ++ z_removed z ++ pending ops) → (∀ x, x ∈ pending ops → x ∉ l) →
  keeps l (z_run z ops).
Proof.
  induction ops as [|o ops IH]; intros z K ND Hx; [done|].
  unfold pending in Hx. cbn [map concat] in Hx. fold (pending ops) in Hx.
  apply IH.
  - apply keeps_step; [done|by apply list.NoDup_app in ND as [? _]|]. intros. apply Hx. set_solver.
  - by apply z_list_nodup_step.
  - intros. apply Hx. set_solver.
Qed.
Lemma z_run_added z ops : z_added (z_run z ops) = z_added z ++ pending ops.
Proof.
  revert z. induction ops as [|o ops IH]; intros z; [by rewrite app_nil_r|].
  unfold z_run in *. cbn [fold_left]. rewrite IH. unfold pending. cbn [map concat].
  destruct z as [hd b c a r nw]. destruct o; cbn; try (by rewrite <- app_assoc); destruct a; done.
Qed.
