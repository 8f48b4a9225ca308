(** * What the memory pass does to its own state *)
From stdpp Require Import numbers list gmap.
From Verif Require Import MemModel MemSpec.

Scheme stmt_mut := Induction for stmt Sort Prop
with block_mut := Induction for block Sort Prop
with cases_mut := Induction for cases Sort Prop.
Combined Scheme stmt_block_cases_ind from stmt_mut, block_mut, cases_mut.

(** ** Equations *)

Lemma manage_block_eq strict inl il b m :
  manage_block strict inl il b m =
    '(c, m') ← manage_stmts strict (m_next m) inl b (enter il m);
    let '(d, m') := leave (m_next m) inl (m_sealed m) m' in
    Some (c ++ d, m').
Proof. destruct b; reflexivity. Qed.

Lemma lookup_restore st m x :
  m_vars (restore st m) !! x =
  (λ t, Trace (default (t_state t) (st !! x)) (t_scope t) (t_drop t)) <$> m_vars m !! x.
Proof. simpl. rewrite map_lookup_imap. by destruct (m_vars m !! x). Qed.

Lemma lookup_join f a b x :
  join_with f a b !! x = (λ s, f s (default s (b !! x))) <$> a !! x.
Proof. unfold join_with. rewrite map_lookup_imap. by destruct (a !! x). Qed.

Lemma lookup_capture m x : capture m !! x = t_state <$> m_vars m !! x.
Proof. apply lookup_fmap. Qed.

Lemma lookup_merge_update a b m x :
  m_vars (merge_update a b m) !! x =
  (λ t, Trace (default (t_state t) ((λ s, join s (default s (b !! x))) <$> a !! x))
          (t_scope t) (t_drop t)) <$> m_vars m !! x.
Proof.
  change (m_vars (merge_update a b m)) with (m_vars (restore (join_with join a b) m)).
  by rewrite lookup_restore, lookup_join.
Qed.

Lemma flags_with_flags m x :
  x ∈ m_flags (with_flags m) ↔
  x ∈ m_flags m ∨ ∃ t, m_vars m !! x = Some t ∧ t_state t = Maybe.
Proof.
  simpl. rewrite elem_of_union, elem_of_dom. f_equiv. split.
  - intros [t Ht]. apply map_filter_lookup_Some in Ht as [? ?]. by exists t.
  - intros (t & ? & ?). exists t. by apply map_filter_lookup_Some.
Qed.

Lemma lookup_forget xs v x :
  forget xs v !! x = if bool_decide (x ∈ xs) then None else v !! x.
Proof.
  unfold forget. induction xs as [|y xs IH]; cbn [foldr].
  - by rewrite bool_decide_eq_false_2 by apply not_elem_of_nil.
  - destruct (decide (x = y)) as [->|Hne].
    + rewrite lookup_delete, bool_decide_eq_true_2 by (by left). done.
    + rewrite lookup_delete_ne by done. rewrite IH.
      rewrite (bool_decide_ext (x ∈ xs) (x ∈ y :: xs)); [done|].
      rewrite elem_of_cons. tauto.
Qed.

(** ** Releases only change the block of the last release *)

Record dstep (cur : nat) (xs : list nat) (m m' : mst) : Prop := {
  ds_flags : m_flags m' = m_flags m;
  ds_scopes : m_scopes m' = m_scopes m;
  ds_next : m_next m' = m_next m;
  ds_sealed : m_sealed m' = m_sealed m;
  ds_var : ∀ x,
    m_vars m' !! x = m_vars m !! x ∨
    x ∈ xs ∧ ∃ t, m_vars m !! x = Some t ∧
      m_vars m' !! x = Some (Trace (t_state t) (t_scope t) (Some cur));
}.

Lemma drop_var_step cur inl x m c m' :
  drop_var cur inl x m = (c, m') → dstep cur [x] m m'.
Proof.
  unfold drop_var. intros H. destruct (m_vars m !! x) as [t|] eqn:E.
  2: { simplify_eq. split; auto. }
  destruct (needs_drop cur inl t); simplify_eq; split; simpl; auto.
  intros y. destruct (decide (y = x)) as [->|].
  - right. split; [by left|]. exists t. by rewrite lookup_insert.
  - left. by rewrite lookup_insert_ne.
Qed.

Lemma dstep_refl cur xs m : dstep cur xs m m.
Proof. split; auto. Qed.

Lemma dstep_trans cur xs ys m m1 m' :
  dstep cur xs m m1 → dstep cur ys m1 m' → dstep cur (xs ++ ys) m m'.
Proof.
  intros [A1 A2 A3 A4 A5] [B1 B2 B3 B4 B5]. split; try congruence.
  intros x. destruct (B5 x) as [E|(Hx & t1 & E1 & E2)].
  - rewrite E. destruct (A5 x) as [E'|(Hx & t & E1 & E2)]; [by left|].
    right. split; [apply elem_of_app; by left|eauto].
  - destruct (A5 x) as [E'|(Hx' & t & E3 & E4)].
    + right. split; [apply elem_of_app; by right|].
      exists t1. split; congruence.
    + right. split; [apply elem_of_app; by left|].
      exists t. split; [done|]. rewrite E4 in E1. simplify_eq. done.
Qed.

Lemma drop_vars_step cur inl xs m c m' :
  drop_vars cur inl xs m = (c, m') → dstep cur xs m m'.
Proof.
  revert m c m'. induction xs as [|x xs IH]; intros m c m' H; simpl in H.
  - simplify_eq. apply dstep_refl.
  - destruct (drop_var cur inl x m) as [c1 m1] eqn:E1.
    destruct (drop_vars cur inl xs m1) as [c2 m2] eqn:E2. simplify_eq.
    apply drop_var_step in E1. apply IH in E2.
    by apply (dstep_trans cur [x] xs m m1).
Qed.

Lemma dstep_dom cur xs m m' x :
  dstep cur xs m m' → is_Some (m_vars m' !! x) ↔ is_Some (m_vars m !! x).
Proof.
  intros H. destruct (ds_var _ _ _ _ H x) as [E|(_ & t & E1 & E2)].
  - by rewrite E.
  - rewrite E1, E2. split; eauto.
Qed.

(** ** Variables a statement moves or assigns *)

Fixpoint touches (x : nat) (s : stmt) : bool :=
  match s with
  | SDecl _ (Some (DMove y)) => bool_decide (x = y)
  | SDecl _ _ => false
  | SAssign z src =>
      bool_decide (x = z) ||
      match src with AMove y => bool_decide (x = y) | _ => false end
  | SNull y | SMove y | SReturn (RVar y) => bool_decide (x = y)
  | SIf a b => touches_block x a || touches_block x b
  | SLoop b | SBlock b => touches_block x b
  | SSwitch cs => touches_cases x cs
  | _ => false
  end
with touches_block (x : nat) (b : block) : bool :=
  match b with BNil => false | BCons s b => touches x s || touches_block x b end
with touches_cases (x : nat) (cs : cases) : bool :=
  match cs with CNil => false | CCons b cs => touches_block x b || touches_cases x cs end.

Section with_class.
Context (cls : nat → class).

Lemma after_frozen c s : c_frozen (after cls c s) = c_frozen c.
Proof. destruct s; simpl; try done. by destruct (cls x). Qed.

Lemma may_move_frozen c x y :
  may_move cls c y = true → x ∈ c_frozen c → bool_decide (x = y) = false.
Proof.
  intros H Hx. apply bool_decide_eq_false. intros ->.
  apply andb_true_iff in H as [_ H]. apply negb_true_iff in H.
  by apply bool_decide_eq_false in H.
Qed.

Lemma may_assign_frozen c x y :
  may_assign cls c y = true → x ∈ c_frozen c → bool_decide (x = y) = false.
Proof.
  intros H Hx. apply bool_decide_eq_false. intros ->.
  apply andb_true_iff in H as [H _]. apply negb_true_iff in H.
  by apply bool_decide_eq_false in H.
Qed.

Lemma calm_frozen_all x :
  (∀ s c, calm_stmt cls c s = true → x ∈ c_frozen c → touches x s = false) ∧
  (∀ b c, calm_block cls c b = true → x ∈ c_frozen c → touches_block x b = false) ∧
  (∀ cs c, calm_cases cls c cs = true → x ∈ c_frozen c → touches_cases x cs = false).
Proof.
  apply stmt_block_cases_ind; simpl.
  - intros y [[|z|z]|] c H Hx; try done.
    apply andb_true_iff in H as [_ H]. apply andb_true_iff in H as [_ H].
    by eapply may_move_frozen.
  - intros y src c H Hx. apply andb_true_iff in H as [H1 H2].
    rewrite (may_assign_frozen _ _ _ H1 Hx). simpl. destruct src; try done.
    apply andb_true_iff in H2 as [_ H2]. by eapply may_move_frozen.
  - intros y c H Hx. apply andb_true_iff in H as [H _]. by eapply may_move_frozen.
  - intros y c H Hx. by eapply may_move_frozen.
  - done.
  - intros a IHa b IHb c H Hx. apply andb_true_iff in H as [H1 H2].
    rewrite (IHa _ H1), (IHb _ H2); [done| |]; simpl; apply elem_of_app; by right.
  - intros b IH c H Hx. apply (IH _ H). simpl. rewrite !elem_of_app. tauto.
  - intros b IH c H Hx. apply (IH _ H). simpl. rewrite !elem_of_app. tauto.
  - intros cs IH c H Hx. apply (IH _ H). simpl. rewrite !elem_of_app. tauto.
  - done.
  - done.
  - intros r c H Hx. apply andb_true_iff in H as [_ H]. destruct r; try done.
    by eapply may_move_frozen.
  - done.
  - intros s IHs b IHb c H Hx. apply andb_true_iff in H as [H1 H2].
    rewrite (IHs _ H1 Hx), (IHb _ H2); [done|]. by rewrite after_frozen.
  - done.
  - intros b IHb cs IHcs c H Hx. apply andb_true_iff in H as [H1 H2].
    by rewrite (IHb _ H1 Hx), (IHcs _ H2).
Qed.

(** ** One variable through a statement *)

Definition nonmob (x : nat) : Prop := cls x ≠ Mobile.

Definition legal (x : nat) (s : vstate) : Prop :=
  match cls x with
  | Steady => s = Assigned
  | Late => s ≠ Moved ∧ s ≠ Dropped
  | Mobile => True
  end.

Record vstep (x : nat) (tch : bool) (cur : nat) (m m' : mst) (t t' : trace)
    : Prop := {
  vs_scope : t_scope t' = t_scope t;
  vs_legal : legal x (t_state t) → legal x (t_state t');
  vs_asg : nonmob x → legal x (t_state t) →
           t_state t = Assigned → t_state t' = Assigned;
  vs_set : nonmob x → legal x (t_state t) →
           t_state t ≠ Uninit → t_state t' ≠ Uninit;
  vs_same : tch = false → t_state t' = t_state t;
  vs_drop : ∀ k, t_drop t' = Some k → t_drop t = Some k ∨ k = cur ∨ m_next m ≤ k < m_next m';
  vs_drop2 : nonmob x → legal x (t_state t) → t_drop t' = Some cur →
             t_state t' = Uninit → m_sealed m' = false → t_drop t = Some cur;
  vs_flag : t_state t ≠ Maybe →
            (tch = false ∨ nonmob x ∧ legal x (t_state t) ∧ t_state t = Assigned) →
            x ∈ m_flags m' → x ∈ m_flags m;
}.

Record sstep (tch : nat → bool) (cur : nat) (m m' : mst) : Prop := {
  ss_next : m_next m ≤ m_next m';
  ss_flags : m_flags m ⊆ m_flags m';
  ss_seal : m_sealed m = true → m_sealed m' = true;
  ss_var : ∀ x t, m_vars m !! x = Some t →
    ∃ t', m_vars m' !! x = Some t' ∧ vstep x (tch x) cur m m' t t';
}.

Lemma vstep_refl x tch cur m t : vstep x tch cur m m t t.
Proof. split; auto. Qed.

Lemma vstep_same x tch cur m m' t :
  m_flags m' = m_flags m → vstep x tch cur m m' t t.
Proof. intros H. split; auto. by rewrite H. Qed.

Lemma sstep_refl tch cur m : sstep tch cur m m.
Proof. split; auto. intros x t Ht. exists t. split; [done|]. apply vstep_refl. Qed.

Lemma sstep_trans tch1 tch2 cur m m1 m' :
  sstep tch1 cur m m1 → sstep tch2 cur m1 m' →
  sstep (λ x, tch1 x || tch2 x) cur m m'.
Proof.
  intros [A1 A2 A3 A4] [B1 B2 B3 B4]. split.
  - lia.
  - set_solver.
  - auto.
  - intros x t Ht. destruct (A4 x t Ht) as (t1 & Ht1 & V1).
    destruct (B4 x t1 Ht1) as (t' & Ht' & V2). exists t'. split; [done|].
    destruct V1 as [a1 a2 a3 a4 a5 a6 a7 a8], V2 as [b1 b2 b3 b4 b5 b6 b7 b8].
    split.
    + congruence.
    + auto.
    + auto.
    + auto.
    + intros [H1 H2]%orb_false_iff. rewrite b5, a5 by done. done.
    + intros k Hk. destruct (b6 k Hk) as [H|[H|H]]; [|by auto|].
      * destruct (a6 k H) as [?|[?|?]]; [by auto|by auto|]. right; right; lia.
      * right. right. lia.
    + intros Hn Hl Hd Hu Hs.
      assert (m_sealed m1 = false) as Hs1.
      { destruct (m_sealed m1) eqn:E; [|done]. rewrite B3 in Hs by done. done. }
      assert (t_state t1 = Uninit) as Hu1.
      { destruct (decide (t_state t1 = Uninit)) as [|Hne]; [done|].
        exfalso. by apply (b4 Hn (a2 Hl) Hne). }
      apply a7; auto.
    + intros Hm Ht0 Hx.
      apply a8; [done| |].
      * destruct Ht0 as [Ht0|Ht0]; [left|by right].
        by apply orb_false_iff in Ht0 as [? ?].
      * apply b8; [| |done].
        -- destruct Ht0 as [Ht0|(?&?&E)].
           ++ apply orb_false_iff in Ht0 as [? ?]. by rewrite a5.
           ++ rewrite a3 by done. done.
        -- destruct Ht0 as [Ht0|(?&?&E)].
           ++ apply orb_false_iff in Ht0 as [? ?]. by left.
           ++ right. auto.
Qed.

Lemma sstep_weaken (tch tch' : nat → bool) cur m m' :
  (∀ x, tch' x = false → tch x = false) →
  sstep tch cur m m' → sstep tch' cur m m'.
Proof.
  intros Hw [A1 A2 A3 A4]. split; auto.
  intros x t Ht. destruct (A4 x t Ht) as (t' & Ht' & V). exists t'.
  split; [done|]. destruct V as [a1 a2 a3 a4 a5 a6 a7 a8]. split; auto.
  intros Hm Ht0 Hx. apply a8; auto. destruct Ht0 as [Ht0|Ht0]; auto.
Qed.

(** An inner block, seen from the block around it. *)
Lemma sstep_outer tch cur cur' m m' :
  cur < m_next m → m_next m ≤ cur' < m_next m' → m_sealed m' = m_sealed m →
  (m_next m ≤ m_next m') → m_flags m ⊆ m_flags m' →
  (∀ x t, m_vars m !! x = Some t → ∃ t', m_vars m' !! x = Some t' ∧
     ∃ m1 m2, m_next m ≤ m_next m1 ∧ m_next m2 ≤ m_next m' ∧
       m_flags m1 = m_flags m ∧ m_flags m2 = m_flags m' ∧ vstep x (tch x) cur' m1 m2 t t') →
  sstep tch cur m m'.
Proof.
  intros Hc Hc' Hs Hn Hf Hv. split; auto.
  - congruence.
  - intros x t Ht. destruct (Hv x t Ht) as (t' & Ht' & m1 & m2 & Hn1 & Hn2 & Hf1 & Hf2 & V).
    exists t'. split; [done|]. destruct V as [a1 a2 a3 a4 a5 a6 a7 a8]. split; auto.
    + intros k Hk. destruct (a6 k Hk) as [?|[?|?]]; [by auto| |]; right; right; lia.
    + intros _ _ Hd _ _. destruct (a6 _ Hd) as [?|[?|?]]; [done| |]; lia.
    + intros ? ? ?. rewrite <- Hf1. apply a8; auto. by rewrite Hf2.
Qed.

(** ** Scopes *)

Definition all_locals (m : mst) : list nat := concat (fst <$> m_scopes m).

(** Identifiers of blocks are below the counter, scopes list the traced
    variables once, states fit the classes. *)
Record wf (m : mst) : Prop := {
  wf_scope : ∀ x t k, m_vars m !! x = Some t → t_scope t = Some k → k < m_next m;
  wf_drop : ∀ x t k, m_vars m !! x = Some t → t_drop t = Some k → k < m_next m;
  wf_legal : ∀ x t, m_vars m !! x = Some t → legal x (t_state t);
  wf_nodup : NoDup (all_locals m);
  wf_dom : ∀ x, x ∈ all_locals m ↔ is_Some (m_vars m !! x);
  wf_nonempty : m_scopes m ≠ [];
}.

Definition push (new : list nat) (sc : list (list nat * bool)) : list (list nat * bool) :=
  match sc with [] => [] | (xs, l) :: r => (xs ++ new, l) :: r end.

Lemma push_nil sc : push [] sc = sc.
Proof. destruct sc as [|[xs l] r]; simpl; [done|]. by rewrite app_nil_r. Qed.

Lemma push_push a b sc : push b (push a sc) = push (a ++ b) sc.
Proof. destruct sc as [|[xs l] r]; simpl; [done|]. by rewrite app_assoc. Qed.

(** The variables a statement list declares in its own block. *)
Definition own_decl (s : stmt) : list nat :=
  match s with SDecl x _ => [x] | _ => [] end.
Fixpoint own_decls (b : block) : list nat :=
  match b with BNil => [] | BCons s b => own_decl s ++ own_decls b end.

Record shape (cur : nat) (new : list nat) (m m' : mst) : Prop := {
  sh_scopes : m_scopes m' = push new (m_scopes m);
  sh_new : ∀ x, x ∈ new → m_vars m !! x = None;
  sh_nodup : NoDup new;
  sh_dom : ∀ x, is_Some (m_vars m' !! x) ↔ is_Some (m_vars m !! x) ∨ x ∈ new;
  sh_trace : ∀ x t, x ∈ new → m_vars m' !! x = Some t → t_scope t = Some cur;
}.

Lemma shape_same cur m m' :
  m_scopes m' = m_scopes m →
  (∀ x, is_Some (m_vars m' !! x) ↔ is_Some (m_vars m !! x)) →
  shape cur [] m m'.
Proof.
  intros H1 H2. split.
  - by rewrite push_nil.
  - intros x Hx. by apply elem_of_nil in Hx.
  - constructor.
  - intros x. rewrite H2. split; [by left|]. intros [?|Hx]; [done|]. by apply elem_of_nil in Hx.
  - intros x t Hx. by apply elem_of_nil in Hx.
Qed.

Lemma shape_trans tch cur n1 n2 m m1 m' :
  shape cur n1 m m1 → shape cur n2 m1 m' → sstep tch cur m1 m' →
  shape cur (n1 ++ n2) m m'.
Proof.
  intros [A1 A2 A3 A4 A5] [B1 B2 B3 B4 B5] S. split.
  - by rewrite B1, A1, push_push.
  - intros x [Hx|Hx]%elem_of_app; [auto|]. apply B2 in Hx.
    destruct (m_vars m !! x) eqn:E; [|done].
    destruct (proj2 (A4 x)) as [? H]; [left; by rewrite E|]. congruence.
  - apply NoDup_app. split_and!; [done| |done]. intros x Hx Hx'.
    apply B2 in Hx'. destruct (proj2 (A4 x)) as [? H]; [by right|]. congruence.
  - intros x. rewrite B4, A4, elem_of_app. tauto.
  - intros x t Hx Ht. destruct (decide (x ∈ n2)) as [Hx2|Hx2]; [by eapply B5|].
    apply elem_of_app in Hx as [Hx|Hx]; [|done].
    destruct (proj2 (A4 x)) as [t1 Ht1]; [by right|].
    destruct (ss_var _ _ _ _ S x t1 Ht1) as (t' & Ht' & V).
    simplify_eq. rewrite (vs_scope _ _ _ _ _ _ _ V). by eapply A5.
Qed.

Lemma all_locals_push new m m' :
  m_scopes m' = push new (m_scopes m) → m_scopes m ≠ [] →
  all_locals m' ≡ₚ new ++ all_locals m.
Proof.
  intros H Hne. unfold all_locals. rewrite H.
  destruct (m_scopes m) as [|[xs l] r]; [done|]. simpl.
  by rewrite (Permutation_app_comm xs new), app_assoc.
Qed.

(** [wf] through a step. *)
Lemma wf_step tch cur new m m' :
  wf m → cur < m_next m → shape cur new m m' → sstep tch cur m m' →
  (∀ x t, x ∈ new → m_vars m' !! x = Some t →
     legal x (t_state t) ∧ (∀ k, t_drop t = Some k → k < m_next m')) →
  wf m'.
Proof.
  intros W Hc Sh S Hnew.
  assert (∀ x t', m_vars m' !! x = Some t' →
    (∃ t, m_vars m !! x = Some t ∧ vstep x (tch x) cur m m' t t') ∨ x ∈ new) as Hx.
  { intros x t' Ht'. destruct (proj1 (sh_dom _ _ _ _ Sh x)) as [[t Ht]|?]; [eauto| |by right].
    left. destruct (ss_var _ _ _ _ S x t Ht) as (t1 & Ht1 & V). simplify_eq. eauto. }
  pose proof (ss_next _ _ _ _ S) as Hle.
  assert (all_locals m' ≡ₚ new ++ all_locals m) as HP.
  { apply all_locals_push; [apply Sh|apply W]. }
  split.
  - intros x t k Ht Hk. destruct (Hx x t Ht) as [(t0 & Ht0 & V)|Hn].
    + rewrite (vs_scope _ _ _ _ _ _ _ V) in Hk.
      pose proof (wf_scope _ W _ _ _ Ht0 Hk). lia.
    + rewrite (sh_trace _ _ _ _ Sh x t Hn Ht) in Hk. simplify_eq. lia.
  - intros x t k Ht Hk. destruct (Hx x t Ht) as [(t0 & Ht0 & V)|Hn].
    { destruct (vs_drop _ _ _ _ _ _ _ V k Hk) as [Hk'|[Hk'|Hk']]; [|lia|lia].
      pose proof (wf_drop _ W _ _ _ Ht0 Hk'). lia. }
    by apply (Hnew x t Hn Ht).
  - intros x t Ht. destruct (Hx x t Ht) as [(t0 & Ht0 & V)|Hn].
    + apply (vs_legal _ _ _ _ _ _ _ V). by apply (wf_legal _ W).
    + by apply (Hnew x t Hn Ht).
  - rewrite HP. apply NoDup_app. split_and!; [apply Sh| |apply W].
    intros x Hn Ho. apply (wf_dom _ W) in Ho as [t Ht].
    by rewrite (sh_new _ _ _ _ Sh x Hn) in Ht.
  - intros x. rewrite HP, elem_of_app, (sh_dom _ _ _ _ Sh), (wf_dom _ W). tauto.
  - rewrite (sh_scopes _ _ _ _ Sh). pose proof (wf_nonempty _ W).
    by destruct (m_scopes m) as [|[]].
Qed.

(** ** Steps of the pass *)

Lemma lookup_set_state x s m y :
  m_vars (set_state x s m) !! y =
  if decide (y = x) then (λ t, Trace s (t_scope t) (t_drop t)) <$> m_vars m !! y
  else m_vars m !! y.
Proof.
  simpl. case_decide as H; [subst; apply lookup_alter|by apply lookup_alter_ne].
Qed.

Lemma sstep_set_mobile y s cur m :
  cls y = Mobile → sstep (λ x, bool_decide (x = y)) cur m (set_state y s m).
Proof.
  intros Hy. split; try done. intros x t Ht.
  rewrite lookup_set_state. case_decide as Hx.
  - subst x. rewrite Ht. simpl. eexists. split; [done|]. unfold nonmob.
    split; simpl; try done; auto.
    + intros _. unfold legal. by rewrite Hy.
    + rewrite bool_decide_eq_true_2; done.
  - exists t. split; [done|]. by apply vstep_same.
Qed.

Lemma wf_set_state y s m :
  wf m → legal y s → wf (set_state y s m).
Proof.
  intros W Hl.
  assert (∀ x t, m_vars (set_state y s m) !! x = Some t →
    ∃ t0, m_vars m !! x = Some t0 ∧ t_scope t = t_scope t0 ∧ t_drop t = t_drop t0 ∧
      (t_state t = t_state t0 ∨ x = y ∧ t_state t = s)) as Hv.
  { intros x t Ht. rewrite lookup_set_state in Ht. case_decide as Hx; [|exists t; by auto].
    apply fmap_Some in Ht as (t0 & Ht0 & ->). exists t0. simpl. auto 10. }
  split.
  - intros x t k Ht Hk. destruct (Hv x t Ht) as (t0 & Ht0 & E1 & E2 & E3).
    apply (wf_scope _ W x t0 k Ht0). congruence.
  - intros x t k Ht Hk. destruct (Hv x t Ht) as (t0 & Ht0 & E1 & E2 & E3).
    apply (wf_drop _ W x t0 k Ht0). congruence.
  - intros x t Ht. destruct (Hv x t Ht) as (t0 & Ht0 & E1 & E2 & [E3|[-> E3]]).
    + rewrite E3. by apply (wf_legal _ W x t0).
    + by rewrite E3.
  - apply W.
  - intros x. change (all_locals (set_state y s m)) with (all_locals m).
    rewrite (wf_dom _ W), lookup_set_state. case_decide; [|done].
    by rewrite fmap_is_Some.
  - apply W.
Qed.

Lemma set_state_dom y s m x :
  is_Some (m_vars (set_state y s m) !! x) ↔ is_Some (m_vars m !! x).
Proof. rewrite lookup_set_state. case_decide; [|done]. by rewrite fmap_is_Some. Qed.

(** The release before an assignment, then the new state. *)
Lemma sstep_assign y s cur inl c m m1 :
  drop_var cur inl y m = (c, m1) →
  s = Assigned ∨ cls y = Mobile → 
  sstep (λ x, bool_decide (x = y)) cur m (set_state y s m1).
Proof.
  intros Hd Hs. apply drop_var_step in Hd as [D1 D2 D3 D4 D5].
  split; simpl; try congruence; try lia; try set_solver.
  intros x t Ht. change (alter _ y (m_vars m1)) with (m_vars (set_state y s m1)).
  rewrite lookup_set_state.
  destruct (D5 x) as [E|(Hx & t0 & E1 & E2)].
  - rewrite E, Ht. case_decide as Hx.
    + subst x. simpl. eexists. split; [done|].
      split; simpl; try done; auto.
      * destruct Hs as [->|Hm]; unfold legal; [|by rewrite Hm]. by destruct (cls y).
      * destruct Hs as [->|Hm]; [done|]. intros Hn. by destruct Hn.
      * destruct Hs as [->|Hm]; [done|]. intros Hn. by destruct Hn.
      * rewrite bool_decide_eq_true_2; done.
      * rewrite D1. auto.
    + exists t. split; [done|]. by apply vstep_same.
  - apply elem_of_list_singleton in Hx as ->. simplify_eq.
    rewrite E2. rewrite decide_True by done. simpl. eexists. split; [done|].
    split; simpl; try done; auto.
    + destruct Hs as [->|Hm]; unfold legal; [|by rewrite Hm]. by destruct (cls y).
    + destruct Hs as [->|Hm]; [done|]. intros Hn. by destruct Hn.
    + destruct Hs as [->|Hm]; [done|]. intros Hn. by destruct Hn.
    + rewrite bool_decide_eq_true_2; done.
    + intros k ?. simplify_eq. auto.
    + intros Hn _ _ Hu. destruct Hs as [->|Hm]; [done|]. by destruct Hn.
    + rewrite D1. auto.
Qed.

Lemma wf_dstep cur xs m m' :
  wf m → cur < m_next m → dstep cur xs m m' → wf m'.
Proof.
  intros W Hc D. pose proof (dstep_dom cur xs m m') as Hdom.
  destruct D as [D1 D2 D3 D4 D5].
  assert (∀ x t, m_vars m' !! x = Some t → ∃ t0, m_vars m !! x = Some t0 ∧
     t_scope t = t_scope t0 ∧ t_state t = t_state t0 ∧
     (t_drop t = t_drop t0 ∨ t_drop t = Some cur)) as Hv.
  { intros x t Ht. destruct (D5 x) as [E|(Hx & t0 & E1 & E2)].
    - exists t. rewrite <- E. auto.
    - exists t0. rewrite E2 in Ht. simplify_eq. simpl. auto. }
  split.
  - intros x t k Ht Hk. destruct (Hv x t Ht) as (t0 & Ht0 & E1 & E2 & E3).
    rewrite D3. apply (wf_scope _ W x t0 k Ht0). congruence.
  - intros x t k Ht Hk. destruct (Hv x t Ht) as (t0 & Ht0 & E1 & E2 & [E3|E3]).
    + rewrite D3. apply (wf_drop _ W x t0 k Ht0). congruence.
    + rewrite D3. congruence.
  - intros x t Ht. destruct (Hv x t Ht) as (t0 & Ht0 & E1 & E2 & E3).
    rewrite E2. by apply (wf_legal _ W x t0).
  - unfold all_locals. rewrite D2. apply W.
  - intros x. unfold all_locals. rewrite D2, Hdom by (by split). apply W.
  - rewrite D2. apply W.
Qed.

Lemma seal_step cur inl ret m c m' :
  seal cur inl ret m = (c, m') → wf m → cur < m_next m →
  sstep (λ _, false) cur m m' ∧ shape cur [] m m' ∧ wf m'.
Proof.
  unfold seal. intros H W Hc. destruct (drop_vars _ _ _ m) as [c1 m1] eqn:E.
  simplify_eq. apply drop_vars_step in E.
  pose proof (wf_dstep _ _ _ _ W Hc E) as W1.
  split_and!.
  - destruct E as [D1 D2 D3 D4 D5]. split; simpl; try done; [lia|set_solver|].
    intros x t Ht. destruct (D5 x) as [E|(Hx & t0 & E1 & E2)].
    + exists t. split; [congruence|].
      by apply vstep_same.
    + simplify_eq. eexists. split; [exact E2|]. split; simpl; try done; auto.
      * intros k ?. simplify_eq. auto.
      * by rewrite D1.
  - apply shape_same; simpl; [apply E|]. intros x. by eapply dstep_dom.
  - destruct W1. by split.
Qed.

Lemma use_eq strict y m m' : use strict y m = Some m' → m' = m.
Proof.
  unfold use. destruct (m_vars m !! y) as [t|]; [|done].
  destruct (t_state t), strict; congruence.
Qed.

Lemma move_eq strict y m m' :
  move strict y m = Some m' → m' = set_state y Moved m ∧ use strict y m = Some m.
Proof.
  unfold move. intros (m1 & H & ->)%fmap_Some. pose proof (use_eq _ _ _ _ H) as ->.
  done.
Qed.

Lemma may_move_mobile c y : may_move cls c y = true → cls y = Mobile.
Proof. intros H. apply andb_true_iff in H as [H _]. by apply bool_decide_eq_true in H. Qed.

Lemma legal_mobile y s : cls y = Mobile → legal y s.
Proof. unfold legal. by intros ->. Qed.

Lemma legal_assigned y : legal y Assigned.
Proof. unfold legal. by destruct (cls y). Qed.

Lemma join_legal x a b : legal x a → legal x b → legal x (join a b).
Proof.
  unfold legal, join. destruct (cls x); [| |done].
  - intros -> ->. by rewrite decide_True.
  - intros [? ?] [? ?]. repeat case_decide; done.
Qed.

Lemma join_assigned : join Assigned Assigned = Assigned.
Proof. done. Qed.

Lemma join_same a : join a a = a.
Proof. unfold join. by rewrite decide_True. Qed.

Lemma join_set x a b :
  nonmob x → legal x a → legal x b → a ≠ Uninit → join a b ≠ Uninit.
Proof.
  unfold nonmob, legal, join. intros Hn. destruct (cls x); [| |done].
  - intros -> ->. by rewrite decide_True.
  - intros [? ?] [? ?] ?. repeat case_decide; try done.
    destruct a; tauto.
Qed.

Lemma join_set_r x a b :
  nonmob x → legal x a → legal x b → b ≠ Uninit → join a b ≠ Uninit.
Proof.
  unfold nonmob, legal, join. intros Hn. destruct (cls x); [| |done].
  - intros -> ->. by rewrite decide_True.
  - intros [? ?] [? ?] ?. repeat case_decide; subst; try done.
    destruct b; tauto.
Qed.

(** Traced variables are the same and their scope and last release do not
    change: joins. *)
Lemma lookup_merge a b m x t sa sb :
  m_vars m !! x = Some t → a !! x = Some sa → b !! x = Some sb →
  m_vars (merge_update a b m) !! x = Some (Trace (join sa sb) (t_scope t) (t_drop t)).
Proof. intros H1 H2 H3. by rewrite lookup_merge_update, H1, H2, H3. Qed.

Lemma merge_flags a b m x t sa sb :
  m_vars m !! x = Some t → a !! x = Some sa → b !! x = Some sb →
  x ∈ m_flags (merge_update a b m) ↔ x ∈ m_flags m ∨ join sa sb = Maybe.
Proof.
  intros H1 H2 H3. unfold merge_update. rewrite flags_with_flags.
  change (m_flags (restore _ m)) with (m_flags m).
  rewrite lookup_restore, lookup_join, H1, H2, H3. simpl. f_equiv. split.
  - intros (t0 & ? & ?). by simplify_eq.
  - eauto.
Qed.

Lemma sstep_if ta tb cur m m1 m2 m3 :
  (∀ x t, m_vars m !! x = Some t → legal x (t_state t)) →
  (∀ x, is_Some (m_vars m1 !! x) ↔ is_Some (m_vars m !! x)) →
  sstep ta cur m m1 → sstep tb cur (restore (capture m) m1) m2 →
  m3 = merge_update (capture m1) (capture m2) m2 →
  sstep (λ x, ta x || tb x) cur m m3.
Proof.
  intros Hl Hdom [A1 A2 A3 A4] [B1 B2 B3 B4] ->. split; simpl.
  - simpl in *. lia.
  - simpl in *. set_solver.
  - simpl in *. auto.
  - intros x t Ht. destruct (A4 x t Ht) as (t1 & Ht1 & V1).
    assert (m_vars (restore (capture m) m1) !! x =
      Some (Trace (t_state t) (t_scope t1) (t_drop t1))) as Hr.
    { rewrite lookup_restore, Ht1, lookup_capture, Ht. done. }
    destruct (B4 x _ Hr) as (t2 & Ht2 & V2).
    change (map_imap _ (m_vars m2)) with (m_vars (merge_update (capture m1) (capture m2) m2)).
    rewrite (lookup_merge _ _ _ x t2 (t_state t1) (t_state t2));
      [|done|by rewrite lookup_capture, Ht1|by rewrite lookup_capture, Ht2].
    eexists. split; [done|].
    pose proof (Hl x t Ht) as Hlt.
    destruct V1 as [a1 a2 a3 a4 a5 a6 a7 a8], V2 as [b1 b2 b3 b4 b5 b6 b7 b8].
    simpl in *. split; simpl.
    + congruence.
    + intros _. apply join_legal; auto.
    + intros Hn _ Ha. rewrite a3, b3 by done. done.
    + intros Hn _ Hu. by apply (join_set x); auto.
    + intros [H1 H2]%orb_false_iff. rewrite a5, b5 by done. apply join_same.
    + intros k Hk. destruct (b6 k Hk) as [H|[H|H]]; [|by auto|].
      * destruct (a6 k H) as [?|[?|?]]; [by auto|by auto|]. right; right; lia.
      * right. right. lia.
    + intros Hn _ Hd Hu Hs.
      assert (t_state t2 = Uninit) as U2.
      { destruct (decide (t_state t2 = Uninit)) as [|Hne]; [done|].
        exfalso. revert Hu. apply (join_set_r x); auto. }
      assert (t_state t1 = Uninit) as U1.
      { destruct (decide (t_state t1 = Uninit)) as [|Hne]; [done|].
        exfalso. revert Hu. apply (join_set x); auto. }
      assert (m_sealed m1 = false) as Hs1.
      { destruct (m_sealed m1) eqn:E; [|done]. rewrite B3 in Hs by done. done. }
      apply a7; auto.
    + intros Hm H Hx.
      change (m_flags m2 ∪ _) with (m_flags (merge_update (capture m1) (capture m2) m2)) in Hx.
      rewrite (merge_flags _ _ _ x t2 (t_state t1) (t_state t2)) in Hx;
        [|done|by rewrite lookup_capture, Ht1|by rewrite lookup_capture, Ht2].
      destruct H as [H|(Hn & _ & Ha)].
      * apply orb_false_iff in H as [H1 H2].
        rewrite (a5 H1), (b5 H2), join_same in Hx.
        destruct Hx as [Hx|Hx]; [|done]. auto.
      * rewrite (a3 Hn Hlt Ha), (b3 Hn Hlt Ha), join_assigned in Hx.
        destruct Hx as [Hx|Hx]; [|done].
        apply a8; auto.
Qed.

Lemma sstep_loop tb cur m m1 m2 :
  (∀ x t, m_vars m !! x = Some t → legal x (t_state t)) →
  sstep tb cur m m1 →
  m2 = merge_update (capture m1) (capture m) m1 →
  sstep tb cur m m2.
Proof.
  intros Hl [A1 A2 A3 A4] ->. split; simpl.
  - done.
  - set_solver.
  - done.
  - intros x t Ht. destruct (A4 x t Ht) as (t1 & Ht1 & V1).
    change (map_imap _ (m_vars m1)) with (m_vars (merge_update (capture m1) (capture m) m1)).
    rewrite (lookup_merge _ _ _ x t1 (t_state t1) (t_state t));
      [|done|by rewrite lookup_capture, Ht1|by rewrite lookup_capture, Ht].
    eexists. split; [done|].
    pose proof (Hl x t Ht) as Hlt.
    destruct V1 as [a1 a2 a3 a4 a5 a6 a7 a8].
    simpl in *. split; simpl.
    + congruence.
    + intros _. apply join_legal; auto.
    + intros Hn _ Ha. rewrite a3, Ha by done. done.
    + intros Hn _ Hu. by apply (join_set x); auto.
    + intros H. rewrite a5 by done. apply join_same.
    + done.
    + intros Hn _ Hd Hu Hs.
      assert (t_state t1 = Uninit) as U1.
      { destruct (decide (t_state t1 = Uninit)) as [|Hne]; [done|].
        exfalso. revert Hu. apply (join_set x); auto. }
      apply a7; auto.
    + intros Hm H Hx.
      change (m_flags m1 ∪ _) with (m_flags (merge_update (capture m1) (capture m) m1)) in Hx.
      rewrite (merge_flags _ _ _ x t1 (t_state t1) (t_state t)) in Hx;
        [|done|by rewrite lookup_capture, Ht1|by rewrite lookup_capture, Ht].
      destruct H as [H|(Hn & _ & Ha)].
      * rewrite (a5 H), join_same in Hx.
        destruct Hx as [Hx|Hx]; [|done]. auto.
      * rewrite (a3 Hn Hlt Ha), Ha, join_assigned in Hx.
        destruct Hx as [Hx|Hx]; [|done].
        apply a8; auto.
Qed.

Lemma sstep_with_flags tb cur m m1 :
  sstep tb cur m m1 → sstep tb cur m (with_flags m1).
Proof.
  intros [A1 A2 A3 A4]. split; simpl.
  - done.
  - set_solver.
  - done.
  - intros x t Ht. destruct (A4 x t Ht) as (t1 & Ht1 & V1). exists t1.
    split; [done|]. destruct V1 as [a1 a2 a3 a4 a5 a6 a7 a8].
    split; auto. intros Hm H Hx. apply flags_with_flags in Hx as [Hx|(t0 & Ht0 & Hs)].
    + by apply a8.
    + simplify_eq. exfalso. destruct H as [H|(Hn & Hl & Ha)].
      * by rewrite a5 in Hs.
      * rewrite a3 in Hs by done. done.
Qed.

Lemma restore_dom st m x :
  is_Some (m_vars (restore st m) !! x) ↔ is_Some (m_vars m !! x).
Proof. rewrite lookup_restore. apply fmap_is_Some. Qed.

(** Writing legal states keeps [wf]. *)
Lemma wf_restore st m :
  wf m → (∀ x s t, st !! x = Some s → m_vars m !! x = Some t → legal x s) →
  wf (restore st m).
Proof.
  intros W Hl.
  assert (∀ x t, m_vars (restore st m) !! x = Some t →
    ∃ t0, m_vars m !! x = Some t0 ∧ t_scope t = t_scope t0 ∧ t_drop t = t_drop t0 ∧
      legal x (t_state t)) as Hv.
  { intros x t Ht. rewrite lookup_restore in Ht.
    apply fmap_Some in Ht as (t0 & Ht0 & ->). exists t0. simpl. split_and!; auto.
    destruct (st !! x) eqn:E; simpl; [by eapply Hl|by apply (wf_legal _ W)]. }
  split.
  - intros x t k Ht Hk. destruct (Hv x t Ht) as (t0 & Ht0 & E1 & E2 & E3).
    apply (wf_scope _ W x t0 k Ht0). congruence.
  - intros x t k Ht Hk. destruct (Hv x t Ht) as (t0 & Ht0 & E1 & E2 & E3).
    apply (wf_drop _ W x t0 k Ht0). congruence.
  - intros x t Ht. by destruct (Hv x t Ht) as (t0 & Ht0 & E1 & E2 & E3).
  - apply W.
  - intros x. rewrite restore_dom. apply W.
  - apply W.
Qed.

Lemma wf_with_flags m : wf m → wf (with_flags m).
Proof. intros []. by split. Qed.

Definition lates_ok (c : ctx) (m : mst) : Prop :=
  ∀ x t, m_vars m !! x = Some t → cls x = Late → x ∈ c_lates c.

Lemma lates_ok_dom c m m' :
  (∀ x, is_Some (m_vars m' !! x) → is_Some (m_vars m !! x)) →
  lates_ok c m → lates_ok c m'.
Proof.
  intros Hd H x t Ht Hx. destruct (Hd x) as [t0 Ht0]; [eauto|]. by eapply H.
Qed.

Definition stmt_ok (s : stmt) : Prop := ∀ strict cur inl c m code m',
  manage_stmt strict cur inl s m = Some (code, m') →
  calm_stmt cls c s = true → wf m → lates_ok c m → cur < m_next m →
  sstep (λ x, touches x s) cur m m' ∧ shape cur (own_decl s) m m' ∧ wf m'.

Definition stmts_ok (b : block) : Prop := ∀ strict cur inl c m code m',
  manage_stmts strict cur inl b m = Some (code, m') →
  calm_block cls c b = true → wf m → lates_ok c m → cur < m_next m →
  sstep (λ x, touches_block x b) cur m m' ∧ shape cur (own_decls b) m m' ∧ wf m'.

Definition block_ok (b : block) : Prop := ∀ strict cur inl il c m code m',
  manage_block strict inl il b m = Some (code, m') →
  calm_block cls c b = true → wf m → lates_ok c m → cur < m_next m →
  sstep (λ x, touches_block x b) cur m m' ∧
  m_scopes m' = m_scopes m ∧ m_sealed m' = m_sealed m ∧
  (∀ x, is_Some (m_vars m' !! x) ↔ is_Some (m_vars m !! x)) ∧ wf m' ∧
  (∀ x t t', m_vars m !! x = Some t → m_vars m' !! x = Some t' →
     t_drop t' = Some cur → t_drop t = Some cur).

(** States before and after the cases of a [switch]. *)
Definition cases_ok (cs : cases) : Prop := ∀ strict cur inl c acc m code m' post,
  manage_cases strict inl (capture m) cs acc m = Some (code, m', post) →
  calm_cases cls c cs = true → wf m → lates_ok c m → cur < m_next m →
  sstep (λ x, touches_cases x cs) cur m m' ∧
  m_scopes m' = m_scopes m ∧ m_sealed m' = m_sealed m ∧
  (∀ x, is_Some (m_vars m' !! x) ↔ is_Some (m_vars m !! x)) ∧ wf m' ∧
  (∀ x t, m_vars m !! x = Some t →
     ∃ t', m_vars m' !! x = Some t' ∧ t_state t' = t_state t) ∧
  (∀ x t, m_vars m !! x = Some t →
     (touches_cases x cs = false ∨ cls x = Steady) →
     acc !! x = Some (t_state t) → post !! x = Some (t_state t)).

Lemma wf_enter il m : wf m → wf (enter il m).
Proof.
  intros [W1 W2 W3 W4 W5 W6]. split; simpl; try done.
  - intros x t k H1 H2. pose proof (W1 x t k H1 H2). lia.
  - intros x t k H1 H2. pose proof (W2 x t k H1 H2). lia.
Qed.

(** Leaving a block: variables of the blocks around are as before. *)
Lemma leave_step cur inl sl m new il r c m' :
  leave cur inl sl m = (c, m') → m_scopes m = (new, il) :: r →
  m_flags m' = m_flags m ∧ m_next m' = m_next m ∧ m_sealed m' = sl ∧
  m_scopes m' = r ∧
  (∀ x, x ∉ new → m_vars m' !! x = m_vars m !! x) ∧
  (∀ x, x ∈ new → m_vars m' !! x = None).
Proof.
  unfold leave, locals. intros H Hsc. rewrite Hsc in H.
  assert (∃ m1, m_flags m1 = m_flags m ∧ m_next m1 = m_next m ∧
    m_scopes m1 = m_scopes m ∧ (∀ x, x ∉ new → m_vars m1 !! x = m_vars m !! x) ∧
    m' = Mst (forget new (m_vars m1)) (m_flags m1) (tail (m_scopes m1)) (m_next m1) sl)
    as (m1 & E1 & E2 & E3 & E4 & ->).
  { destruct (m_sealed m).
    - simplify_eq. exists m. auto.
    - destruct (drop_vars cur inl new m) as [c1 m1] eqn:E. simplify_eq.
      exists m1. apply drop_vars_step in E as [D1 D2 D3 D4 D5].
      split_and!; auto. intros x Hx. destruct (D5 x) as [?|(? & _)]; done. }
  simpl. rewrite E3, Hsc. split_and!; auto.
  - intros x Hx. rewrite lookup_forget, bool_decide_eq_false_2 by done. auto.
  - intros x Hx. by rewrite lookup_forget, bool_decide_eq_true_2.
Qed.

Lemma block_of_stmts b : stmts_ok b → block_ok b.
Proof.
  intros IH strict cur inl il c m code m' H Hcalm W HL Hc.
  rewrite manage_block_eq in H.
  apply bind_Some in H as ([c1 m1] & H1 & H2).
  destruct (leave _ _ _ m1) as [c2 m2] eqn:HLv. simplify_eq.
  destruct (IH _ _ _ _ _ _ _ H1 Hcalm (wf_enter il m W) HL) as (S & Sh & W1);
    [simpl; lia|].
  pose proof (sh_scopes _ _ _ _ Sh) as Hsc. simpl in Hsc.
  destruct (leave_step _ _ _ _ _ _ _ _ _ HLv Hsc) as (E1 & E2 & E3 & E4 & E5 & E6).
  assert (∀ x t, m_vars m !! x = Some t → x ∉ own_decls b) as Hnew.
  { intros x t Ht Hx. apply (sh_new _ _ _ _ Sh) in Hx. simpl in Hx. congruence. }
  assert (∀ x, is_Some (m_vars m' !! x) ↔ is_Some (m_vars m !! x)) as Hdom.
  { intros x. destruct (decide (x ∈ own_decls b)) as [Hx|Hx].
    - rewrite E6 by done. split; [by intros []|].
      intros [t Ht]. by destruct (Hnew x t Ht).
    - rewrite E5 by done. rewrite (sh_dom _ _ _ _ Sh). simpl. tauto. }
  assert (sstep (λ x, touches_block x b) cur m m') as S'.
  { apply (sstep_outer _ cur (m_next m)); auto.
    - rewrite E2. pose proof (ss_next _ _ _ _ S) as Hn. simpl in Hn. lia.
    - rewrite E2. pose proof (ss_next _ _ _ _ S) as Hn. simpl in Hn. lia.
    - rewrite E1. apply (ss_flags _ _ _ _ S).
    - intros x t Ht. destruct (ss_var _ _ _ _ S x t Ht) as (t1 & Ht1 & V).
      exists t1. split; [rewrite E5; eauto|].
      exists (enter il m), m1. split_and!; auto; simpl; lia. }
  split_and!; auto.
  - apply (wf_step (λ x, touches_block x b) cur [] m m'); auto.
    + apply shape_same; auto.
    + intros x t Hx. by apply elem_of_nil in Hx.
  - intros x t t' Ht Ht' Hd. rewrite E5 in Ht' by eauto.
    destruct (ss_var _ _ _ _ S x t Ht) as (t1 & Ht1 & V). simplify_eq.
    destruct (vs_drop _ _ _ _ _ _ _ V _ Hd) as [?|[?|?]]; [done|lia|]. simpl in *. lia.
Qed.

Lemma own_decl_block s : match s with SDecl _ _ => True | _ => own_decl s = [] end.
Proof. by destruct s. Qed.

Lemma lates_ok_after c s cur m m' :
  lates_ok c m → shape cur (own_decl s) m m' → lates_ok (after cls c s) m'.
Proof.
  intros HL Sh x t Ht Hx.
  destruct (proj1 (sh_dom _ _ _ _ Sh x)) as [[t0 Ht0]|Hn]; [eauto| |].
  - pose proof (HL x t0 Ht0 Hx). destruct s; simpl; auto.
    destruct (cls x0); simpl; auto. by right.
  - destruct s; simpl in *; try by apply elem_of_nil in Hn.
    apply elem_of_list_singleton in Hn as ->. rewrite Hx. simpl. by left.
Qed.

Lemma join_switch_same a : join_switch a a = a.
Proof. unfold join_switch. by rewrite decide_True. Qed.

Lemma static_all : (∀ s, stmt_ok s) ∧ (∀ b, stmts_ok b) ∧ (∀ cs, cases_ok cs).
Proof.
  apply stmt_block_cases_ind.
  - (* SDecl *)
    intros x init strict cur inl c m code m' H Hcalm W HL Hc. simpl in H.
    apply bind_Some in H as (m1 & Hd & H). apply bind_Some in H as (m2 & Hi & H).
    simplify_eq. unfold declare in Hd.
    destruct (m_vars m !! x) eqn:Ex; [done|].
    destruct (m_scopes m) as [|[xs l] r] eqn:Esc; [done|]. simplify_eq.
    set (st := if init then Assigned else Uninit) in *.
    set (m1 := Mst (<[x:=Trace st (Some cur) None]> (m_vars m)) (m_flags m)
                   ((xs ++ [x], l) :: r) (m_next m) (m_sealed m)) in *.
    assert (legal x st) as Hlx.
    { simpl in Hcalm. unfold legal. destruct init; simpl in *.
      - by destruct (cls x).
      - apply bool_decide_eq_true in Hcalm. by destruct (cls x). }
    assert (sstep (λ _, false) cur m m1) as S1.
    { split; simpl; try done; auto. intros y t Ht. exists t.
      split; [|by apply vstep_same]. rewrite lookup_insert_ne; [done|]. congruence. }
    assert (shape cur [x] m m1) as Sh1.
    { split; simpl.
      - by rewrite Esc.
      - intros y Hy. apply elem_of_list_singleton in Hy as ->. done.
      - apply NoDup_singleton.
      - intros y. rewrite elem_of_list_singleton. destruct (decide (y = x)) as [->|].
        + rewrite lookup_insert. split; [by right|by eauto].
        + rewrite lookup_insert_ne by done. tauto.
      - intros y t Hy. apply elem_of_list_singleton in Hy as ->.
        rewrite lookup_insert. by intros [= <-]. }
    assert (wf m1) as W1.
    { apply (wf_step (λ _, false) cur [x] m m1); auto.
      intros y t Hy. apply elem_of_list_singleton in Hy as ->. simpl.
      rewrite lookup_insert. intros [= <-]. done. }
    assert ((m' = m1) ∨ ∃ y, init = Some (DMove y) ∧ m' = set_state y Moved m1 ∧ cls y = Mobile)
      as [->|(y & -> & -> & Hy)].
    { destruct init as [[|y|y]|]; simplify_eq; auto.
      - left. by apply use_eq in Hi.
      - right. apply move_eq in Hi as [-> _]. exists y. split_and!; auto.
        simpl in Hcalm. apply andb_true_iff in Hcalm as [_ Hcalm].
        apply andb_true_iff in Hcalm as [_ Hcalm]. by eapply may_move_mobile. }
    + split_and!; auto. eapply sstep_weaken; [|exact S1]. done.
    + pose proof (sstep_set_mobile y Moved cur m1 Hy) as S2.
      pose proof (sstep_trans _ _ _ _ _ _ S1 S2) as S3. simpl in S3.
      split_and!; [exact S3| |].
      * apply (shape_trans (λ x, bool_decide (x = y)) cur [x] [] m m1); auto.
        apply shape_same; [done|]. intros z. apply set_state_dom.
      * apply wf_set_state; [done|]. by apply legal_mobile.
  - (* SAssign *)
    intros x src strict cur inl c m code m' H Hcalm W HL Hc. simpl in H, Hcalm.
    apply andb_true_iff in Hcalm as [Ha Hcalm].
    apply bind_Some in H as (m1 & Hi & H).
    destruct (m_vars m1 !! x) eqn:Ex; [|done].
    destruct (drop_var cur inl x m1) as [cd m2] eqn:Ed. simplify_eq.
    pose proof (sstep_assign x Assigned cur inl cd m1 m2 Ed (or_introl eq_refl)) as S2.
    assert (sstep (λ z, match src with AMove y => bool_decide (z = y) | _ => false end)
              cur m m1 ∧ wf m1 ∧ m_scopes m1 = m_scopes m ∧ m_next m1 = m_next m ∧
            (∀ z, is_Some (m_vars m1 !! z) ↔ is_Some (m_vars m !! z)))
      as (S1 & W1 & Esc & En & Hdom).
    { destruct src as [|y|y|y]; simplify_eq.
      - split_and!; auto. apply sstep_refl.
      - apply move_eq in Hi as [-> _]. apply andb_true_iff in Hcalm as [_ Hcalm].
        apply may_move_mobile in Hcalm. split_and!; auto.
        + by apply sstep_set_mobile.
        + apply wf_set_state; [done|]. by apply legal_mobile.
        + intros z. apply set_state_dom.
      - apply use_eq in Hi as ->. split_and!; auto. apply sstep_refl. }
    pose proof (drop_var_step _ _ _ _ _ _ Ed) as D.
    split_and!.
    + eapply sstep_weaken; [|exact (sstep_trans _ _ _ _ _ _ S1 S2)].
      intros z Hz. simpl in *. apply orb_false_iff in Hz as [-> ->]. done.
    + apply shape_same.
      * simpl. by rewrite (ds_scopes _ _ _ _ D).
      * intros z. rewrite set_state_dom, (dstep_dom _ _ _ _ _ D). apply Hdom.
    + apply wf_set_state; [|apply legal_assigned].
      eapply wf_dstep; [exact W1| |exact D]. by rewrite En.
  - (* SNull *)
    intros x strict cur inl c m code m' H Hcalm W HL Hc. simpl in H, Hcalm.
    apply andb_true_iff in Hcalm as [Ha Hcalm]. apply may_move_mobile in Ha.
    destruct (m_vars m !! x) eqn:Ex; [|done].
    destruct (drop_var cur inl x m) as [cd m2] eqn:Ed. simplify_eq.
    pose proof (sstep_assign x Dropped cur inl _ m m2 Ed (or_intror Ha)) as S2.
    pose proof (drop_var_step _ _ _ _ _ _ Ed) as D.
    split_and!.
    + exact S2.
    + apply shape_same.
      * simpl. by rewrite (ds_scopes _ _ _ _ D).
      * intros z. by rewrite set_state_dom, (dstep_dom _ _ _ _ _ D).
    + apply wf_set_state; [|by apply legal_mobile].
      by eapply wf_dstep.
  - (* SMove *)
    intros x strict cur inl c m code m' H Hcalm W HL Hc. simpl in H, Hcalm.
    apply may_move_mobile in Hcalm.
    apply bind_Some in H as (m1 & Hi & H). simplify_eq.
    apply move_eq in Hi as [-> _]. split_and!.
    + by apply sstep_set_mobile.
    + apply shape_same; [done|]. intros z. apply set_state_dom.
    + apply wf_set_state; [done|]. by apply legal_mobile.
  - (* SUse *)
    intros x strict cur inl c m code m' H Hcalm W HL Hc. simpl in H.
    apply bind_Some in H as (m1 & Hi & H). simplify_eq. apply use_eq in Hi as ->.
    split_and!; [apply sstep_refl|by apply shape_same|done].
  - (* SIf *)
    intros a IHa%block_of_stmts b IHb%block_of_stmts
      strict cur inl c m code m' H Hcalm W HL Hc. simpl in Hcalm.
    cbn [manage_stmt] in H.
    apply andb_true_iff in Hcalm as [Ca Cb].
    apply bind_Some in H as ([ca m1] & H1 & H). apply bind_Some in H as ([cb m2] & H2 & H).
    simplify_eq.
    destruct (IHa _ _ _ _ (nest c) _ _ _ H1 Ca W HL Hc) as (S1 & Esc1 & Es1 & Hd1 & W1 & Hk1).
    assert (wf (restore (capture m) m1)) as W1'.
    { apply wf_restore; [done|]. intros x s t Hs _. rewrite lookup_capture in Hs.
      apply fmap_Some in Hs as (t0 & Ht0 & ->). by apply (wf_legal _ W). }
    assert (lates_ok (nest c) (restore (capture m) m1)) as HL1.
    { apply (lates_ok_dom _ m); [|exact HL]. intros x. rewrite restore_dom. apply Hd1. }
    assert (cur < m_next (restore (capture m) m1)) as Hc1.
    { pose proof (ss_next _ _ _ _ S1). simpl. lia. }
    destruct (IHb _ _ _ _ (nest c) _ _ _ H2 Cb W1' HL1 Hc1) as (S2 & Esc2 & Es2 & Hd2 & W2 & Hk2).
    assert (∀ x, is_Some (m_vars (merge_update (capture m1) (capture m2) m2) !! x) ↔
      is_Some (m_vars m !! x)) as Hd3.
    { intros x. rewrite lookup_merge_update, fmap_is_Some, Hd2, restore_dom. apply Hd1. }
    split_and!.
    + eapply (sstep_if _ _ cur m m1 m2); [apply W|exact Hd1|exact S1|exact S2|done].
    + apply shape_same; [|done]. simpl. simpl in Esc2. congruence.
    + apply wf_with_flags, wf_restore; [done|].
      intros x s t Hs Ht. rewrite lookup_join, !lookup_capture, Ht in Hs.
      apply fmap_Some in Hs as (sa & Hsa & ->).
      apply fmap_Some in Hsa as (t0 & Ht0 & ->). simpl.
      apply join_legal; [by apply (wf_legal _ W1)|by apply (wf_legal _ W2)].
  - (* SLoop *)
    intros b IHb%block_of_stmts strict cur inl c m code m' H Hcalm W HL Hc.
    simpl in Hcalm. cbn [manage_stmt] in H.
    apply bind_Some in H as ([cb m1] & H1 & H). simplify_eq.
    destruct (IHb _ _ _ _ (into_loop c) _ _ _ H1 Hcalm W HL Hc) as (S1 & Esc1 & Es1 & Hd1 & W1 & Hk1).
    split_and!.
    + eapply (sstep_loop _ cur m m1); [apply W|exact S1|done].
    + apply shape_same; [done|]. intros x.
      rewrite lookup_merge_update, fmap_is_Some. apply Hd1.
    + apply wf_with_flags, wf_restore; [done|].
      intros x s t Hs Ht. rewrite lookup_join, !lookup_capture, Ht in Hs. simpl in Hs.
      simplify_eq. destruct (proj1 (Hd1 x)) as [t0 Ht0]; [eauto|]. rewrite Ht0. simpl.
      apply join_legal; [by apply (wf_legal _ W1)|by apply (wf_legal _ W)].
  - (* SBlock *)
    intros b IHb%block_of_stmts strict cur inl c m code m' H Hcalm W HL Hc.
    simpl in Hcalm. cbn [manage_stmt] in H.
    apply bind_Some in H as ([cb m1] & H1 & H). simplify_eq.
    destruct (IHb _ _ _ _ (nest c) _ _ _ H1 Hcalm W HL Hc) as (S1 & Esc1 & Es1 & Hd1 & W1 & Hk1).
    split_and!.
    + by apply sstep_with_flags.
    + by apply shape_same.
    + by apply wf_with_flags.
  - (* SSwitch *)
    intros cs IHcs strict cur inl c m code m' H Hcalm W HL Hc.
    simpl in Hcalm. cbn [manage_stmt] in H.
    apply bind_Some in H as ([[cc m1] post] & H1 & H). simplify_eq.
    destruct (IHcs _ _ _ (into_switch c) _ _ _ _ _ H1 Hcalm W HL Hc)
      as (S1 & Esc1 & Es1 & Hd1 & W1 & Hst & Hp).
    assert (∀ x t, m_vars m !! x = Some t → nonmob x →
              post !! x = Some (t_state t)) as Hnm.
    { intros x t Ht Hn. apply Hp; [done| |by rewrite lookup_capture, Ht].
      unfold nonmob in Hn. destruct (cls x) eqn:Ecx; [by right| |done]. left.
      apply (proj2 (proj2 (calm_frozen_all x)) _ _ Hcalm).
      simpl. rewrite !elem_of_app. pose proof (HL x t Ht Ecx). tauto. }
    split_and!.
    + destruct S1 as [A1 A2 A3 A4]. split; try done.
      intros x t Ht. rewrite lookup_restore.
      destruct (A4 x t Ht) as (t1 & Ht1 & V). destruct V as [a1 a2 a3 a4 a5 a6 a7 a8].
      rewrite Ht1. simpl. eexists. split; [done|].
      split; simpl; auto.
      * intros Hl. destruct (decide (cls x = Mobile)); [by apply legal_mobile|].
        by rewrite (Hnm x t Ht).
      * intros Hn _ Ht'. by rewrite (Hnm x t Ht).
      * intros Hn _ Ht'. by rewrite (Hnm x t Ht).
      * intros Htc. rewrite (Hp x t Ht); [done|by left|]. by rewrite lookup_capture, Ht.
      * intros Hn Hl Hd Hu. destruct (Hst x t Ht) as (t1' & ? & E). simplify_eq.
        rewrite (Hnm x t Ht Hn) in Hu. simpl in Hu.
        apply a7; auto. by rewrite E.
    + apply shape_same; [done|]. intros x. rewrite restore_dom. apply Hd1.
    + apply wf_restore; [done|]. intros x s t Hs Ht.
      destruct (decide (cls x = Mobile)) as [|Hn]; [by apply legal_mobile|].
      destruct (proj1 (Hd1 x)) as [t0 Ht0]; [eauto|].
      rewrite (Hnm x t0 Ht0 Hn) in Hs. simplify_eq. by apply (wf_legal _ W).
  - (* SBreak *)
    intros strict cur inl c m code m' H Hcalm W HL Hc. simpl in H.
    destruct (seal cur inl false m) as [cs m1] eqn:E. simplify_eq.
    by eapply seal_step.
  - (* SContinue *)
    intros strict cur inl c m code m' H Hcalm W HL Hc. simpl in H.
    destruct (seal cur inl false m) as [cs m1] eqn:E. simplify_eq.
    by eapply seal_step.
  - (* SReturn *)
    intros r strict cur inl c m code m' H Hcalm W HL Hc. simpl in H, Hcalm.
    apply andb_true_iff in Hcalm as [_ Hcalm].
    apply bind_Some in H as ([k m1] & Hr & H).
    destruct (seal cur inl true m1) as [cs m2] eqn:E. simplify_eq.
    destruct r as [| |x]; simplify_eq; [by eapply seal_step|by eapply seal_step|].
    apply bind_Some in Hr as (m2 & Hi & Hr). simplify_eq.
    apply move_eq in Hi as [-> _]. apply may_move_mobile in Hcalm.
    assert (wf (set_state x Moved m)) as W1.
    { apply wf_set_state; [done|]. by apply legal_mobile. }
    pose proof (sstep_set_mobile x Moved cur m Hcalm) as S1.
    destruct (seal_step _ _ _ _ _ _ E W1 Hc) as (S2 & Sh2 & W2).
    split_and!; [| |done].
    + eapply sstep_weaken; [|exact (sstep_trans _ _ _ _ _ _ S1 S2)].
      intros z Hz. simpl in *. by rewrite Hz.
    + apply (shape_trans (λ _, false) cur [] [] m (set_state x Moved m)); auto.
      apply shape_same; [done|]. intros z. apply set_state_dom.
  - (* BNil *)
    intros strict cur inl c m code m' H Hcalm W HL Hc. simpl in H. simplify_eq.
    split_and!; [apply sstep_refl|by apply shape_same|done].
  - (* BCons *)
    intros s IHs b IHb strict cur inl c m code m' H Hcalm W HL Hc.
    cbn [manage_stmts] in H. simpl in Hcalm. apply andb_true_iff in Hcalm as [C1 C2].
    apply bind_Some in H as ([c1 m1] & H1 & H). apply bind_Some in H as ([c2 m2] & H2 & H).
    simplify_eq.
    destruct (IHs _ _ _ _ _ _ _ H1 C1 W HL Hc) as (S1 & Sh1 & W1).
    assert (cur < m_next m1) as Hc1.
    { pose proof (ss_next _ _ _ _ S1). lia. }
    destruct (IHb _ _ _ _ _ _ _ H2 C2 W1 (lates_ok_after _ _ _ _ _ HL Sh1) Hc1)
      as (S2 & Sh2 & W2).
    split_and!; [|by eapply shape_trans|done].
    exact (sstep_trans _ _ _ _ _ _ S1 S2).
  - (* CNil *)
    intros strict cur inl c acc m code m' post H Hcalm W HL Hc. simpl in H. simplify_eq.
    split_and!; auto; [apply sstep_refl|eauto].
  - (* CCons *)
    intros b IHb%block_of_stmts cs IHcs strict cur inl c acc m code m' post
      H Hcalm W HL Hc.
    cbn [manage_cases] in H. simpl in Hcalm. apply andb_true_iff in Hcalm as [C1 C2].
    apply bind_Some in H as ([c1 m1] & H1 & H).
    apply bind_Some in H as ([[c2 m2] acc2] & H2 & H). simplify_eq.
    destruct (IHb _ _ _ _ c _ _ _ H1 C1 W HL Hc) as (S1 & Esc1 & Es1 & Hd1 & W1 & Hk1).
    set (m1r := restore (capture m) m1) in *.
    assert (∀ x t, m_vars m !! x = Some t → ∃ t1, m_vars m1 !! x = Some t1 ∧
      m_vars m1r !! x = Some (Trace (t_state t) (t_scope t1) (t_drop t1)) ∧
      vstep x (touches_block x b) cur m m1 t t1) as Hr.
    { intros x t Ht. destruct (ss_var _ _ _ _ S1 x t Ht) as (t1 & Ht1 & V).
      exists t1. split_and!; [done| |done]. unfold m1r.
      by rewrite lookup_restore, Ht1, lookup_capture, Ht. }
    assert (capture m1r = capture m) as Ecap.
    { apply map_eq. intros x. rewrite !lookup_capture.
      destruct (m_vars m !! x) as [t|] eqn:Ht.
      - destruct (Hr x t Ht) as (t1 & _ & -> & _). done.
      - destruct (m_vars m1r !! x) eqn:E1; [|done]. exfalso.
        assert (is_Some (m_vars m !! x)) as [? ?]; [|congruence].
        apply Hd1. unfold m1r in E1. rewrite <- (restore_dom (capture m)). eauto. }
    assert (wf m1r) as W1'.
    { apply wf_restore; [done|]. intros x s t Hs _. rewrite lookup_capture in Hs.
      apply fmap_Some in Hs as (t0 & Ht0 & ->). by apply (wf_legal _ W). }
    assert (∀ x, is_Some (m_vars m1r !! x) ↔ is_Some (m_vars m !! x)) as Hd1'.
    { intros x. unfold m1r. rewrite restore_dom. apply Hd1. }
    assert (lates_ok c m1r) as HL1.
    { apply (lates_ok_dom _ m); [|exact HL]. intros x. apply Hd1'. }
    assert (cur < m_next m1r) as Hc1.
    { pose proof (ss_next _ _ _ _ S1). simpl. lia. }
    rewrite <- Ecap in H2.
    destruct (IHcs _ _ _ _ _ _ _ _ _ H2 C2 W1' HL1 Hc1)
      as (S2 & Esc2 & Es2 & Hd2 & W2 & Hst & Hp).
    assert (sstep (λ x, touches_block x b) cur m m1r) as S1'.
    { destruct S1 as [A1 A2 A3 A4]. split; try done.
      intros x t Ht. destruct (Hr x t Ht) as (t1 & Ht1 & Hr1 & V).
      eexists. split; [exact Hr1|]. destruct V as [a1 a2 a3 a4 a5 a6 a7 a8].
      split; simpl; auto.
      intros Hn Hl Hd Hu Hs. by apply (Hk1 x t t1). }
    split_and!.
    + exact (sstep_trans _ _ _ _ _ _ S1' S2).
    + simpl in *. congruence.
    + simpl in *. congruence.
    + intros x. rewrite Hd2. apply Hd1'.
    + done.
    + intros x t Ht. destruct (Hr x t Ht) as (t1 & _ & Hr1 & _).
      by destruct (Hst x _ Hr1) as (t2 & ? & ?); eauto.
    + intros x t Ht Hor Hacc. destruct (Hr x t Ht) as (t1 & Ht1 & Hr1 & V).
      apply (Hp x _ Hr1).
      * destruct Hor as [Hor|?]; [left|by right].
        by apply orb_false_iff in Hor as [? ?].
      * rewrite lookup_join, Hacc, lookup_capture, Ht1. simpl. f_equal.
        assert (t_state t1 = t_state t) as ->; [|apply join_switch_same].
        pose proof (wf_legal _ W x t Ht) as Hl.
        destruct Hor as [Hor|Hs].
        -- apply orb_false_iff in Hor as [? ?]. by apply (vs_same _ _ _ _ _ _ _ V).
        -- pose proof (wf_legal _ W1 x t1 Ht1) as Hl1.
           unfold legal in Hl, Hl1. rewrite Hs in Hl, Hl1. congruence.
Qed.
End with_class.
