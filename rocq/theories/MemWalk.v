(** * Control flow, and the whole of a function *)
From stdpp Require Import numbers list gmap.
From Verif Require Import MemModel MemSpec MemEval MemStatic MemProofs MemFlow.

Section with_class.
Context (cls : nat → class) (F : gset nat).

Notation nonmob := (nonmob cls).
Notation legal := (legal cls).
Notation fin := (flat_map (finalize F)).
Notation vrel := (vrel cls F).
Notation inv := (inv cls F).
Notation post := (post cls F).
Notation jumped := (jumped cls F).
Notation cok := (cok cls).
Notation dok := (dok cls).
Notation frame := (frame cls).
Notation stmt_dyn := (stmt_dyn cls F).

(** ** Jumps *)

Lemma fin_app a b : fin (a ++ b) = fin a ++ fin b.
Proof. apply flat_map_app. Qed.

(** Releasing the variables of [xs], of which [ys] needs it. *)
Lemma drop_list cur inl xs m c m' own rt d l o d' :
  drop_vars cur inl xs m = (c, m') → NoDup xs →
  (∀ x, x ∈ xs → is_Some (m_vars m !! x)) → owning own rt d →
  (∀ x t, x ∈ xs → m_vars m !! x = Some t → needs_drop cur inl t = true →
     (x ∉ F → is_Some (own !! x) ∨ d_store d !! x = None) ∧
     (x ∈ F → d_flags d !! x = Some (held own x))) →
  (∀ x t, x ∈ xs → m_vars m !! x = Some t → is_Some (own !! x) →
     needs_drop cur inl t = true) →
  ∀ c', c' = c ∨ c' = reverse c →
  execs (fin c' ++ l) d o d' →
  ∃ d1 own', owning own' rt d1 ∧ execs l d1 o d' ∧
    (∀ x, x ∈ xs → own' !! x = None) ∧
    (∀ x, x ∉ xs → own' !! x = own !! x) ∧
    d_store d1 = d_store d ∧ d_ret d1 = d_ret d ∧
    (∀ x, x ∉ xs → d_flags d1 !! x = d_flags d !! x).
Proof.
  intros H Hn Hd O H1 H2 c' Hc' He.
  destruct (drop_vars_code _ _ _ _ _ _ H Hn Hd) as (ys & -> & Hys & Hiff).
  assert (∃ zs, c' = TDrop <$> zs ∧ NoDup zs ∧ ∀ x, x ∈ zs ↔ x ∈ ys) as (zs & -> & Hzs & Hzy).
  { destruct Hc' as [->| ->]; [exists ys; done|]. exists (reverse ys). split_and!.
    - by rewrite <- fmap_reverse.
    - by rewrite reverse_Permutation.
    - intros x. apply elem_of_reverse. }
  assert (∀ o1 d1, execs (fin (TDrop <$> zs)) d o1 d1 → o1 = Fell ∧ ∃ own', owning own' rt d1 ∧
    (∀ x, x ∈ zs → own' !! x = None) ∧ (∀ x, x ∉ zs → own' !! x = own !! x) ∧
    d_store d1 = d_store d ∧ d_ret d1 = d_ret d ∧
    (∀ x, x ∈ zs → x ∈ F → d_flags d1 !! x = Some false) ∧
    (∀ x, x ∉ zs → d_flags d1 !! x = d_flags d !! x)) as Hx.
  { intros o1 d1. apply drops_exec; auto.
    - intros x Hx. apply Hzy, Hiff in Hx as (Hx & t & Ht & Hnd). by apply (H1 x t).
    - intros x Hx. apply Hzy, Hiff in Hx as (Hx & t & Ht & Hnd). by apply (H1 x t). }
  apply execs_app in He as [[Ho He]|(d1 & He & Hl)].
  - exfalso. apply Ho. by apply (Hx o d').
  - destruct (Hx _ _ He) as (_ & own' & A1 & A2 & A3 & A4 & A5 & A6 & A7).
    exists d1, own'. split_and!; auto.
    + intros x Hxs. destruct (decide (x ∈ zs)) as [|Hnz]; [auto|]. rewrite A3 by done.
      destruct (own !! x) eqn:E; [|done]. exfalso. apply Hnz, Hzy, Hiff.
      split; [done|]. destruct (Hd x Hxs) as [t Ht]. exists t. split; [done|].
      eapply H2; eauto.
    + intros x Hxs. apply A3. intros Hz. apply Hzy, Hiff in Hz as [? _]. done.
    + intros x Hxs. apply A7. intros Hz. apply Hzy, Hiff in Hz as [? _]. done.
Qed.

Lemma jump_vars_true sc : jump_vars true sc = concat (fst <$> sc).
Proof. induction sc as [|[xs l] r IH]; simpl; [done|]. by rewrite IH. Qed.

Lemma jump_vars_sub sc x : x ∈ jump_vars false sc → x ∈ concat (fst <$> sc).
Proof.
  induction sc as [|[xs l] r IH]; simpl; [done|].
  rewrite !elem_of_app. intros [?|Hx]; [by left|right].
  destruct l; [by apply elem_of_nil in Hx|auto].
Qed.

Lemma jump_vars_nodup sc : NoDup (concat (fst <$> sc)) → NoDup (jump_vars false sc).
Proof.
  induction sc as [|[xs l] r IH]; simpl; [done|].
  rewrite !NoDup_app. intros (H1 & H2 & H3). split_and!; [done| |].
  - intros x Hx Hj. apply (H2 x Hx). destruct l; [by apply elem_of_nil in Hj|].
    by apply jump_vars_sub.
  - destruct l; [constructor|auto].
Qed.

Lemma vrel_base base base' own d x s :
  base ⊆ base' → vrel base own d x s → vrel base' own d x s.
Proof.
  intros Hb [V1 V2 V3 V4 V5]. split; auto. intros H.
  destruct (V2 H) as [?|[?|(?&?&?)]]; auto. right. right. set_solver.
Qed.

Lemma legal_nonmob x s : nonmob x → legal x s → s = Uninit ∨ s = Assigned ∨ s = Maybe.
Proof.
  unfold MemStatic.nonmob, MemStatic.legal. intros Hn.
  destruct (cls x); [by auto| |done]. intros [? ?]. destruct s; auto; done.
Qed.

(** Variables that a release is generated for are fit for it. *)
Lemma needs_null cur inl base m own d x t :
  wf cls m → inv base m own d →
  m_vars m !! x = Some t → needs_drop cur inl t = true →
  (inl = true → cls x = Mobile → t_scope t = Some cur) → x ∉ F →
  is_Some (own !! x) ∨ d_store d !! x = None.
Proof.
  intros W I Ht Hn Hsc HF.
  assert (st m x = Some (t_state t)) as Hst by (unfold st; by rewrite Ht).
  pose proof (inv_vrel _ _ _ _ _ _ _ _ I Hst) as V.
  destruct (decide (cls x = Mobile)) as [Hm|Hm].
  - unfold needs_drop in Hn. destruct (t_state t) eqn:E.
    2: { left. by apply V. }
    2: { exfalso. apply HF. by apply V. }
    all: exfalso; unfold in_child_loop in Hn;
      apply andb_true_iff in Hn as [Hn _]; apply andb_true_iff in Hn as [-> Hn];
      apply bool_decide_eq_true in Hn; apply Hn; auto.
  - destruct (legal_nonmob x _ Hm (wf_legal _ _ W _ _ Ht)) as [E|[E|E]].
    + right. by apply V.
    + left. by apply V.
    + exfalso. apply HF. by apply V.
Qed.

Lemma owned_needs cur inl base m own d x t :
  inv base m own d → m_vars m !! x = Some t → x ∉ base → is_Some (own !! x) →
  needs_drop cur inl t = true.
Proof.
  intros I Ht Hb Ho.
  assert (st m x = Some (t_state t)) as Hst by (unfold st; by rewrite Ht).
  pose proof (inv_vrel _ _ _ _ _ _ _ _ I Hst) as V.
  destruct (vr_own _ _ _ _ _ _ _ V Ho) as [E|[E|(_ & ? & _)]]; [| |done];
    unfold needs_drop; by rewrite E.
Qed.

Lemma is_nil_true l : is_nil l = true → l = [].
Proof. by destruct l. Qed.

Lemma jump_common (o0 : outcome) (ts : tstmt) cur inl c base tch m m1 cd own d o d' :
  (o0 = Broke ∧ ts = TBreak) ∨ (o0 = Continued ∧ ts = TContinue) →
  seal cur inl false m = (cd, m1) → c_loop c = true → c_above c = [] →
  wf cls m → cok c cur inl base m → inv base m own d →
  execs (fin (cd ++ [ts])) d o d' →
  o = o0 ∧ jumped base tch m m1 own d d'.
Proof.
  intros Ho Hse Hl Ha W K I He.
  pose proof (ck_loop _ _ _ _ _ _ K) as El. rewrite Hl in El. subst inl.
  unfold seal in Hse. destruct (drop_vars _ _ _ m) as [c1 m2] eqn:Ed. simplify_eq.
  pose proof (ck_jump _ _ _ _ _ _ K eq_refl) as HJ.
  rewrite fin_app in He.
  eapply drop_list in He as (d1 & own' & O & He & A1 & A2 & A3 & A4 & A5); [|exact Ed| | | | | |by left].
  - assert (o = o0 ∧ d' = d1) as [-> ->].
    { destruct Ho as [[-> ->]|[-> ->]]; simpl in He;
        destruct He as [[_ [-> ->]]|(d2 & [? _] & _)]; done. }
    split; [done|].
    assert (∀ x, x ∈ base → x ∉ jump_vars false (m_scopes m)) as Hbj.
    { intros x Hx Hj. by apply HJ in Hj as [_ ?]. }
    assert (∀ x, x ∈ base → same_at x own d own' d1) as Hsame.
    { intros x Hx. apply same_at_ext.
      - apply A2. auto.
      - by rewrite A3.
      - apply A5. auto. }
    exists own'. split_and!.
    + done.
    + rewrite A4. by apply (inv_ret _ _ _ _ _ _ I).
    + intros x Hx. destruct (decide (x ∈ base)) as [|Hb]; [done|]. exfalso.
      destruct (decide (x ∈ jump_vars false (m_scopes m))) as [Hj|Hj].
      * rewrite A1 in Hx by done. by destruct Hx.
      * rewrite A2 in Hx by done. apply Hj, HJ. split; [|done].
        apply st_is_Some. by apply (inv_own _ _ _ _ _ _ _ I).
    + intros x Hx HxF. destruct (Hsame x Hx) as (E1 & _ & E3). rewrite E3.
      destruct (ck_base _ _ _ _ _ _ K x Hx) as [t Ht].
      assert (st m x = Some (t_state t)) as Hst by (unfold st; by rewrite Ht).
      rewrite (vr_flag _ _ _ _ _ _ _ (inv_vrel _ _ _ _ _ _ _ _ I Hst) HxF).
      unfold held. by rewrite E1.
    + intros x t Hx Ht Hn Hs. destruct (Hsame x Hx) as (E1 & _ & _). rewrite E1.
      assert (st m x = Some (t_state t)) as Hst by (unfold st; by rewrite Ht).
      by apply (vr_asg _ _ _ _ _ _ _ (inv_vrel _ _ _ _ _ _ _ _ I Hst)).
    + intros x t' Hx _ _ _. auto.
  - apply jump_vars_nodup, W.
  - intros x Hx. by apply HJ.
  - by apply (inv_owning _ _ _ _ _ _ I).
  - intros x t Hx Ht Hn. apply HJ in Hx as [_ Hb]. split.
    + eapply needs_null; eauto. intros _ Hm.
      destruct (ck_mobile _ _ _ _ _ _ K x t Ht Hm) as [[_ Hin]|[? _]]; [|done].
      rewrite Ha, app_nil_r in Hin. by eapply (ck_here _ _ _ _ _ _ K).
    + assert (st m x = Some (t_state t)) as Hst by (unfold st; by rewrite Ht).
      apply (inv_vrel _ _ _ _ _ _ _ _ I Hst).
  - intros x t Hx Ht Hox. apply HJ in Hx as [_ Hb]. by eapply owned_needs.
Qed.

Lemma dyn_break : stmt_dyn SBreak.
Proof.
  intros cur inl c base m code m' own d o d' H Hcalm W K D Hc HF Hs I He.
  cbn [manage_stmt calm_stmt] in *. destruct (seal cur inl false m) as [cd m1] eqn:Ese.
  simplify_eq. apply andb_true_iff in Hcalm as [Hcalm Ha].
  apply andb_true_iff in Hcalm as [Hl Hsw]. apply negb_true_iff in Hsw.
  apply is_nil_true in Ha.
  eapply jump_common in He as [-> HJ]; eauto. simpl. eauto.
Qed.

Lemma dyn_continue : stmt_dyn SContinue.
Proof.
  intros cur inl c base m code m' own d o d' H Hcalm W K D Hc HF Hs I He.
  cbn [manage_stmt calm_stmt] in *. destruct (seal cur inl false m) as [cd m1] eqn:Ese.
  simplify_eq. apply andb_true_iff in Hcalm as [Hl Ha]. apply is_nil_true in Ha.
  eapply jump_common in He as [-> HJ]; eauto. simpl. eauto.
Qed.

(** Returning: [keep] is the variable returned, if any. *)
Lemma return_common cur inl c base m mm m1 cd own rt d own1 d1 o d' (keep : nat → Prop) :
  seal cur inl true mm = (cd, m1) →
  (inl = true → c_above c = [] ∧ c_outer c = []) →
  wf cls m → cok c cur inl base m → dok cur base m → m_sealed m = false →
  inv base m own d →
  m_scopes mm = m_scopes m →
  (∀ x t, m_vars m !! x = Some t → ¬ keep x → m_vars mm !! x = Some t) →
  (∀ x t, m_vars m !! x = Some t → keep x → ∃ t', m_vars mm !! x = Some t' ∧
     t_state t' = Moved ∧ t_scope t' = t_scope t ∧ cls x = Mobile ∧ own1 !! x = None) →
  (∀ x, keep x ∨ ¬ keep x) →
  owning own1 rt d1 → d_store d1 = d_store d → d_flags d1 = d_flags d → d_ret d1 = rt →
  (∀ x, ¬ keep x → own1 !! x = own !! x) →
  (∀ x, keep x → own1 !! x = None) →
  execs (fin (cd ++ [TReturn])) d1 o d' →
  o = Returned ∧ ret_ok d'.
Proof.
  intros Hse Hnil W K D Hs I Hsc Hk1 Hk2 Hkd O1 Est Efl Ert Ho1 Ho2 He.
  unfold seal in Hse. destruct (drop_vars _ _ _ mm) as [c1 m2] eqn:Ed. simplify_eq.
  assert (∀ x, x ∈ jump_vars true (m_scopes mm) ↔ is_Some (m_vars m !! x)) as HJ.
  { intros x. rewrite Hsc, jump_vars_true. apply W. }
  assert (∀ x t, m_vars m !! x = Some t → inl = true → cls x = Mobile →
    t_scope t = Some cur) as Hcur.
  { intros x t Ht -> Hm. destruct (Hnil eq_refl) as [Ha Hou].
    destruct (ck_mobile _ _ _ _ _ _ K x t Ht Hm) as [[Hb Hin]|(_ & Hin & _)].
    - rewrite Ha, app_nil_r in Hin. by eapply (ck_here _ _ _ _ _ _ K).
    - rewrite Hou in Hin. by apply elem_of_nil in Hin. }
  assert (∀ x t', m_vars mm !! x = Some t' → is_Some (m_vars m !! x) → keep x →
    needs_drop cur inl t' = false) as Hkn.
  { intros x t' Ht' [t Ht] Hk. destruct (Hk2 x t Ht Hk) as (t0 & Ht0 & E1 & E2 & E3 & _).
    simplify_eq. unfold needs_drop. rewrite E1. unfold in_child_loop. destruct inl; [|done].
    rewrite E2, (Hcur x t Ht eq_refl E3). by rewrite bool_decide_eq_false_2 by auto. }
  rewrite fin_app in He.
  eapply (drop_list _ _ _ _ _ _ own1 (d_ret d1)) in He
    as (d2 & own' & O & He & A1 & A2 & A3 & A4 & A5);
    [|exact Ed| | | | | |by left].
  - simpl in He. destruct He as [[_ [-> ->]]|(d3 & [? _] & _)]; [|done].
    split; [done|]. intros i. rewrite (ow_live _ _ _ O), A4. split.
    + intros [[x Hx]|?]; [|congruence]. exfalso.
      destruct (decide (x ∈ jump_vars true (m_scopes mm))) as [Hj|Hj].
      * rewrite A1 in Hx by done. done.
      * rewrite A2 in Hx by done.
        destruct (Hkd x) as [Hk|Hk]; [by rewrite Ho2 in Hx|].
        rewrite Ho1 in Hx by done. apply Hj, HJ, st_is_Some.
        apply (inv_own _ _ _ _ _ _ _ I). eauto.
    + intros Hr. right. congruence.
  - rewrite Hsc, jump_vars_true. apply W.
  - intros x Hx. apply HJ in Hx as [t Ht].
    destruct (Hkd x) as [Hk|Hk]; [|eauto].
    destruct (Hk2 x t Ht Hk) as (t' & Ht' & _). eauto.
  - done.
  - intros x t' Hx Ht' Hn. apply HJ in Hx as [t Ht].
    destruct (Hkd x) as [Hk|Hk]; [by rewrite (Hkn x t') in Hn; eauto|].
    pose proof (Hk1 x t Ht Hk). simplify_eq. rewrite Ho1, Est, Efl by done. split.
    + eapply needs_null; eauto.
    + assert (st m x = Some (t_state t')) as Hst by (unfold st; by rewrite Ht).
      unfold held. rewrite Ho1 by done. 
      apply (inv_vrel _ _ _ _ _ _ _ _ I Hst).
  - intros x t' Hx Ht' Hox. apply HJ in Hx as [t Ht].
    destruct (Hkd x) as [Hk|Hk]; [rewrite Ho2 in Hox by done; by destruct Hox|].
    pose proof (Hk1 x t Ht Hk). simplify_eq. rewrite Ho1 in Hox by done.
    destruct (decide (x ∈ base)) as [Hb|Hb]; [|by eapply owned_needs].
    assert (st m x = Some (t_state t')) as Hst by (unfold st; by rewrite Ht).
    pose proof (inv_vrel _ _ _ _ _ _ _ _ I Hst) as V.
    destruct (vr_own _ _ _ _ _ _ _ V Hox) as [E|[E|(E & _ & Hnm)]];
      unfold needs_drop; rewrite E; [done|done|].
    unfold in_child_loop.
    rewrite (bool_decide_eq_true_2 (t_scope t' ≠ Some cur))
      by (by eapply (ck_out _ _ _ _ _ _ K)).
    rewrite (bool_decide_eq_true_2 (t_drop t' ≠ Some cur)) by (by eapply D).
    destruct inl; [done|]. rewrite (ck_noloop _ _ _ _ _ _ K eq_refl) in Hb. set_solver.
Qed.

Lemma dyn_return r : stmt_dyn (SReturn r).
Proof.
  intros cur inl c base m code m' own d o d' H Hcalm W K D Hc HF Hs I He.
  cbn [manage_stmt calm_stmt] in *.
  apply andb_true_iff in Hcalm as [Hp Hr].
  assert (inl = true → c_above c = [] ∧ c_outer c = []) as Hnil.
  { intros ->. rewrite (ck_loop _ _ _ _ _ _ K) in Hp. simpl in Hp.
    apply andb_true_iff in Hp as [? ?]. split; by apply is_nil_true. }
  pose proof (inv_owning _ _ _ _ _ _ I) as O. pose proof (inv_ret _ _ _ _ _ _ I) as R.
  apply bind_Some in H as ([k mm] & Hk & H).
  destruct (seal cur inl true mm) as [cd m1] eqn:Ese. simplify_eq.
  destruct r as [| |x]; simplify_eq.
  - cbn [app] in He.
    eapply (return_common _ _ _ _ _ _ _ _ own None d own d o d' (λ _, False)) in He as [-> Hok];
      eauto; try done.
  - cbn [app flat_map finalize] in He.
    eapply execs_prim in He; [|done|done].
    eapply (return_common _ _ _ _ _ _ _ _ own (Some (d_next d)) d own _ o d' (λ _, False))
      in He as [-> Hok]; eauto; try done.
    by apply owning_keepnew.
  - apply bind_Some in Hk as (m2 & Hm & Hk). simplify_eq.
    apply move_eq in Hm as [-> Hu]. apply use_strict in Hu as [_ Hx].
    destruct (inv_owned _ _ _ _ _ _ _ I Hx) as [i Hi].
    pose proof (may_move_mobile _ _ _ Hr) as Hmob.
    cbn [app flat_map finalize] in He.
    eapply execs_prim in He; [|done|simpl; rewrite (owning_read _ _ _ _ _ O Hi); done].
    eapply (return_common _ _ _ _ _ _ _ _ own (Some i) d (delete x own) _ o d' (λ y, y = x))
      in He as [-> Hok]; eauto; try done.
    + intros y t Ht Hy. rewrite lookup_set_state. by rewrite decide_False.
    + intros y t Ht ->. rewrite lookup_set_state, decide_True, Ht by done. simpl.
      eexists. split_and!; [done|done|done|done|apply lookup_delete].
    + intros y. destruct (decide (y = x)); auto.
    + by apply owning_keep.
    + intros y Hy. by rewrite lookup_delete_ne.
    + intros y ->. apply lookup_delete.
Qed.

(** ** Sequences and blocks *)

(** States after [m1] that are still unassigned in [m'] were so in [m1]. *)
Definition back (m m1 m' : mst) : Prop :=
  ∀ x t', is_Some (m_vars m !! x) → m_vars m' !! x = Some t' →
    ∃ t1, m_vars m1 !! x = Some t1 ∧
      (nonmob x → t_state t' = Uninit → t_state t1 = Uninit).

Lemma frame_mono P tch tch' m m1 m' own d own' d' :
  frame P tch m m1 own d own' d' → back m m1 m' →
  (∀ x, tch' x = false → tch x = false) →
  frame P tch' m m' own d own' d'.
Proof.
  intros H Hb Ht x t' HP Hm Ht' Hc. destruct (Hb x t' Hm Ht') as (t1 & Ht1 & Hu).
  apply (H x t1); auto. destruct Hc as [?|[? ?]]; auto.
Qed.

Lemma jumped_mono base tch tch' m m1 m' own d d' :
  jumped base tch m m1 own d d' → back m m1 m' →
  (∀ x, tch' x = false → tch x = false) →
  jumped base tch' m m' own d d'.
Proof.
  intros (own' & H1 & H2 & H3 & H4 & H5 & H6) Hb Ht. exists own'. split_and!; auto.
  by eapply frame_mono.
Qed.

Lemma post_mono sl sl' c c' base tch tch' m m1 m' own d o d' :
  post sl c base tch m m1 own d o d' → o ≠ Fell → back m m1 m' →
  (∀ x, tch' x = false → tch x = false) →
  c_loop c' = c_loop c → (c_switch c = false → c_switch c' = false) →
  post sl' c' base tch' m m' own d o d'.
Proof.
  intros H Ho Hb Ht El Es. destruct o; simpl in *; [done| | |done|done].
  - destruct H as (? & ? & ?). split_and!; [congruence|auto|by eapply jumped_mono].
  - destruct H as (? & ?). split_and!; [congruence|by eapply jumped_mono].
Qed.

Lemma back_step tch cur m m1 m' :
  (∀ x, is_Some (m_vars m !! x) → is_Some (m_vars m1 !! x)) → wf cls m1 →
  sstep cls tch cur m1 m' → back m m1 m'.
Proof.
  intros Hd W S x t' Hm Ht'. destruct (Hd x Hm) as [t1 Ht1]. exists t1. split; [done|].
  intros Hn Hu. destruct (ss_var _ _ _ _ _ S x t1 Ht1) as (t2 & Ht2 & V). simplify_eq.
  destruct (decide (t_state t1 = Uninit)) as [|Hne]; [done|]. exfalso.
  by apply (vs_set _ _ _ _ _ _ _ _ V Hn (wf_legal _ _ W _ _ Ht1) Hne).
Qed.

Lemma frame_seq (P : nat → Prop) t1 t2 m m1 m' own d own1 d1 own' d' :
  frame (λ _, True) t1 m m1 own d own1 d1 → frame P t2 m1 m' own1 d1 own' d' →
  back m m1 m' →
  frame P (λ x, t1 x || t2 x) m m' own d own' d'.
Proof.
  intros H1 H2 Hb x t' HP Hm Ht' Hc.
  destruct (Hb x t' Hm Ht') as (tt & Htt & Hu).
  eapply same_at_trans.
  - apply (H1 x tt); auto. destruct Hc as [Hc|[? ?]]; [|by auto].
    apply orb_false_iff in Hc as [? ?]. by left.
  - apply (H2 x t'); eauto. destruct Hc as [Hc|?]; [|by auto].
    apply orb_false_iff in Hc as [? ?]. by left.
Qed.

Definition stmts_dyn (b : block) : Prop := ∀ cur inl c base m code m' own d o d',
  manage_stmts true cur inl b m = Some (code, m') →
  calm_block cls c b = true → wf cls m → cok c cur inl base m → dok cur base m →
  cur < m_next m → m_flags m' ⊆ F → m_sealed m = false → inv base m own d →
  execs (fin code) d o d' →
  post (m_sealed m') c base (λ x, touches_block x b) m m' own d o d'.

Lemma dyn_nil : stmts_dyn BNil.
Proof.
  intros cur inl c base m code m' own d o d' H Hcalm W K D Hc HF Hs I He.
  simpl in H. simplify_eq. destruct He as [-> ->]. split; [done|].
  exists own. split; [done|]. intros x t' _ _ _ _. apply same_at_refl.
Qed.

Lemma after_flags c s : c_loop (after cls c s) = c_loop c ∧
  c_switch (after cls c s) = c_switch c.
Proof. destruct s; simpl; try done. by destruct (cls x). Qed.

Lemma dyn_cons s b : stmt_dyn s → stmts_dyn b → stmts_dyn (BCons s b).
Proof.
  intros IHs IHb cur inl c base m code m' own d o d' H Hcalm W K D Hc HF Hs I He.
  cbn [manage_stmts calm_block] in *. apply andb_true_iff in Hcalm as [Hcs Hcb].
  apply bind_Some in H as ([c1 m1] & H1 & H).
  apply bind_Some in H as ([c2 m2] & H2 & H). simplify_eq.
  destruct (proj1 (static_all cls) s _ _ _ _ _ _ _ H1 Hcs W (ck_lates _ _ _ _ _ _ K) Hc)
    as (S1 & Sh1 & W1).
  assert (cur < m_next m1) as Hc1 by (pose proof (ss_next _ _ _ _ _ S1); lia).
  pose proof (cok_after _ _ _ _ _ _ _ _ _ K W S1 Sh1) as K1.
  destruct (proj1 (proj2 (static_all cls)) b _ _ _ _ _ _ _ H2 Hcb W1
    (ck_lates _ _ _ _ _ _ K1) Hc1) as (S2 & Sh2 & W2).
  assert (∀ x, is_Some (m_vars m !! x) → is_Some (m_vars m1 !! x)) as Hdom.
  { intros x Hx. apply (sh_dom _ _ _ _ Sh1). by left. }
  pose proof (back_step _ _ m m1 m' Hdom W1 S2) as Hb.
  destruct (after_flags c s) as [El Esw].
  rewrite fin_app in He. apply execs_app in He as [[Ho He]|(d1 & He1 & He2)].
  - eapply post_mono; [eapply IHs; eauto|done|done| |done|done].
    + etrans; [|exact HF]. apply S2.
    + intros x Hx. simpl in Hx. by apply orb_false_iff in Hx as [? _].
  - assert (m_flags m1 ⊆ F) as HF1 by (etrans; [apply S2|done]).
    destruct (IHs _ _ _ _ _ _ _ _ _ _ _ H1 Hcs W K D Hc HF1 Hs I He1)
      as (Hs1 & own1 & I1 & Fr1).
    pose proof (dok_step _ _ _ _ _ _ D W (ck_base _ _ _ _ _ _ K) S1) as D1.
    pose proof (IHb _ _ _ _ _ _ _ _ _ _ _ H2 Hcb W1 K1 D1 Hc1 HF Hs1 I1 He2) as P.
    assert (∀ x t, m_vars m !! x = Some t → nonmob x → t_state t = Assigned →
      ∃ t1, m_vars m1 !! x = Some t1 ∧ t_state t1 = Assigned) as Hasg.
    { intros x t Ht Hn Ha. destruct (ss_var _ _ _ _ _ S1 x t Ht) as (t1 & Ht1 & V).
      exists t1. split; [done|]. apply V; auto. by apply W in Ht. }
    assert (jumped base (λ x, touches_block x b) m1 m' own1 d1 d' →
      jumped base (λ x, touches_block x (BCons s b)) m m' own d d') as HJ.
    { intros (own' & J1 & J2 & J3 & J4 & J5 & J6). exists own'. split_and!; auto.
      - intros x t Hx Ht Hn Ha. destruct (Hasg x t Ht Hn Ha) as (t1 & ? & ?). eauto.
      - by eapply (frame_seq _ (λ x, touches x s) (λ x, touches_block x b)). }
    destruct o; simpl in P |- *.
    + destruct P as (Hs2 & own' & I2 & Fr2). split; [done|]. exists own'. split; [done|].
      by eapply (frame_seq _ (λ x, touches x s) (λ x, touches_block x b)).
    + rewrite El, Esw in P. destruct P as (? & ? & ?). auto.
    + rewrite El in P. destruct P as (? & ?). auto.
    + done.
    + done.
Qed.

Definition block_dyn (b : block) : Prop := ∀ inl il c base m code m' own d o d',
  manage_block true inl il b m = Some (code, m') →
  calm_block cls c b = true → wf cls m → cok c (m_next m) inl base (enter il m) →
  (∀ x, x ∈ base → is_Some (m_vars m !! x)) →
  m_flags m' ⊆ F → inv base m own d →
  execs (fin code) d o d' →
  post false c base (λ x, touches_block x b) m m' own d o d'.

Lemma block_dyn_of b : stmts_dyn b → block_dyn b.
Proof.
  intros IH inl il c base m code m' own d o d' H Hcalm W K Hbase HF I He.
  rewrite manage_block_eq in H.
  apply bind_Some in H as ([c1 m1] & H1 & H2).
  destruct (leave _ _ _ m1) as [c2 m2] eqn:HLv. simplify_eq.
  pose proof (wf_enter _ il m W) as We.
  destruct (proj1 (proj2 (static_all cls)) b _ _ _ _ _ _ _ H1 Hcalm We
    (ck_lates _ _ _ _ _ _ K)) as (S & Sh & W1); [simpl; lia|].
  pose proof (sh_scopes _ _ _ _ Sh) as Hsc. simpl in Hsc.
  set (new := own_decls b) in *.
  destruct (leave_step _ _ _ _ _ _ _ _ _ HLv Hsc) as (Ef & En & Es & Esc & Hout & Hin).
  assert (∀ x, is_Some (m_vars m !! x) → x ∉ new) as Hnew.
  { intros x [t Ht] Hx. pose proof (sh_new _ _ _ _ Sh x Hx) as Hx'. simpl in Hx'. congruence. }
  assert (back m m1 m') as Hb.
  { intros x t' Hm Ht'. rewrite Hout in Ht' by auto. eauto. }
  assert (m_flags m1 ⊆ F) as HF1 by (by rewrite <- Ef).
  assert (inv base (enter il m) own d) as I0 by exact I.
  assert (∀ o1 d1, execs (fin c1) d o1 d1 →
    post (m_sealed m1) c base (λ x, touches_block x b) m m1 own d o1 d1) as HIH.
  { intros o1 d1 H. eapply (IH _ _ _ _ _ _ _ _ _ _ _ H1 Hcalm We K); eauto.
    by apply dok_enter. }
  rewrite fin_app in He. apply execs_app in He as [[Ho He]|(d1 & He1 & He2)].
  { eapply post_mono; eauto. }
  destruct (HIH _ _ He1) as (Hs1 & own1 & I1 & Fr1).
  unfold leave in HLv. rewrite Hs1 in HLv. unfold locals in HLv. rewrite Hsc in HLv.
  destruct (drop_vars (m_next m) inl new m1) as [cd md] eqn:Ed.
  simplify_eq.
  rewrite <- (app_nil_r (fin (reverse cd))) in He2.
  assert (∀ x, x ∈ new → x ∉ base) as Hnb.
  { intros x Hx Hxb. by apply (Hnew x); [apply Hbase|]. }
  eapply (drop_list _ _ _ _ _ _ own1 None) in He2
    as (d2 & own' & O & [-> ->] & A1 & A2 & A3 & A4 & A5);
    [|exact Ed| | | | | |by right].
  - split; [done|]. exists own'.
    assert (∀ x, x ∉ new → same_at x own1 d1 own' d2) as Hsame.
    { intros x Hx. apply same_at_ext; [auto|by rewrite A3|auto]. }
    split.
    + apply inv_intro.
      * done.
      * rewrite A4. by apply (inv_ret _ _ _ _ _ _ I1).
      * intros x Hx. destruct (decide (x ∈ new)) as [Hxn|Hxn].
        -- rewrite A1 in Hx by done. by destruct Hx.
        -- rewrite A2 in Hx by done. unfold st. rewrite Hout by done.
           by apply (inv_own _ _ _ _ _ _ _ I1).
      * intros x s Hx. unfold st in Hx. destruct (decide (x ∈ new)) as [Hxn|Hxn].
        -- rewrite Hin in Hx by done. done.
        -- rewrite Hout in Hx by done. eapply vrel_same; [by apply Hsame|].
           by apply (inv_vrel _ _ _ _ _ _ _ _ I1).
    + intros x t' _ Hm Ht' Hcase. rewrite Hout in Ht' by auto.
      eapply same_at_trans; [by apply (Fr1 x t')|]. apply Hsame. auto.
  - apply Sh.
  - intros x Hx. apply (sh_dom _ _ _ _ Sh). by right.
  - by apply (inv_owning _ _ _ _ _ _ I1).
  - intros x t Hx Ht Hn. split.
    + eapply needs_null; eauto. intros _ _. by eapply (sh_trace _ _ _ _ Sh).
    + assert (st m1 x = Some (t_state t)) as Hst by (unfold st; by rewrite Ht).
      apply (inv_vrel _ _ _ _ _ _ _ _ I1 Hst).
  - intros x t Hx Ht Hox. eapply owned_needs; eauto.
Qed.
End with_class.
