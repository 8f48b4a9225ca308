(** * Branches, loops, cases, and the whole of a function *)
From stdpp Require Import numbers list gmap.
From Verif Require Import MemModel MemSpec MemEval MemStatic MemProofs MemFlow MemWalk.

Section with_class.
Context (cls : nat → class) (F : gset nat).

Notation nonmob := (nonmob cls).
Notation legal := (legal cls).
Notation fin := (flat_map (finalize F)).
Notation vrel := (vrel cls F).
Notation inv := (inv cls F).
Notation post := (post cls F).
Notation jumped := (jumped cls F).
Notation cok := (cok cls).
Notation dok := (dok cls).
Notation frame := (frame cls).
Notation stmt_dyn := (stmt_dyn cls F).
Notation stmts_dyn := (stmts_dyn cls F).
Notation block_dyn := (block_dyn cls F).
Notation back := (back cls).

Lemma join_comm a b : join a b = join b a.
Proof. destruct a, b; reflexivity. Qed.

Lemma vrel_join base own d x a b :
  vrel base own d x a → legal x a → legal x b → (join a b = Maybe → x ∈ F) →
  vrel base own d x (join a b).
Proof.
  intros [V1 V2 V3 V4 V5] La Lb HF. split; auto.
  - intros Hj. apply V1. destruct a, b; done.
  - intros Ho. destruct (V2 Ho) as [->|[->|(-> & Hb & Hn)]].
    + destruct b; simpl; auto.
    + destruct b; simpl; auto.
    + destruct (legal_nonmob cls x b Hn Lb) as [->|[->| ->]]; simpl; auto.
  - intros Hx Hj Hn. apply V5; auto.
    destruct (decide (a = Uninit)) as [|Hne]; [done|].
    exfalso. by apply (join_set cls x a b).
Qed.

Lemma join_unset x a b :
  nonmob x → legal x a → legal x b → join a b = Uninit → a = Uninit.
Proof.
  intros Hn La Lb Hj. destruct (decide (a = Uninit)) as [|Hne]; [done|].
  exfalso. by apply (join_set cls x a b).
Qed.

(** Contexts depend on scopes and domains only. *)
Lemma cok_vars c cur inl base m m' :
  cok c cur inl base m → m_scopes m' = m_scopes m →
  (∀ x, is_Some (m_vars m' !! x) ↔ is_Some (m_vars m !! x)) →
  (∀ x t', m_vars m' !! x = Some t' → ∃ t, m_vars m !! x = Some t ∧ t_scope t' = t_scope t) →
  cok c cur inl base m'.
Proof.
  intros [K1 K2 K3 K4 K5 K6 K7 K8] Hsc Hd Hv. split; auto.
  - intros x Hx. apply Hd. auto.
  - intros x t' Ht' Hx. destruct (Hv x t' Ht') as (t & Ht & ->). eauto.
  - intros x t' Ht' Hm. destruct (Hv x t' Ht') as (t & Ht & _). eauto.
  - intros Hl x t' Ht' Hm Hb Hh. destruct (Hv x t' Ht') as (t & Ht & ->). eauto.
  - eapply lates_ok_dom; [|done]. intros x. apply Hd.
  - intros Hl x. rewrite Hsc, Hd. auto.
Qed.

Lemma inv_states base m m' own d :
  inv base m own d → (∀ x, st m' x = st m x) → inv base m' own d.
Proof.
  intros I H. apply inv_intro.
  - by apply (inv_owning _ _ _ _ _ _ I).
  - by apply (inv_ret _ _ _ _ _ _ I).
  - intros x Hx. rewrite H. by apply (inv_own _ _ _ _ _ _ _ I).
  - intros x s Hx. rewrite H in Hx. by apply (inv_vrel _ _ _ _ _ _ _ _ I).
Qed.

Lemma static_block b : block_ok cls b.
Proof. apply block_of_stmts. apply static_all. Qed.

Lemma st_restore_capture m m1 x :
  (∀ x, is_Some (m_vars m1 !! x) ↔ is_Some (m_vars m !! x)) →
  st (restore (capture m) m1) x = st m x.
Proof.
  intros Hd. unfold st. rewrite lookup_restore, lookup_capture. specialize (Hd x).
  destruct (m_vars m1 !! x) as [t1|], (m_vars m !! x) as [t|]; simpl; try done.
  - by destruct (proj1 Hd) as [? ?]; [eauto|].
  - by destruct (proj2 Hd) as [? ?]; [eauto|].
Qed.

Lemma jumped_states base tch m m0 m1 own d d' :
  jumped base tch m0 m1 own d d' → (∀ x, st m0 x = st m x) →
  jumped base tch m m1 own d d'.
Proof.
  intros (own' & J1 & J2 & J3 & J4 & J5 & J6) H. exists own'. split_and!; auto.
  - intros x t Hx Ht Hn Ha.
    assert (st m0 x = Some Assigned) as Hx0 by (rewrite H; unfold st; by rewrite Ht; simpl; rewrite Ha).
    apply st_Some in Hx0 as (t0 & Ht0 & ?). by eapply (J5 x t0).
  - intros x t' Hx Hm. apply J6; [done|]. rewrite <- st_is_Some, H, st_is_Some. done.
Qed.

(** One branch, seen from the statement: [m0] has the states of [m], [mi] is
    the state after the branch, [m'] the one after the join. *)
Lemma branch_post base c tch tch' m m0 mi m' own d o d' :
  post false (nest c) base tch m0 mi own d o d' →
  (∀ x, st m0 x = st m x) → m_sealed m' = false →
  (∀ x, is_Some (st m' x) ↔ is_Some (st mi x)) →
  (∀ x, is_Some (st m x) → is_Some (st mi x)) →
  (∀ x si s', st mi x = Some si → st m' x = Some s' →
     legal x si ∧ ∃ r, legal x r ∧ s' = join si r) →
  (∀ x, st m' x = Some Maybe → x ∈ F) →
  (∀ x, tch' x = false → tch x = false) →
  post (m_sealed m') c base tch' m m' own d o d'.
Proof.
  intros P H0 Hs Hd Hd0 Hj HF Ht.
  assert (back m mi m') as Hb.
  { intros x t' Hm Ht'. apply st_is_Some in Hm. destruct (Hd0 x Hm) as [si Hsi].
    apply st_Some in Hsi as (ti & Hti & <-). exists ti. split; [done|].
    intros Hn Hu. destruct (Hj x (t_state ti) (t_state t')) as (Ll & r & Lr & E).
    - unfold st. by rewrite Hti.
    - unfold st. by rewrite Ht'.
    - rewrite E in Hu. by eapply join_unset. }
  destruct o; simpl in P |- *; [| | |done|done].
  - destruct P as (_ & own' & I & Fr). split; [done|]. exists own'. split.
    + apply inv_intro.
      * by apply (inv_owning _ _ _ _ _ _ I).
      * by apply (inv_ret _ _ _ _ _ _ I).
      * intros x Hx. apply Hd. by apply (inv_own _ _ _ _ _ _ _ I).
      * intros x s' Hx. destruct (proj1 (Hd x)) as [si Hsi]; [eauto|].
        destruct (Hj x si s' Hsi Hx) as (Ll & r & Lr & ->).
        apply vrel_join; auto.
        -- by apply (inv_vrel _ _ _ _ _ _ _ _ I).
        -- intros E. apply HF. congruence.
    + eapply frame_mono; [|exact Hb|exact Ht].
      intros x t' _ Hm. apply Fr; [done|]. rewrite <- st_is_Some, H0, st_is_Some. done.
  - destruct P as (? & ? & J). split_and!; auto.
    eapply jumped_mono; [|exact Hb|exact Ht]. by eapply jumped_states.
  - destruct P as (? & J). split_and!; auto.
    eapply jumped_mono; [|exact Hb|exact Ht]. by eapply jumped_states.
Qed.

Lemma dyn_if a b : block_dyn a → block_dyn b → stmt_dyn (SIf a b).
Proof.
  intros IHa IHb cur inl c base m code m' own d o d' H Hcalm W K D Hc HF Hs I He.
  cbn [manage_stmt calm_stmt] in *. apply andb_true_iff in Hcalm as [Hca Hcb].
  apply bind_Some in H as ([ca m1] & H1 & H).
  apply bind_Some in H as ([cb m2] & H2 & H). simplify_eq.
  pose proof (cok_nest _ _ _ _ _ _ K W) as Kn.
  destruct (static_block a _ cur _ _ _ _ _ _ H1 Hca W (ck_lates _ _ _ _ _ _ Kn) Hc)
    as (S1 & Esc1 & Es1 & Hd1 & W1 & _).
  set (mr := restore (capture m) m1) in *.
  assert (∀ x, st mr x = st m x) as Hmr by (intros x; by apply st_restore_capture).
  assert (wf cls mr) as Wr.
  { apply wf_restore; [done|]. intros x s t Hx Ht. rewrite lookup_capture in Hx.
    apply fmap_Some in Hx as (t0 & Ht0 & ->). by apply (wf_legal _ _ W). }
  assert (∀ x, is_Some (m_vars mr !! x) ↔ is_Some (m_vars m !! x)) as Hdr.
  { intros x. unfold mr. rewrite restore_dom. apply Hd1. }
  assert (cok c cur inl base mr) as Kr.
  { apply (cok_vars _ _ _ _ m); auto. intros x t' Ht'. unfold mr in Ht'.
    rewrite lookup_restore in Ht'. apply fmap_Some in Ht' as (t1 & Ht1 & ->). simpl.
    destruct (proj1 (Hd1 x)) as [t Ht]; [eauto|]. exists t. split; [done|].
    destruct (ss_var _ _ _ _ _ S1 x t Ht) as (? & ? & V). simplify_eq. apply V. }
  assert (cur < m_next mr) as Hcr.
  { pose proof (ss_next _ _ _ _ _ S1). simpl. lia. }
  pose proof (cok_nest _ _ _ _ _ _ Kr Wr) as Krn.
  destruct (static_block b _ cur _ _ _ _ _ _ H2 Hcb Wr (ck_lates _ _ _ _ _ _ Krn) Hcr)
    as (S2 & Esc2 & Es2 & Hd2 & W2 & _).
  set (m' := merge_update (capture m1) (capture m2) m2) in *.
  assert (∀ x, is_Some (m_vars m2 !! x) ↔ is_Some (m_vars m1 !! x)) as Hd12.
  { intros x. rewrite Hd2, Hdr, Hd1. done. }
  assert (∀ x s1 s2, st m1 x = Some s1 → st m2 x = Some s2 →
    st m' x = Some (join s1 s2)) as Hj.
  { intros x s1 s2 (t1 & Ht1 & <-)%st_Some (t2 & Ht2 & <-)%st_Some. unfold st, m'.
    erewrite lookup_merge; [done|exact Ht2| |]; by rewrite lookup_capture, ?Ht1, ?Ht2. }
  assert (∀ x, is_Some (st m' x) ↔ is_Some (st m2 x)) as Hd'.
  { intros x. unfold st, m'. rewrite lookup_merge_update, !fmap_is_Some. done. }
  assert (∀ x, is_Some (st m1 x) ↔ is_Some (st m2 x)) as Hd12'.
  { intros x. rewrite !st_is_Some, Hd12. done. }
  assert (∀ x, st m' x = Some Maybe → x ∈ F) as Hmay.
  { intros x Hx. apply HF. unfold m', merge_update. apply flags_with_flags. right.
    apply st_Some in Hx. exact Hx. }
  assert (m_sealed m' = false) as Hs'.
  { change (m_sealed m2 = false). rewrite Es2. change (m_sealed m1 = false). congruence. }
  assert (m_flags m2 ⊆ F) as HF2.
  { etrans; [|exact HF]. unfold m', merge_update. intros x Hx. apply flags_with_flags. by left. }
  assert (m_flags m1 ⊆ F) as HF1.
  { etrans; [|exact HF2]. apply (ss_flags _ _ _ _ _ S2). }
  assert (∀ x s, st m1 x = Some s → legal x s) as L1.
  { intros x s (t & Ht & <-)%st_Some. by apply (wf_legal _ _ W1). }
  assert (∀ x s, st m2 x = Some s → legal x s) as L2.
  { intros x s (t & Ht & <-)%st_Some. by apply (wf_legal _ _ W2). }
  cbn [flat_map finalize] in He. apply execs_one in He. apply exec_if in He as [He|He].
  - eapply (branch_post _ _ (λ x, touches_block x a) _ m m m1).
    + eapply IHa; eauto. apply K.
    + done.
    + done.
    + intros x. rewrite Hd', Hd12'. done.
    + intros x. rewrite !st_is_Some, Hd1. done.
    + intros x s1 s' Hx Hx'. split; [by apply (L1 x)|].
      destruct (proj1 (Hd12' x)) as [s2 Hs2]; [eauto|]. exists s2. split; [by apply (L2 x)|].
      rewrite (Hj x s1 s2) in Hx' by done. congruence.
    + done.
    + intros x Hx. simpl in Hx. by apply orb_false_iff in Hx as [? _].
  - eapply (branch_post _ _ (λ x, touches_block x b) _ m mr m2).
    + eapply IHb; eauto.
      * intros x Hx. apply Hdr, K. done.
      * by eapply inv_states.
    + done.
    + done.
    + intros x. rewrite Hd'. done.
    + intros x. rewrite !st_is_Some, Hd12, Hd1. done.
    + intros x s2 s' Hx Hx'. split; [by apply (L2 x)|].
      destruct (proj2 (Hd12' x)) as [s1 Hs1]; [eauto|]. exists s1. split; [by apply (L1 x)|].
      rewrite (Hj x s1 s2) in Hx' by done. rewrite join_comm. congruence.
    + done.
    + intros x Hx. simpl in Hx. by apply orb_false_iff in Hx as [_ ?].
Qed.

Lemma dyn_block b : block_dyn b → stmt_dyn (SBlock b).
Proof.
  intros IH cur inl c base m code m' own d o d' H Hcalm W K D Hc HF Hs I He.
  cbn [manage_stmt calm_stmt] in *.
  apply bind_Some in H as ([ca m1] & H1 & H). simplify_eq.
  pose proof (cok_nest _ _ _ _ _ _ K W) as Kn.
  destruct (static_block b _ cur _ _ _ _ _ _ H1 Hcalm W (ck_lates _ _ _ _ _ _ Kn) Hc)
    as (S1 & Esc1 & Es1 & Hd1 & W1 & _).
  cbn [flat_map finalize] in He. apply execs_one in He. rewrite exec_block in He.
  eapply (branch_post _ _ (λ x, touches_block x b) _ m m m1).
  - eapply IH; eauto; [apply K|]. etrans; [|exact HF]. intros x Hx.
    apply flags_with_flags. by left.
  - done.
  - simpl. congruence.
  - done.
  - intros x. rewrite !st_is_Some, Hd1. done.
  - intros x s1 s' Hx Hx'. change (st m1 x = Some s') in Hx'. simplify_eq.
    apply st_Some in Hx as (t & Ht & <-). pose proof (wf_legal _ _ W1 _ _ Ht).
    split; [done|]. exists (t_state t). by rewrite join_same.
  - intros x Hx. apply HF, flags_with_flags. right. apply st_Some in Hx. exact Hx.
  - done.
Qed.

(** ** Loops *)

Lemma dyn_loop b : block_dyn b → stmt_dyn (SLoop b).
Proof.
  intros IH cur inl c base m code m' own0 d0 o d' H Hcalm W K D Hc HF Hs I He.
  cbn [manage_stmt calm_stmt] in *.
  apply bind_Some in H as ([c1 m1] & H1 & H). simplify_eq.
  pose proof (cok_loop _ _ _ _ _ _ K W) as Kl.
  destruct (static_block b _ cur _ _ _ _ _ _ H1 Hcalm W (ck_lates _ _ _ _ _ _ Kl) Hc)
    as (S1 & Esc1 & Es1 & Hd1 & W1 & _).
  set (m' := merge_update (capture m1) (capture m) m1) in *.
  set (base' := dom (m_vars m)) in *.
  set (tb := λ x, touches_block x b).
  assert (∀ x s, st m x = Some s → ∃ s1, st m1 x = Some s1 ∧ st m' x = Some (join s1 s) ∧
    legal x s ∧ legal x s1 ∧ (tb x = false → s1 = s) ∧
    (nonmob x → s = Assigned → s1 = Assigned)) as Hx.
  { intros x s (t & Ht & <-)%st_Some.
    destruct (ss_var _ _ _ _ _ S1 x t Ht) as (t1 & Ht1 & V).
    pose proof (wf_legal _ _ W _ _ Ht) as L.
    exists (t_state t1). split_and!.
    - unfold st. by rewrite Ht1.
    - unfold st, m'.
      erewrite lookup_merge; [done|exact Ht1| |]; by rewrite lookup_capture, ?Ht1, ?Ht.
    - done.
    - by apply (wf_legal _ _ W1).
    - apply V.
    - intros Hn. by apply V. }
  assert (∀ x, st m' x = Some Maybe → x ∈ F) as Hmay.
  { intros x Hm. apply HF. unfold m', merge_update. apply flags_with_flags. right.
    apply st_Some in Hm. exact Hm. }
  assert (m_flags m1 ⊆ F) as HF1.
  { etrans; [|exact HF]. unfold m', merge_update. intros x Hm. apply flags_with_flags. by left. }
  assert (∀ x, is_Some (st m x) → cls x = Mobile → tb x = false) as Hmob.
  { intros x Hm Hcl. apply st_is_Some in Hm as [t Ht].
    apply (proj1 (proj2 (calm_frozen_all cls x)) b _ Hcalm).
    destruct (ck_mobile _ _ _ _ _ _ K x t Ht Hcl) as [[_ Hin]|(_ & Hin & _)];
      simpl; rewrite !elem_of_app in *; tauto. }
  assert (∀ x, x ∈ base' ↔ is_Some (st m x)) as Hb'.
  { intros x. unfold base'. by rewrite elem_of_dom, st_is_Some. }
  assert (∀ x, x ∈ base → x ∈ base') as Hbb.
  { intros x Hb. apply Hb', st_is_Some. by apply K. }
  (* one round *)
  assert (∀ own d o1 d1, inv base' m own d → execs (fin c1) d o1 d1 →
    match o1 with
    | Bad => False
    | Returned => ret_ok d1
    | _ => jumped base' tb m m1 own d d1
    end) as Hround.
  { intros own d o1 d1 I1 H2.
    assert (post false (into_loop c) base' tb m m1 own d o1 d1) as P.
    { eapply IH; eauto. intros x Hb. by apply st_is_Some, Hb'. }
    destruct o1; simpl in P; [|tauto|tauto|done|done].
    destruct P as (_ & own' & I2 & Fr). exists own'. split_and!.
    - by apply (inv_owning _ _ _ _ _ _ I2).
    - by apply (inv_ret _ _ _ _ _ _ I2).
    - intros x Hox. apply Hb'. apply (inv_own _ _ _ _ _ _ _ I2) in Hox.
      rewrite st_is_Some in *. by apply Hd1.
    - intros x Hb HxF. apply Hb' in Hb as [s Hb]. destruct (Hx x s Hb) as (s1 & Hs1 & _).
      by apply (vr_flag _ _ _ _ _ _ _ (inv_vrel _ _ _ _ _ _ _ _ I2 Hs1)).
    - intros x t Hb Ht Hn Ha.
      destruct (Hx x (t_state t)) as (s1 & Hs1 & _ & _ & _ & _ & Has);
        [unfold st; by rewrite Ht|].
      rewrite Has in Hs1 by done.
      by apply (vr_asg _ _ _ _ _ _ _ (inv_vrel _ _ _ _ _ _ _ _ I2 Hs1)).
    - intros x t' _. by apply Fr. }
  assert (∀ own d d1, inv base' m own d → jumped base' tb m m1 own d d1 →
    ∃ own1, inv base' m own1 d1 ∧ frame (λ _, True) tb m m1 own d own1 d1) as Hagain.
  { intros own d d1 I1 (own1 & J1 & J2 & J3 & J4 & J5 & J6). exists own1. split.
    - apply inv_intro; auto.
      + intros x Hox. apply Hb'. auto.
      + intros x s Hsx. destruct (Hx x s Hsx) as (s1 & Hs1 & Hj & L & L1 & Hsame & Has).
        assert (x ∈ base') as Hxb by (apply Hb'; eauto).
        pose proof (inv_vrel _ _ _ _ _ _ _ _ I1 Hsx) as V.
        assert (∀ t', m_vars m1 !! x = Some t' →
          tb x = false ∨ nonmob x ∧ t_state t' = Uninit →
          vrel base' own1 d1 x s) as Hfr.
        { intros t' Ht' Hcase. eapply vrel_same; [|exact V].
          eapply J6; eauto. apply st_is_Some. eauto. }
        apply st_Some in Hs1 as (t1 & Ht1 & Et1).
        destruct (decide (cls x = Mobile)) as [Hm|Hm].
        { eapply Hfr; [exact Ht1|]. left. apply Hmob; eauto. }
        apply st_Some in Hsx as Hst. destruct Hst as (t & Ht & Et).
        destruct (legal_nonmob cls x s Hm L) as [Es|[Es|Es]]; rewrite Es in *.
        * destruct (decide (x ∈ F)) as [HxF|HxF].
          -- split; try done.
             ++ auto.
             ++ intros _. by apply J4.
          -- assert (s1 = Uninit) as E.
             { destruct (legal_nonmob cls x s1 Hm L1) as [E|[E|E]]; [done| |];
                 rewrite E in Hj; exfalso; apply HxF, Hmay; exact Hj. }
             eapply Hfr; [exact Ht1|]. right. split; [done|]. congruence.
        * split; try done.
          -- intros _. by apply (J5 x t).
          -- auto.
          -- intros HxF. by apply J4.
        * assert (x ∈ F) as HxF by (by apply V).
          split; try done.
          -- auto.
          -- intros _. by apply J4.
    - intros x t' _ Hm. apply J6; [|done]. by apply Hb', st_is_Some. }
  (* all rounds *)
  assert (∀ d o d', loop (execs (fin c1)) d o d' → ∀ own,
    inv base' m own d → frame (λ _, True) tb m m1 own0 d0 own d →
    match o with
    | Fell => ∃ own', inv base' m own' d' ∧ frame (λ _, True) tb m m1 own0 d0 own' d'
    | Returned => ret_ok d'
    | _ => False
    end) as Hloop.
  { intros d o2 d2 HL.
    induction HL as [d o1 d1 o2 d2 HR Ho1 _ IHL|d d2 HR|d o2 d2 HR Ho]; intros own I1 Fr.
    - pose proof (Hround _ _ _ _ I1 HR) as J.
      assert (jumped base' tb m m1 own d d1) as J' by (by destruct Ho1 as [->| ->]).
      destruct (Hagain _ _ _ I1 J') as (own1 & I2 & Fr2). apply (IHL own1 I2).
      intros x t' HP Hm Ht' Hcase.
      eapply same_at_trans; [by apply (Fr x t')|by apply (Fr2 x t')].
    - pose proof (Hround _ _ _ _ I1 HR) as J.
      destruct (Hagain _ _ _ I1 J) as (own1 & I2 & Fr2). exists own1. split; [done|].
      intros x t' HP Hm Ht' Hcase.
      eapply same_at_trans; [by apply (Fr x t')|by apply (Fr2 x t')].
    - pose proof (Hround _ _ _ _ I1 HR) as J. destruct Ho as [->| ->]; done. }
  cbn [flat_map finalize] in He. apply execs_one in He. rewrite exec_loop in He.
  assert (inv base' m own0 d0) as I0.
  { apply inv_intro.
    - by apply (inv_owning _ _ _ _ _ _ I).
    - by apply (inv_ret _ _ _ _ _ _ I).
    - intros x. apply (inv_own _ _ _ _ _ _ _ I).
    - intros x s Hsx. eapply vrel_base; [|by apply (inv_vrel _ _ _ _ _ _ _ _ I)].
      intros y. apply Hbb. }
  pose proof (Hloop _ _ _ He own0 I0) as HL.
  destruct o; simpl.
  - destruct HL as (own' & I' & Fr); [intros x t' _ _ _ _; apply same_at_refl|].
    split; [change (m_sealed m1 = false); congruence|].
    exists own'. split.
    + apply inv_intro.
      * by apply (inv_owning _ _ _ _ _ _ I').
      * by apply (inv_ret _ _ _ _ _ _ I').
      * intros x Hox. apply (inv_own _ _ _ _ _ _ _ I') in Hox as [s Hsx].
        destruct (Hx x s Hsx) as (s1 & _ & -> & _). eauto.
      * intros x s' Hs'.
        assert (is_Some (st m x)) as [s Hsx].
        { rewrite st_is_Some. apply Hd1.
          assert (is_Some (st m' x)) as Hi by eauto. unfold st, m' in Hi.
          rewrite lookup_merge_update, !fmap_is_Some in Hi. done. }
        destruct (Hx x s Hsx) as (s1 & Hs1 & Hj & L & L1 & Hsame & Has).
        rewrite Hj in Hs'. injection Hs' as <-.
        apply st_Some in Hs1 as (t1 & Ht1 & Et1).
        assert (tb x = false ∨ nonmob x ∧ t_state t1 = Uninit →
          same_at x own0 d0 own' d') as Hfr.
        { intros Hcase. apply (Fr x t1); auto. apply st_is_Some. eauto. }
        destruct (tb x) eqn:Etb.
        -- assert (nonmob x) as Hn.
           { intros Hm. rewrite Hmob in Etb; [done|eauto|done]. }
           pose proof (inv_vrel _ _ _ _ _ _ _ _ I' Hsx) as V.
           assert (vrel base' own' d' x (join s s1)) as V'.
           { apply vrel_join; auto. intros E. apply Hmay. rewrite Hj, join_comm. congruence. }
           rewrite join_comm in V'.
           destruct V' as [V1 V2 V3 V4 V5]. split; auto.
           intros Ho. destruct (V2 Ho) as [?|[?|(Eu & _ & _)]]; auto.
           right. right. split; [done|]. split; [|done].
           assert (s1 = Uninit) as Es1' by (by apply (join_unset x s1 s)).
           assert (s = Uninit) as Es' by (rewrite join_comm in Eu; by apply (join_unset x s s1)).
           destruct Hfr as (E1 & _ & _); [right; split; [done|congruence]|].
           rewrite E1 in Ho. rewrite Es' in Hsx.
           destruct (vr_own _ _ _ _ _ _ _ (inv_vrel _ _ _ _ _ _ _ _ I Hsx) Ho)
             as [?|[?|(_ & ? & _)]]; done.
        -- rewrite (Hsame eq_refl), join_same. eapply vrel_same; [by apply Hfr; left|].
           by apply (inv_vrel _ _ _ _ _ _ _ _ I).
    + intros x t' _ Hm Ht' Hcase.
      apply st_is_Some in Hm as Hm'. destruct Hm' as [s Hsx].
      destruct (Hx x s Hsx) as (s1 & Hs1 & Hj & L & L1 & Hsame & Has).
      apply st_Some in Hs1 as (t1 & Ht1 & Et1).
      apply (Fr x t1); auto. destruct Hcase as [?|[Hn Hu]]; [by left|]. right.
      split; [done|]. rewrite Et1. eapply join_unset; [done|exact L1|exact L|].
      unfold st in Hj. rewrite Ht' in Hj. simpl in Hj. congruence.
  - exfalso. apply HL. intros x t' _ _ _ _. apply same_at_refl.
  - exfalso. apply HL. intros x t' _ _ _ _. apply same_at_refl.
  - apply HL. intros x t' _ _ _ _. apply same_at_refl.
  - apply HL. intros x t' _ _ _ _. apply same_at_refl.
Qed.

(** ** Cases *)

Definition cases_dyn (cs : cases) : Prop :=
  ∀ inl c base acc m codes m' ps own d code o d',
  manage_cases true inl (capture m) cs acc m = Some (codes, m', ps) →
  calm_cases cls c cs = true → c_switch c = true → c_here c = [] → wf cls m →
  0 < m_next m →
  (∀ x t, m_vars m !! x = Some t → cls x ≠ Steady → x ∈ c_frozen c) →
  cok c (m_next m) inl base (enter false m) →
  (∀ x, x ∈ base → is_Some (m_vars m !! x)) →
  m_flags m' ⊆ F → inv base m own d →
  code ∈ codes → execs (fin code) d o d' →
  o ≠ Broke ∧ post false c base (λ x, touches_cases x cs) m m own d o d'.

Lemma dyn_cases_nil : cases_dyn CNil.
Proof.
  intros inl c base acc m codes m' ps own d code o d' H _ _ _ _ _ _ _ _ _ _ Hc.
  simpl in H. simplify_eq. by apply elem_of_nil in Hc.
Qed.

Lemma cok_next c k inl base m m' :
  c_here c = [] → cok c k inl base (enter false m) → wf cls m' →
  m_scopes m' = m_scopes m →
  (∀ x, is_Some (m_vars m' !! x) ↔ is_Some (m_vars m !! x)) →
  cok c (m_next m') inl base (enter false m').
Proof.
  intros Hh [K1 K2 K3 K4 K5 K6 K7 K8] W Hsc Hd. simpl in *.
  assert (∀ x t', m_vars m' !! x = Some t' → ∃ t, m_vars m !! x = Some t) as Hv.
  { intros x t' Ht'. destruct (proj1 (Hd x)) as [t Ht]; eauto. }
  split; simpl; auto.
  - intros x Hx. apply Hd. auto.
  - intros x t Ht _ E. pose proof (wf_scope _ _ W _ _ _ Ht E). lia.
  - intros x t' Ht' Hm. destruct (Hv x t' Ht') as (t & Ht). eauto.
  - intros _ x t _ _ _ Hx. rewrite Hh in Hx. by apply elem_of_nil in Hx.
  - eapply lates_ok_dom; [|exact K7]. intros x. apply Hd.
  - intros Hl x. rewrite Hsc, Hd. auto.
Qed.

Lemma post_states sl sl' c c' base tch tch' m0 m1 m m' own d o d' :
  post sl c base tch m0 m1 own d o d' → o ≠ Broke →
  (∀ x, st m0 x = st m x) → (∀ x, is_Some (st m x) → st m' x = st m1 x) →
  (∀ x, is_Some (st m1 x) → is_Some (st m x)) →
  (∀ x, is_Some (st m' x) → is_Some (st m x)) →
  sl' = false → c_loop c' = c_loop c →
  (∀ x, tch' x = false → tch x = false) →
  post sl' c' base tch' m m' own d o d'.
Proof.
  intros P Ho H0 H1 Hd1 Hd' Hsl Hl Ht.
  assert (back m m1 m') as Hb.
  { intros x t' Hm Ht'. apply st_is_Some in Hm.
    assert (st m1 x = Some (t_state t')) as E.
    { rewrite <- H1 by done. unfold st. by rewrite Ht'. }
    apply st_Some in E as (t1 & Ht1 & E). exists t1. split; [done|]. congruence. }
  destruct o; simpl in P |- *; [|done| |done|done].
  - destruct P as (_ & own' & I & Fr). split; [done|]. exists own'. split.
    + apply inv_intro.
      * by apply (inv_owning _ _ _ _ _ _ I).
      * by apply (inv_ret _ _ _ _ _ _ I).
      * intros x Hx. apply (inv_own _ _ _ _ _ _ _ I) in Hx. rewrite H1; auto.
      * intros x s' Hx. rewrite H1 in Hx by eauto. by apply (inv_vrel _ _ _ _ _ _ _ _ I).
    + eapply frame_mono; [|exact Hb|exact Ht].
      intros x t' _ Hm. apply Fr; [done|]. rewrite <- st_is_Some, H0, st_is_Some. done.
  - destruct P as (? & J). split; [congruence|].
    eapply jumped_mono; [|exact Hb|exact Ht]. by eapply jumped_states.
Qed.

Lemma legal_steady x s : cls x = Steady → legal x s → s = Assigned.
Proof. unfold MemStatic.legal. by intros ->. Qed.

Lemma dyn_cases_cons b cs : block_dyn b → cases_dyn cs → cases_dyn (CCons b cs).
Proof.
  intros IHb IHcs inl c base acc m codes m' ps own d code o d' H Hcalm Hsw Hh W Hn Hfz K Hb
    HF I Hcode He.
  cbn [manage_cases calm_cases] in *. apply andb_true_iff in Hcalm as [Hcb Hcc].
  apply bind_Some in H as ([c1 m1] & H1 & H).
  apply bind_Some in H as ([[cs2 m2] ps2] & H2 & H). simplify_eq.
  destruct (static_block b _ 0 _ _ _ _ _ _ H1 Hcb W (ck_lates _ _ _ _ _ _ K) Hn)
    as (S1 & Esc1 & Es1 & Hd1 & W1 & _).
  set (mr := restore (capture m) m1) in *.
  assert (∀ x, st mr x = st m x) as Hmr by (intros x; by apply st_restore_capture).
  assert (wf cls mr) as Wr.
  { apply wf_restore; [done|]. intros x s t Hx Ht. rewrite lookup_capture in Hx.
    apply fmap_Some in Hx as (t0 & Ht0 & ->). by apply (wf_legal _ _ W). }
  assert (∀ x, is_Some (m_vars mr !! x) ↔ is_Some (m_vars m !! x)) as Hdr.
  { intros x. unfold mr. rewrite restore_dom. apply Hd1. }
  assert (capture mr = capture m) as Ecap.
  { apply map_eq. intros x. rewrite !lookup_capture. apply Hmr. }
  assert (cok c (m_next mr) inl base (enter false mr)) as Kr.
  { eapply cok_next; eauto. }
  assert (0 < m_next mr) as Hnr.
  { pose proof (ss_next _ _ _ _ _ S1). simpl. lia. }
  rewrite <- Ecap in H2.
  destruct (proj2 (proj2 (static_all cls)) cs _ 0 _ _ _ _ _ _ _ H2 Hcc Wr
    (ck_lates _ _ _ _ _ _ Kr) Hnr) as (S2 & _).
  assert (m_flags m1 ⊆ F) as HF1.
  { etrans; [|exact HF]. apply (ss_flags _ _ _ _ _ S2). }
  apply elem_of_cons in Hcode as [->|Hcode].
  - assert (post false c base (λ x, touches_block x b) m m1 own d o d') as P.
    { eapply IHb; eauto. }
    assert (o ≠ Broke) as Ho.
    { intros ->. destruct P as (_ & ? & _). congruence. }
    split; [done|].
    eapply post_states; [exact P|done|done| | |done|done|done|].
    + intros x Hx. apply st_is_Some in Hx as [t Ht].
      destruct (ss_var _ _ _ _ _ S1 x t Ht) as (t1 & Ht1 & V). unfold st. rewrite Ht, Ht1.
      simpl. f_equal. pose proof (wf_legal _ _ W _ _ Ht) as L.
      destruct (decide (cls x = Steady)) as [Es|Es].
      * rewrite (legal_steady x _ Es L). symmetry. apply (legal_steady x _ Es). by apply V.
      * symmetry. apply V. apply (proj1 (proj2 (calm_frozen_all cls x)) _ _ Hcb). eauto.
    + intros x. rewrite !st_is_Some, Hd1. done.
    + intros x Hx. simpl in Hx. by apply orb_false_iff in Hx as [? _].
  - destruct (IHcs inl c base _ mr cs2 m' ps own d code o d' H2 Hcc Hsw Hh Wr Hnr)
      as [Ho P]; eauto.
    + intros x t Ht Hx. destruct (proj1 (Hdr x)) as [t0 Ht0]; eauto.
    + intros x Hx. apply Hdr. auto.
    + by eapply inv_states.
    + split; [done|].
      eapply post_states; [exact P|done|done| | |done|done|done|].
      * intros x Hx. by rewrite Hmr.
      * intros x. by rewrite Hmr.
      * intros x Hx. simpl in Hx. by apply orb_false_iff in Hx as [_ ?].
Qed.

Lemma dyn_switch cs : cases_dyn cs → stmt_dyn (SSwitch cs).
Proof.
  intros IH cur inl c base m code m' own d o d' H Hcalm W K D Hc HF Hs I He.
  cbn [manage_stmt calm_stmt] in *.
  apply bind_Some in H as ([[cc m1] ps] & H1 & H). simplify_eq.
  pose proof (cok_switch _ _ _ _ _ _ K W) as Ks.
  assert (∀ x t, m_vars m !! x = Some t → cls x ≠ Steady →
    x ∈ c_frozen (into_switch c)) as Hfz.
  { intros x t Ht Hx. simpl. rewrite !elem_of_app. destruct (cls x) eqn:Ec; [done| |].
    - pose proof (ck_lates _ _ _ _ _ _ K x t Ht Ec). tauto.
    - destruct (ck_mobile _ _ _ _ _ _ K x t Ht Ec) as [[_ Hin]|(_ & Hin & _)];
        [|tauto]. apply elem_of_app in Hin. tauto. }
  destruct (proj2 (proj2 (static_all cls)) cs _ cur _ _ _ _ _ _ _ H1 Hcalm W
    (ck_lates _ _ _ _ _ _ K) Hc) as (S1 & Esc1 & Es1 & Hd1 & W1 & Hst & Hp).
  cbn [flat_map finalize] in He. apply execs_one in He.
  apply exec_switch in He as (code & o' & Hin & He & Ho').
  apply elem_of_list_fmap in Hin as (code0 & -> & Hin).
  destruct (IH inl (into_switch c) base _ m cc m1 ps own d code0 o' d' H1 Hcalm)
    as [Hnb P]; eauto.
  - lia.
  - apply K.
  - assert (o = o') as -> by (by destruct o').
    assert (∀ x, is_Some (st m x) → st (restore ps m1) x = st m x) as Heq.
    { intros x Hx. apply st_is_Some in Hx as [t Ht]. unfold st.
      rewrite lookup_restore, Ht. destruct (Hst x t Ht) as (t1 & -> & E). simpl.
      rewrite (Hp x t Ht); [done| |by rewrite lookup_capture, Ht].
      destruct (decide (cls x = Steady)); [by right|]. left.
      apply (proj2 (proj2 (calm_frozen_all cls x)) _ _ Hcalm). eauto. }
    eapply post_states; [exact P|done|done|done|done| | |done|done].
    + intros x Hx. rewrite st_is_Some in *. apply Hd1. by rewrite <- restore_dom.
    + simpl. congruence.
Qed.

Lemma dyn_all : (∀ s, stmt_dyn s) ∧ (∀ b, stmts_dyn b) ∧ (∀ cs, cases_dyn cs).
Proof.
  apply stmt_block_cases_ind.
  - apply dyn_decl.
  - apply dyn_assign.
  - apply dyn_null.
  - apply dyn_move.
  - apply dyn_use.
  - intros a Ha b Hb. apply dyn_if; by apply block_dyn_of.
  - intros b Hb. apply dyn_loop. by apply block_dyn_of.
  - intros b Hb. apply dyn_block. by apply block_dyn_of.
  - apply dyn_switch.
  - apply dyn_break.
  - apply dyn_continue.
  - apply dyn_return.
  - apply dyn_nil.
  - intros s Hs b. by apply dyn_cons.
  - apply dyn_cases_nil.
  - intros b Hb cs. apply dyn_cases_cons. by apply block_dyn_of.
Qed.
End with_class.

(** ** Functions *)

Lemma fold_none ps :
  foldl (λ m p, m ← m; declare None p Assigned m) None ps = None.
Proof. by induction ps. Qed.

Lemma start_from ps : ∀ done0 m0 m,
  m_scopes m0 = [(done0, false)] → NoDup done0 →
  (∀ x, m_vars m0 !! x =
     if decide (x ∈ done0) then Some (Trace Assigned None None) else None) →
  foldl (λ m p, m ← m; declare None p Assigned m) (Some m0) ps = Some m →
  NoDup (done0 ++ ps) ∧ m_scopes m = [(done0 ++ ps, false)] ∧
  m_flags m = m_flags m0 ∧ m_next m = m_next m0 ∧ m_sealed m = m_sealed m0 ∧
  (∀ x, m_vars m !! x =
     if decide (x ∈ done0 ++ ps) then Some (Trace Assigned None None) else None).
Proof.
  induction ps as [|p ps IH]; intros done0 m0 m Hsc Hn Hv H; cbn [foldl] in H.
  - simplify_eq. by rewrite app_nil_r.
  - cbn in H. unfold declare in H at 2. rewrite Hv, Hsc in H.
    case_decide as Hp; [by rewrite fold_none in H|].
    eapply (IH (done0 ++ [p])) in H as (H1 & H2 & H3 & H4 & H5 & H6); [|done| |].
    1: { rewrite <- app_assoc in *. cbn [app] in *. auto 10. }
    + apply NoDup_app. split_and!; [done| |apply NoDup_singleton].
      intros x Hx ->%elem_of_list_singleton. done.
    + intros x. simpl. destruct (decide (x = p)) as [->|Hne].
      * rewrite lookup_insert, decide_True; [done|].
        apply elem_of_app. right. by left.
      * rewrite lookup_insert_ne, Hv by done.
        destruct (decide (x ∈ done0)) as [Hx|Hx].
        -- rewrite decide_True; [done|]. apply elem_of_app. by left.
        -- rewrite decide_False; [done|]. rewrite elem_of_app, elem_of_list_singleton. naive_solver.
Qed.

Lemma start_spec params m :
  start params = Some m →
  NoDup params ∧ m_scopes m = [(params, false)] ∧ m_flags m = ∅ ∧ m_next m = 1 ∧
  m_sealed m = false ∧
  (∀ x, m_vars m !! x =
     if decide (x ∈ params) then Some (Trace Assigned None None) else None).
Proof.
  intros H. apply (start_from params []) in H; [exact H|done|constructor|].
  intros x. rewrite decide_False by apply not_elem_of_nil. done.
Qed.

(** A mobile parameter never gets a drop flag. *)
Lemma pinned_stmt cls p s cur inl c m code m' s0 :
  manage_stmt true cur inl s m = Some (code, m') →
  calm_stmt cls c s = true → wf cls m → lates_ok cls c m → cur < m_next m →
  p ∈ c_pins c → st m p = Some s0 → s0 ≠ Maybe → p ∉ m_flags m →
  ∃ s1, st m' p = Some s1 ∧ s1 ≠ Maybe ∧ p ∉ m_flags m'.
Proof.
  intros H Hcalm W HL Hc Hp Hs Hne Hf.
  destruct (touches p s) eqn:Et.
  - destruct s as [x [[|y|y]|]|x src|x|x|x|a b|b|b|cs| | |[| |x]]; try done.
    + (* declaration from a moved variable *)
      cbn [manage_stmt] in H.
      apply bind_Some in H as (m1 & Hd & H). apply bind_Some in H as (m2 & Hi & H).
      simplify_eq. apply move_eq in Hi as [-> _]. unfold declare in Hd.
      destruct (m_vars m !! x) eqn:Ex; [done|].
      destruct (m_scopes m) as [|[xs l] r]; [done|]. simplify_eq.
      simpl in Et. apply bool_decide_eq_true in Et as ->.
      exists Moved. split_and!; [|done|done]. rewrite st_set_state, decide_True by done.
      unfold st. simpl. destruct (decide (y = x)) as [->|Hyx].
      * by rewrite lookup_insert.
      * rewrite lookup_insert_ne by done. unfold st in Hs. by destruct (m_vars m !! y).
    + (* assignment *)
      cbn [manage_stmt] in H. apply bind_Some in H as (mm & Hu & H).
      destruct (m_vars mm !! x) as [t|] eqn:Ex; [|done].
      destruct (drop_var cur inl x mm) as [cd m1] eqn:Ed. simplify_eq.
      pose proof (drop_var_step _ _ _ _ _ _ Ed) as Dst.
      assert (m_flags mm = m_flags m ∧ ∃ s1, st mm p = Some s1 ∧ s1 ≠ Maybe) as (Ef & s1 & Hs1 & Hn1).
      { destruct src as [|y|y|y]; simplify_eq.
        - eauto.
        - apply use_eq in Hu as ->. eauto.
        - apply move_eq in Hu as [-> _]. split; [done|]. rewrite st_set_state.
          case_decide; [|eauto]. subst. rewrite Hs. simpl. eauto.
        - apply use_eq in Hu as ->. eauto. }
      rewrite st_set_state, (st_dstep _ _ _ _ p Dst), Hs1. simpl.
      rewrite (ds_flags _ _ _ _ Dst), Ef.
      case_decide; simpl; eauto.
    + (* null *)
      cbn [manage_stmt] in H. destruct (m_vars m !! x) as [t|] eqn:Ex; [|done].
      destruct (drop_var cur inl x m) as [cd m1] eqn:Ed. simplify_eq.
      pose proof (drop_var_step _ _ _ _ _ _ Ed) as Dst.
      rewrite st_set_state, (st_dstep _ _ _ _ p Dst), Hs. simpl.
      rewrite (ds_flags _ _ _ _ Dst). case_decide; simpl; eauto.
    + (* moved *)
      cbn [manage_stmt] in H. apply bind_Some in H as (m1 & Hi & H). simplify_eq.
      apply move_eq in Hi as [-> _]. rewrite st_set_state, Hs. simpl.
      case_decide; simpl; eauto.
    + exfalso. cbn [calm_stmt] in Hcalm. apply andb_true_iff in Hcalm as [Ha Hb].
      simpl in Et. apply orb_true_iff in Et as [Et|Et].
      * rewrite (proj1 (proj2 (calm_frozen_all cls p)) _ _ Ha) in Et; [done|].
        simpl. apply elem_of_app. by left.
      * rewrite (proj1 (proj2 (calm_frozen_all cls p)) _ _ Hb) in Et; [done|].
        simpl. apply elem_of_app. by left.
    + exfalso. simpl in Et.
      rewrite (proj1 (proj2 (calm_frozen_all cls p)) _ _ Hcalm) in Et; [done|].
      simpl. rewrite !elem_of_app. tauto.
    + exfalso. simpl in Et.
      rewrite (proj1 (proj2 (calm_frozen_all cls p)) _ _ Hcalm) in Et; [done|].
      simpl. rewrite !elem_of_app. tauto.
    + exfalso. simpl in Et.
      rewrite (proj2 (proj2 (calm_frozen_all cls p)) _ _ Hcalm) in Et; [done|].
      simpl. rewrite !elem_of_app. tauto.
    + (* returned *)
      cbn [manage_stmt] in H. apply bind_Some in H as ([k m1] & Hk & H).
      apply bind_Some in Hk as (m2 & Hi & Hk). simplify_eq.
      apply move_eq in Hi as [-> _].
      destruct (seal cur inl true (set_state x Moved m)) as [cd m1] eqn:Ese. simplify_eq.
      unfold seal in Ese. destruct (drop_vars _ _ _ _) as [c1 m2] eqn:Ed. simplify_eq.
      pose proof (drop_vars_step _ _ _ _ _ _ Ed) as Dst. simpl.
      rewrite (ds_flags _ _ _ _ Dst).
      change (∃ s1, st m2 p = Some s1 ∧ s1 ≠ Maybe ∧ p ∉ m_flags m).
      rewrite (st_dstep _ _ _ _ p Dst), st_set_state, Hs. case_decide; simpl; eauto.
  - destruct (proj1 (static_all cls) s _ _ _ _ _ _ _ H Hcalm W HL Hc) as (S & _).
    apply st_Some in Hs as (t & Ht & <-).
    destruct (ss_var _ _ _ _ _ S p t Ht) as (t' & Ht' & V).
    exists (t_state t'). split_and!.
    + unfold st. by rewrite Ht'.
    + rewrite (vs_same _ _ _ _ _ _ _ _ V); done.
    + intros Hp'. apply Hf. apply (vs_flag _ _ _ _ _ _ _ _ V); auto.
Qed.

Lemma after_pins cls c s : c_pins (after cls c s) = c_pins c.
Proof. destruct s; simpl; try done. by destruct (cls x). Qed.

Lemma pinned_flags cls p b : ∀ cur inl c m code m' s,
  manage_stmts true cur inl b m = Some (code, m') →
  calm_block cls c b = true → wf cls m → lates_ok cls c m → cur < m_next m →
  p ∈ c_pins c → st m p = Some s → s ≠ Maybe → p ∉ m_flags m → p ∉ m_flags m'.
Proof.
  induction b as [|s0 b IH]; intros cur inl c m code m' s H Hcalm W HL Hc Hp Hs Hne Hf.
  - simpl in H. by simplify_eq.
  - cbn [manage_stmts calm_block] in *. apply andb_true_iff in Hcalm as [Hcs Hcb].
    apply bind_Some in H as ([c1 m1] & H1 & H).
    apply bind_Some in H as ([c2 m2] & H2 & H). simplify_eq.
    destruct (proj1 (static_all cls) s0 _ _ _ _ _ _ _ H1 Hcs W HL Hc) as (S1 & Sh1 & W1).
    destruct (pinned_stmt _ _ _ _ _ _ _ _ _ _ H1 Hcs W HL Hc Hp Hs Hne Hf)
      as (s1 & Hs1 & Hn1 & Hf1).
    eapply (IH _ _ (after cls c s0) m1); eauto.
    + by eapply lates_ok_after.
    + pose proof (ss_next _ _ _ _ _ S1). lia.
    + by rewrite after_pins.
Qed.

Lemma zip_lookup (ps : list nat) (x i : nat) :
  (x, i) ∈ zip ps (seq 0 (length ps)) ↔ ps !! i = Some x.
Proof.
  rewrite elem_of_list_lookup. split.
  - intros [k Hk]. apply lookup_zip_with_Some in Hk as (a & b & E & Ha & Hb).
    apply lookup_seq in Hb as [-> ?]. simplify_eq. done.
  - intros Hi. exists i. apply lookup_zip_with_Some. exists x, i. split_and!; [done|done|].
    apply lookup_seq. split; [done|]. by eapply lookup_lt_Some.
Qed.

Lemma call_lookup ps x i :
  NoDup ps → (list_to_map (zip ps (seq 0 (length ps))) : gmap nat nat) !! x = Some i ↔
  ps !! i = Some x.
Proof.
  intros Hn. rewrite <- zip_lookup. symmetry. apply elem_of_list_to_map.
  rewrite fst_zip; [done|]. by rewrite seq_length.
Qed.

Lemma owning_call ps : NoDup ps → owning (d_store (call ps)) None (call ps).
Proof.
  intros Hn. split; simpl.
  - done.
  - intros x y i. rewrite !call_lookup by done. congruence.
  - intros i. rewrite elem_of_list_to_set, elem_of_list_In, in_seq. split.
    + intros [_ Hi]. left. destruct (lookup_lt_is_Some_2 ps i) as [x Hx]; [done|].
      exists x. by apply call_lookup.
    + intros [[x Hx]|?]; [|done]. apply call_lookup in Hx; [|done].
      apply lookup_lt_Some in Hx. lia.
  - done.
  - intros i. rewrite elem_of_list_to_set, elem_of_list_In, in_seq. lia.
Qed.

Lemma flags_nil F (ps : list nat) :
  (∀ p, p ∈ ps → p ∉ F) → flat_map (λ p, flag F p false) ps = [].
Proof.
  induction ps as [|p ps IH]; intros H; [done|]. simpl. rewrite IH.
  - unfold flag. rewrite decide_False; [done|]. apply H. by left.
  - intros q Hq. apply H. by right.
Qed.

Lemma calm_released cls params body code o d' :
  compile true params body = Some code → calm_fun cls params body →
  execs code (call params) o d' → released_once o d'.
Proof.
  intros Hcomp [Hlate Hcalm] He. unfold compile, manage_fun in Hcomp.
  apply bind_Some in Hcomp as ([cc F] & Hm & Hcomp). injection Hcomp as <-.
  apply bind_Some in Hm as (m0 & Hst & Hm).
  apply bind_Some in Hm as ([c1 m1] & H1 & Hm).
  destruct (leave 0 false false m1) as [c2 m2] eqn:HLv. simplify_eq.
  destruct (start_spec _ _ Hst) as (Hn & Hsc & Hf & Hnx & Hse & Hv).
  set (mob := filter (λ p, cls p = Mobile) params) in *.
  set (c := Ctx false false mob [] [] [] [] mob) in *.
  assert (∀ x t, m_vars m0 !! x = Some t → x ∈ params ∧ t = Trace Assigned None None) as Hv'.
  { intros x t Ht. rewrite Hv in Ht. case_decide; [|done]. by simplify_eq. }
  assert (wf cls m0) as W.
  { split.
    - intros x t k Ht Hk. apply Hv' in Ht as [_ ->]. done.
    - intros x t k Ht Hk. apply Hv' in Ht as [_ ->]. done.
    - intros x t Ht. apply Hv' in Ht as [_ ->]. apply legal_assigned.
    - unfold all_locals. rewrite Hsc. simpl. by rewrite app_nil_r.
    - intros x. unfold all_locals. rewrite Hsc. simpl. rewrite app_nil_r, Hv.
      case_decide; split; try done; eauto. by intros [].
    - by rewrite Hsc. }
  assert (lates_ok cls c m0) as HL.
  { intros x t Ht Hx. apply Hv' in Ht as [Hx' _]. rewrite Forall_forall in Hlate.
    by apply Hlate in Hx'. }
  assert (cok cls c 0 false ∅ m0) as K.
  { split; try done.
    - intros x t Ht Hx. apply Hv' in Ht as [Hx' _]. left. split; [set_solver|].
      simpl. rewrite app_nil_r. unfold mob. by apply elem_of_list_filter. }
  assert (0 < m_next m0) as H0 by (rewrite Hnx; lia).
  destruct (proj1 (proj2 (static_all cls)) body _ _ _ _ _ _ _ H1 Hcalm W HL H0)
    as (S & Sh & W1).
  pose proof (sh_scopes _ _ _ _ Sh) as Hsc1. rewrite Hsc in Hsc1. simpl in Hsc1.
  destruct (leave_step _ _ _ _ _ _ _ _ _ HLv Hsc1) as (Ef & _ & _ & _ & _ & _).
  set (F := m_flags m2) in *.
  assert (∀ p, p ∈ params → p ∉ F) as HpF.
  { intros p Hp. rewrite Ef. destruct (cls p) eqn:Ec.
    - intros HpF. assert (p ∈ m_flags m0) as Hp0; [|rewrite Hf in Hp0; set_solver].
      assert (m_vars m0 !! p = Some (Trace Assigned None None)) as Ht
        by (rewrite Hv; by rewrite decide_True).
      destruct (ss_var _ _ _ _ _ S p _ Ht) as (t' & Ht' & V).
      apply (vs_flag _ _ _ _ _ _ _ _ V); [done| |done].
      right. split_and!; [unfold nonmob; by rewrite Ec|apply legal_assigned|done].
    - rewrite Forall_forall in Hlate. exfalso. by eapply Hlate.
    - eapply (pinned_flags cls p body 0 false c m0 c1 m1 Assigned); eauto.
      + simpl. unfold mob. by apply elem_of_list_filter.
      + unfold st. rewrite Hv. by rewrite decide_True.
      + rewrite Hf. set_solver. }
  rewrite flags_nil in He by done. cbn [app] in He.
  assert (inv cls F ∅ m0 (d_store (call params)) (call params)) as I.
  { apply inv_intro.
    - by apply owning_call.
    - done.
    - intros x [i Hi]. simpl in Hi. apply call_lookup in Hi; [|done].
      apply elem_of_list_lookup_2 in Hi. unfold st. rewrite Hv, decide_True; eauto.
    - intros x s (t & Ht & <-)%st_Some. apply Hv' in Ht as [Hx ->]. simpl.
      apply vrel_asg.
      + apply elem_of_list_lookup in Hx as [i Hi]. exists i. simpl. by apply call_lookup.
      + intros HxF. by apply HpF in HxF. }
  assert (∀ o1 d1, execs (flat_map (finalize F) c1) (call params) o1 d1 →
    post cls F (m_sealed m1) c ∅ (λ x, touches_block x body) m0 m1 (d_store (call params))
      (call params) o1 d1) as HD.
  { intros o1 d1 HE. eapply (proj1 (proj2 (dyn_all cls F)) body); eauto.
    - intros _ x t _ Hx. set_solver.
    - by rewrite Ef. }
  rewrite fin_app in He. apply execs_app in He as [[Ho He]|(d1 & He1 & He2)].
  - pose proof (HD _ _ He) as P. destruct o; simpl in P; try done.
    + by destruct P.
    + by destruct P.
    + simpl. apply set_eq. intros i. rewrite (P i).
      destruct (d_ret d'); [|set_solver]. rewrite elem_of_singleton. naive_solver.
  - destruct (HD _ _ He1) as (Hs1 & own1 & I1 & _).
    unfold leave in HLv. rewrite Hs1 in HLv. unfold locals in HLv. rewrite Hsc1 in HLv.
    destruct (drop_vars 0 false (params ++ own_decls body) m1) as [cd md] eqn:Ed.
    injection HLv as <- _.
    rewrite <- (app_nil_r (flat_map (finalize F) (reverse cd))) in He2.
    assert (all_locals m1 = params ++ own_decls body) as Eall.
    { unfold all_locals. rewrite Hsc1. simpl. by rewrite app_nil_r. }
    eapply (drop_list F _ _ _ _ _ _ own1 None) in He2
      as (d2 & own' & O & [-> ->] & A1 & A2 & _);
      [|exact Ed| | | | | |by right].
    + simpl. apply set_eq. intros i. split; [|set_solver].
      intros Hi. apply (ow_live _ _ _ O) in Hi as [[x Hx]|?]; [|done]. exfalso.
      destruct (decide (x ∈ params ++ own_decls body)) as [Hin|Hin].
      * by rewrite A1 in Hx.
      * rewrite A2 in Hx by done. apply Hin. rewrite <- Eall. apply (wf_dom _ _ W1).
        apply st_is_Some. apply (inv_own _ _ _ _ _ _ _ I1). eauto.
    + rewrite <- Eall. apply W1.
    + intros x Hx. rewrite <- Eall in Hx. by apply (wf_dom _ _ W1).
    + by apply (inv_owning _ _ _ _ _ _ I1).
    + intros x t Hx Ht Hnd. split.
      * eapply (needs_null cls F); eauto. done.
      * assert (st m1 x = Some (t_state t)) as Hst1 by (unfold st; by rewrite Ht).
        apply (inv_vrel _ _ _ _ _ _ _ _ I1 Hst1).
    + intros x t Hx Ht Hox. eapply (owned_needs cls F); eauto. set_solver.
Qed.
