(** * The invariant of the memory pass is kept by every statement *)
From stdpp Require Import numbers list gmap.
From Verif Require Import MemModel MemSpec MemEval MemStatic MemProofs.

Definition st (m : mst) (x : nat) : option vstate := t_state <$> m_vars m !! x.

Lemma st_Some m x s : st m x = Some s ↔ ∃ t, m_vars m !! x = Some t ∧ t_state t = s.
Proof. unfold st. rewrite fmap_Some. naive_solver. Qed.
Lemma st_is_Some m x : is_Some (st m x) ↔ is_Some (m_vars m !! x).
Proof. unfold st. apply fmap_is_Some. Qed.
Lemma st_None m x : st m x = None ↔ m_vars m !! x = None.
Proof. unfold st. apply fmap_None. Qed.

Lemma st_set_state x s m z :
  st (set_state x s m) z = if decide (z = x) then (λ _, s) <$> st m z else st m z.
Proof.
  unfold st. rewrite lookup_set_state. case_decide; [|done].
  by destruct (m_vars m !! z).
Qed.

Lemma st_dstep cur xs m m' z : dstep cur xs m m' → st m' z = st m z.
Proof.
  intros D. unfold st. destruct (ds_var _ _ _ _ D z) as [->|(_ & t & -> & ->)]; done.
Qed.

Lemma use_strict y m m' :
  use true y m = Some m' → m' = m ∧ st m y = Some Assigned.
Proof.
  intros H. pose proof (use_eq _ _ _ _ H) as ->. split; [done|].
  unfold use in H. unfold st. destruct (m_vars m !! y) as [t|]; [|done].
  simpl. by destruct (t_state t).
Qed.

Section with_class.
Context (cls : nat → class) (F : gset nat).

Notation nonmob := (nonmob cls).
Notation legal := (legal cls).
Notation fin := (flat_map (finalize F)).
Notation vrel := (vrel cls F).
Notation inv := (inv cls F).
Notation post := (post cls F).
Notation jumped := (jumped cls F).
Notation cok := (cok cls).
Notation dok := (dok cls).
Notation frame := (frame cls).

Lemma inv_vrel base m own d x s :
  inv base m own d → st m x = Some s → vrel base own d x s.
Proof. intros (_ & _ & _ & H) (t & Ht & <-)%st_Some. by apply H. Qed.

Lemma inv_own base m own d x :
  inv base m own d → is_Some (own !! x) → is_Some (st m x).
Proof. intros (_ & _ & H & _) Hx. rewrite st_is_Some. auto. Qed.

Lemma inv_owned base m own d x :
  inv base m own d → st m x = Some Assigned → ∃ i, own !! x = Some i.
Proof. intros I H. eapply vr_asg; [by eapply inv_vrel|done]. Qed.

Lemma inv_not_owned base m own d x :
  inv base m own d → st m x = None → own !! x = None.
Proof.
  intros I H. destruct (own !! x) eqn:E; [|done].
  destruct (inv_own _ _ _ _ x I) as [? ?]; [by rewrite E|]. congruence.
Qed.

Lemma inv_intro base m own d :
  owning own None d → d_ret d = None →
  (∀ x, is_Some (own !! x) → is_Some (st m x)) →
  (∀ x s, st m x = Some s → vrel base own d x s) → inv base m own d.
Proof.
  intros H1 H2 H3 H4. split_and!; [done|done| |].
  - intros x Hx. rewrite <- st_is_Some. auto.
  - intros x t Ht. apply H4. unfold st. by rewrite Ht.
Qed.

Lemma vrel_asg base own d x :
  is_Some (own !! x) → (x ∈ F → d_flags d !! x = Some true) →
  vrel base own d x Assigned.
Proof.
  intros H1 H2. split; auto; [|done|done].
  intros Hx. rewrite H2 by done. f_equal. symmetry. by apply held_true.
Qed.

Lemma vrel_gone base own d x s :
  own !! x = None → (x ∈ F → d_flags d !! x = Some false) →
  s = Moved ∨ s = Dropped → vrel base own d x s.
Proof.
  intros H1 H2 Hs. split.
  - intros ->. by destruct Hs.
  - rewrite H1. by intros [].
  - intros Hx. rewrite H2 by done. unfold held. by rewrite H1.
  - intros ->. by destruct Hs.
  - intros _ ->. by destruct Hs.
Qed.

Lemma upd_post c base tch m m' own d own' d' :
  inv base m own d → owning own' None d' → d_ret d' = None → m_sealed m' = false →
  (∀ z, is_Some (own' !! z) → is_Some (st m' z)) →
  (∀ z s', st m' z = Some s' →
     (st m z = Some s' ∧ same_at z own d own' d') ∨
     (vrel base own' d' z s' ∧
      (is_Some (st m z) → tch z = true ∧ s' ≠ Uninit))) →
  post (m_sealed m') c base tch m m' own d Fell d'.
Proof.
  intros I W Hr Hs Hd Hz. split; [done|]. exists own'. split.
  - apply inv_intro; auto. intros x s Hx.
    destruct (Hz x s Hx) as [[Hm Hsame]|[V _]]; [|done].
    eapply vrel_same; [done|]. by eapply inv_vrel.
  - intros x t' _ Hm Ht' Hcase.
    assert (st m' x = Some (t_state t')) as Hst by (unfold st; by rewrite Ht').
    destruct (Hz x _ Hst) as [[_ ?]|[_ Hx]]; [done|].
    apply st_is_Some in Hm. destruct (Hx Hm) as [E Hu].
    destruct Hcase as [?|[_ ?]]; congruence.
Qed.

Lemma same_at_ext z own d own' d' :
  own' !! z = own !! z → d_store d' !! z = d_store d !! z →
  d_flags d' !! z = d_flags d !! z → same_at z own d own' d'.
Proof. done. Qed.

(** ** The release before an assignment *)
Lemma drop_before c cur inl base m mm m1 x t cd own d l o d' :
  drop_var cur inl x mm = (cd, m1) → m_vars mm !! x = Some t → m_vars m !! x = Some t →
  may_assign cls c x = true → wf cls m → cok c cur inl base m → dok cur base m →
  m_sealed m = false → inv base m own d →
  execs (fin cd ++ l) d o d' →
  ∃ d1, owning (delete x own) None d1 ∧ d_ret d1 = None ∧ d_store d1 = d_store d ∧
    (x ∈ F → d_flags d1 !! x = Some false) ∧
    (∀ y, y ≠ x → d_flags d1 !! y = d_flags d !! y) ∧ execs l d1 o d'.
Proof.
  intros Hd Hmm Hm Hma W K D Hs I He.
  assert (st m x = Some (t_state t)) as Hst by (unfold st; by rewrite Hm).
  pose proof (inv_vrel _ _ _ _ _ _ I Hst) as V.
  destruct I as (O & R & _ & _).
  apply andb_true_iff in Hma as [Hfz Hloc]. apply negb_true_iff in Hfz.
  apply bool_decide_eq_false in Hfz.
  assert (is_Some (own !! x) → needs_drop cur inl t = true) as Hnd.
  { intros Hx. destruct (vr_own _ _ _ _ _ _ _ V Hx) as [E|[E|(E & Hb & Hn)]];
      unfold needs_drop; rewrite E; [done|done|].
    unfold in_child_loop.
    rewrite (bool_decide_eq_true_2 (t_scope t ≠ Some cur))
      by (by eapply (ck_out _ _ _ _ _ _ K)).
    rewrite (bool_decide_eq_true_2 (t_drop t ≠ Some cur)) by (by eapply D).
    destruct inl; [done|]. rewrite (ck_noloop _ _ _ _ _ _ K eq_refl) in Hb. set_solver. }
  assert (needs_drop cur inl t = true → x ∉ F →
    is_Some (own !! x) ∨ d_store d !! x = None) as Hnull.
  { intros Hn HF. unfold needs_drop in Hn.
    destruct (decide (cls x = Mobile)) as [Hmob|Hmob].
    - destruct (t_state t) eqn:E.
      2: { left. by apply V. }
      2: { exfalso. apply HF. by apply V. }
      all: exfalso; unfold in_child_loop in Hn;
        apply andb_true_iff in Hn as [Hn _]; apply andb_true_iff in Hn as [-> Hn];
        apply bool_decide_eq_true in Hn; apply Hn;
        pose proof (ck_loop _ _ _ _ _ _ K) as El; rewrite El in Hloc;
        unfold mobile in Hloc; rewrite (bool_decide_eq_true_2 (cls x = Mobile)) in Hloc by done;
        simpl in Hloc; apply bool_decide_eq_true in Hloc;
        apply (ck_here _ _ _ _ _ _ K eq_refl x t Hm Hmob); [|done];
        destruct (ck_mobile _ _ _ _ _ _ K x t Hm Hmob) as [[? _]|(_ & _ & ?)]; done.
    - pose proof (wf_legal _ _ W _ _ Hm) as Hl.
      destruct (t_state t) eqn:E.
      + right. by apply V.
      + left. by apply V.
      + exfalso. apply HF. by apply V.
      + exfalso. unfold MemStatic.legal in Hl. destruct (cls x); [done|by destruct Hl|done].
      + exfalso. unfold MemStatic.legal in Hl. destruct (cls x); [done|by destruct Hl|done]. }
  unfold drop_var in Hd. rewrite Hmm in Hd.
  destruct (needs_drop cur inl t) eqn:En; simplify_eq.
  - change [TDrop x] with (TDrop <$> [x]) in He.
    assert (∀ o1 d1, execs (fin (TDrop <$> [x])) d o1 d1 → o1 = Fell ∧
      owning (delete x own) None d1 ∧ d_ret d1 = None ∧ d_store d1 = d_store d ∧
      (x ∈ F → d_flags d1 !! x = Some false) ∧
      (∀ y, y ≠ x → d_flags d1 !! y = d_flags d !! y)) as Hdr.
    { intros o1 d1 H1.
      apply (drops_exec F _ own None) in H1
        as (-> & own' & W' & A1 & A2 & A3 & A4 & A5 & A6);
        [|by apply NoDup_singleton|done| |].
      - split; [done|].
        assert (own' = delete x own) as ->.
        { apply map_eq. intros y. destruct (decide (y = x)) as [->|Hne].
          - rewrite lookup_delete. apply A1. by left.
          - rewrite lookup_delete_ne by done. apply A2. by rewrite elem_of_list_singleton. }
        split_and!; auto.
        + by rewrite A4.
        + intros Hx. apply A5; [by left|done].
        + intros y Hy. apply A6. by rewrite elem_of_list_singleton.
      - intros y ->%elem_of_list_singleton Hy. by apply Hnull.
      - intros y ->%elem_of_list_singleton Hy. by apply V. }
    apply execs_app in He as [[Ho He]|(d1 & He & Hl)].
    + exfalso. apply Ho. by eapply Hdr.
    + apply Hdr in He as (_ & ?). exists d1. tauto.
  - assert (own !! x = None) as Hx.
    { destruct (own !! x) eqn:E; [|done]. exfalso.
      assert (false = true); [|done]. apply Hnd. eauto. }
    exists d. split_and!; auto.
    + by rewrite delete_notin.
    + intros HF. rewrite (vr_flag _ _ _ _ _ _ _ V HF). unfold held. by rewrite Hx.
Qed.

(** ** Statements that are not control flow *)

Definition stmt_dyn (s : stmt) : Prop := ∀ cur inl c base m code m' own d o d',
  manage_stmt true cur inl s m = Some (code, m') →
  calm_stmt cls c s = true → wf cls m → cok c cur inl base m → dok cur base m →
  cur < m_next m → m_flags m' ⊆ F → m_sealed m = false → inv base m own d →
  execs (fin code) d o d' →
  post (m_sealed m') c base (λ x, touches x s) m m' own d o d'.

Lemma inv_owning base m own d : inv base m own d → owning own None d.
Proof. by intros [? _]. Qed.
Lemma inv_ret base m own d : inv base m own d → d_ret d = None.
Proof. by intros (_ & ? & _). Qed.

Ltac step H := first
  [ eapply execs_prim in H; [|done|simpl; done]
  | rewrite <- ?app_assoc in H; apply execs_flag in H ].

Lemma dyn_decl x init : stmt_dyn (SDecl x init).
Proof.
  intros cur inl c base m code m' own d o d' H Hcalm W K D Hc HF Hs I He.
  cbn [manage_stmt] in H.
  apply bind_Some in H as (m1 & Hd & H). apply bind_Some in H as (m2 & Hi & H).
  simplify_eq. unfold declare in Hd.
  destruct (m_vars m !! x) eqn:Ex; [done|].
  destruct (m_scopes m) as [|[xs l] r] eqn:Esc; [done|]. simplify_eq.
  assert (st m x = None) as Hstx by (by apply st_None).
  pose proof (inv_not_owned _ _ _ _ _ I Hstx) as Hox.
  pose proof (inv_owning _ _ _ _ I) as O. pose proof (inv_ret _ _ _ _ I) as R.
  set (s0 := if init then Assigned else Uninit) in *.
  set (md := Mst (<[x:=Trace s0 (Some cur) None]> (m_vars m)) (m_flags m)
               ((xs ++ [x], l) :: r) (m_next m) (m_sealed m)) in *.
  assert (∀ z, st md z = if decide (z = x) then Some s0 else st m z) as Hmd.
  { intros z. unfold st, md. simpl. case_decide as Hz.
    - subst. by rewrite lookup_insert.
    - by rewrite lookup_insert_ne. }
  cbn [flat_map finalize] in He. rewrite app_nil_r in He.
  destruct init as [[|y|y]|]; cbn [calm_stmt] in Hcalm.
  - (* fresh *)
    clear Hcalm. simplify_eq. cbn [app] in He. eapply execs_prim in He; [|done|done].
    rewrite <- (app_nil_r (flag F x true)) in He. apply execs_flag in He.
    destruct He as [-> ->].
    apply (upd_post _ _ _ _ _ _ _ (<[x:=d_next d]> own)); auto.
    + apply owning_flagged. by apply owning_make.
    + by rewrite flagged_ret.
    + intros z. rewrite Hmd. case_decide; [eauto|]. rewrite lookup_insert_ne by done.
      apply (inv_own _ _ _ _ _ I).
    + intros z s' Hz. rewrite Hmd in Hz. case_decide as Hzx.
      * subst z. right. simplify_eq. split; [|by rewrite Hstx; intros []].
        apply vrel_asg; [by rewrite lookup_insert|].
        intros HxF. rewrite flagged_flags by done. by rewrite decide_True.
      * left. split; [done|]. apply same_at_ext.
        -- by rewrite lookup_insert_ne.
        -- rewrite flagged_store. simpl. by rewrite lookup_insert_ne.
        -- by rewrite flagged_flags_ne.
  - (* copy *)
    apply use_strict in Hi as [-> Hy]. apply andb_true_iff in Hcalm as [_ Hyx].
    apply bool_decide_eq_true in Hyx.
    rewrite Hmd, decide_False in Hy by done.
    destruct (inv_owned _ _ _ _ _ I Hy) as [i Hi].
    cbn [app] in He. eapply execs_prim in He;
      [|done|simpl; rewrite (owning_read _ _ _ _ _ O Hi); done].
    rewrite <- (app_nil_r (flag F x true)) in He. apply execs_flag in He.
    destruct He as [-> ->].
    apply (upd_post _ _ _ _ _ _ _ (<[x:=d_next d]> own)); auto.
    + apply owning_flagged. by apply owning_make.
    + by rewrite flagged_ret.
    + intros z. rewrite Hmd. case_decide; [eauto|]. rewrite lookup_insert_ne by done.
      apply (inv_own _ _ _ _ _ I).
    + intros z s' Hz. rewrite Hmd in Hz. case_decide as Hzx.
      * subst z. right. simplify_eq. split; [|by rewrite Hstx; intros []].
        apply vrel_asg; [by rewrite lookup_insert|].
        intros HxF. rewrite flagged_flags by done. by rewrite decide_True.
      * left. split; [done|]. apply same_at_ext.
        -- by rewrite lookup_insert_ne.
        -- rewrite flagged_store. simpl. by rewrite lookup_insert_ne.
        -- by rewrite flagged_flags_ne.
  - (* move *)
    apply move_eq in Hi as [-> Hi]. apply use_strict in Hi as [_ Hy].
    apply andb_true_iff in Hcalm as [_ Hcalm]. apply andb_true_iff in Hcalm as [Hyx Hmv].
    apply bool_decide_eq_true in Hyx. pose proof (may_move_mobile _ _ _ Hmv) as Hmob.
    rewrite Hmd, decide_False in Hy by done.
    destruct (inv_owned _ _ _ _ _ I Hy) as [i Hi].
    cbn [app] in He. eapply execs_prim in He;
      [|done|simpl; rewrite (owning_read _ _ _ _ _ O Hi); done].
    rewrite <- (app_nil_r (flag F x true)) in He.
    apply execs_flag in He. apply execs_flag in He.
    destruct He as [-> ->].
    apply (upd_post _ _ _ _ _ _ _ (<[x:=i]> (delete y own))); auto.
    + apply owning_flagged, owning_flagged. by apply owning_move.
    + by rewrite !flagged_ret.
    + intros z Hz. rewrite st_set_state, Hmd. case_decide as Hzy.
      * subst. rewrite decide_False by done. rewrite Hy. eauto.
      * case_decide; [eauto|]. rewrite lookup_insert_ne in Hz by done.
        rewrite lookup_delete_ne in Hz by done. by apply (inv_own _ _ _ _ _ I).
    + intros z s' Hz. rewrite st_set_state, Hmd in Hz. case_decide as Hzy.
      * subst z. rewrite decide_False in Hz by done. rewrite Hy in Hz. simpl in Hz.
        simplify_eq. right. split.
        -- apply vrel_gone; [|intros HyF|by left].
           ++ rewrite lookup_insert_ne by done. apply lookup_delete.
           ++ rewrite flagged_flags_ne by done. rewrite flagged_flags by done.
              by rewrite decide_True.
        -- intros _. split; [|done]. simpl. by apply bool_decide_eq_true.
      * case_decide as Hzx.
        -- subst z. right. simplify_eq. split; [|by rewrite Hstx; intros []].
           apply vrel_asg; [by rewrite lookup_insert|].
           intros HxF. rewrite flagged_flags by done. by rewrite decide_True.
        -- left. split; [done|]. apply same_at_ext.
           ++ rewrite lookup_insert_ne by done. by rewrite lookup_delete_ne.
           ++ rewrite !flagged_store. simpl. by rewrite lookup_insert_ne.
           ++ by rewrite !flagged_flags_ne.
  - (* none *)
    clear Hcalm. simplify_eq. cbn [app] in He. eapply execs_prim in He; [|done|done].
    rewrite <- (app_nil_r (flag F x false)) in He. apply execs_flag in He.
    destruct He as [-> ->].
    apply (upd_post _ _ _ _ _ _ _ own); auto.
    + apply owning_flagged. by apply owning_null.
    + by rewrite flagged_ret.
    + intros z Hz. rewrite Hmd. case_decide; [eauto|]. by apply (inv_own _ _ _ _ _ I).
    + intros z s' Hz. rewrite Hmd in Hz. case_decide as Hzx.
      * subst z. right. simplify_eq. split; [|by rewrite Hstx; intros []].
        split.
        -- done.
        -- rewrite Hox. by intros [].
        -- intros HxF. rewrite flagged_flags by done. rewrite decide_True by done.
           unfold held. by rewrite Hox.
        -- done.
        -- intros _ _ _. rewrite flagged_store. simpl. apply lookup_delete.
      * left. split; [done|]. apply same_at_ext.
        -- done.
        -- rewrite flagged_store. simpl. by rewrite lookup_delete_ne.
        -- by rewrite flagged_flags_ne.
Qed.

Lemma dyn_assign x src : stmt_dyn (SAssign x src).
Proof.
  intros cur inl c base m code m' own d o d' H Hcalm W K D Hc HF Hs I He.
  cbn [manage_stmt calm_stmt] in *.
  apply andb_true_iff in Hcalm as [Hma Hsrc].
  apply bind_Some in H as (mm & Hu & H).
  destruct (m_vars mm !! x) as [t|] eqn:Et; [|done].
  destruct (drop_var cur inl x mm) as [cd m1] eqn:Ed. simplify_eq.
  pose proof (drop_var_step _ _ _ _ _ _ Ed) as Dst.
  pose proof (inv_owning _ _ _ _ I) as O.
  rewrite flat_map_app in He. cbn [flat_map finalize] in He. rewrite app_nil_r in He.
  destruct src as [|y|y|y]; [| | |]; try done.
  - (* fresh *)
    simplify_eq.
    eapply drop_before in He; eauto. destruct He as (d1 & O1 & R1 & S1 & X1 & Y1 & He).
    cbn [app] in He. eapply execs_prim in He; [|done|done].
    rewrite <- (app_nil_r (flag F x true)) in He. apply execs_flag in He.
    destruct He as [-> ->].
    apply (upd_post _ _ _ _ _ _ _ (<[x:=d_next d1]> (delete x own))); auto.
    + apply owning_flagged. apply owning_make; [done|]. apply lookup_delete.
    + by rewrite flagged_ret.
    + simpl. by rewrite (ds_sealed _ _ _ _ Dst).
    + intros z Hz. rewrite st_set_state, (st_dstep _ _ _ _ z Dst). case_decide.
      * subst. apply fmap_is_Some, st_is_Some. eauto.
      * rewrite lookup_insert_ne, lookup_delete_ne in Hz by done.
        by apply (inv_own _ _ _ _ _ I).
    + intros z s' Hz. rewrite st_set_state, (st_dstep _ _ _ _ z Dst) in Hz.
      case_decide as Hzx.
      * subst z. right. apply fmap_Some in Hz as (? & _ & ->). split.
        -- apply vrel_asg; [by rewrite lookup_insert|]. intros HxF.
           rewrite flagged_flags by done. by rewrite decide_True.
        -- intros _. split; [|done]. simpl. by rewrite bool_decide_eq_true_2.
      * left. split; [done|]. apply same_at_ext.
        -- rewrite lookup_insert_ne by done. by rewrite lookup_delete_ne.
        -- rewrite flagged_store. simpl. rewrite lookup_insert_ne by done. by rewrite S1.
        -- rewrite flagged_flags_ne by done. simpl. by apply Y1.
  - (* move *)
    apply move_eq in Hu as [-> Hi]. apply use_strict in Hi as [_ Hy].
    apply andb_true_iff in Hsrc as [Hyx Hmv]. apply bool_decide_eq_true in Hyx.
    pose proof (may_move_mobile _ _ _ Hmv) as Hmob.
    assert (m_vars m !! x = Some t) as Htm.
    { rewrite lookup_set_state in Et. by rewrite decide_False in Et. }
    destruct (inv_owned _ _ _ _ _ I Hy) as [i Hi].
    eapply drop_before in He; eauto. destruct He as (d1 & O1 & R1 & S1 & X1 & Y1 & He).
    assert (delete x own !! y = Some i) as Hi' by (by rewrite lookup_delete_ne).
    cbn [app] in He. eapply execs_prim in He;
      [|done|simpl; rewrite (owning_read _ _ _ _ _ O1 Hi'); done].
    rewrite <- (app_nil_r (flag F x true)) in He.
    apply execs_flag in He. apply execs_flag in He.
    destruct He as [-> ->].
    apply (upd_post _ _ _ _ _ _ _ (<[x:=i]> (delete y (delete x own)))); auto.
    + apply owning_flagged, owning_flagged. apply owning_move; auto. apply lookup_delete.
    + by rewrite !flagged_ret.
    + simpl. by rewrite (ds_sealed _ _ _ _ Dst).
    + intros z Hz. rewrite st_set_state, (st_dstep _ _ _ _ z Dst), st_set_state.
      assert (is_Some (st m z)) as Hmz.
      { destruct (decide (z = x)) as [->|]; [apply st_is_Some; eauto|].
        destruct (decide (z = y)) as [->|]; [eauto|].
        rewrite lookup_insert_ne, !lookup_delete_ne in Hz by done.
        by apply (inv_own _ _ _ _ _ I). }
      repeat case_decide; rewrite ?fmap_is_Some; done.
    + intros z s' Hz. rewrite st_set_state, (st_dstep _ _ _ _ z Dst), st_set_state in Hz.
      destruct (decide (z = x)) as [Hzx|Hzx].
      * subst z. right. apply fmap_Some in Hz as (? & _ & ->). split.
        -- apply vrel_asg; [by rewrite lookup_insert|]. intros HxF.
           rewrite flagged_flags by done. by rewrite decide_True.
        -- intros _. split; [|done]. simpl. by rewrite bool_decide_eq_true_2.
      * destruct (decide (z = y)) as [Hzy|Hzy].
        -- subst z. right. apply fmap_Some in Hz as (? & _ & ->). split.
           ++ apply vrel_gone; [|intros HyF|by left].
              ** rewrite lookup_insert_ne by done. apply lookup_delete.
              ** rewrite flagged_flags_ne by done. rewrite flagged_flags by done.
                 by rewrite decide_True.
           ++ intros _. split; [|done]. simpl. apply orb_true_iff. right.
              by apply bool_decide_eq_true.
        -- left. split; [done|]. apply same_at_ext.
           ++ rewrite lookup_insert_ne by done. by rewrite !lookup_delete_ne.
           ++ rewrite !flagged_store. simpl. rewrite lookup_insert_ne by done. by rewrite S1.
           ++ rewrite !flagged_flags_ne by done. simpl. by apply Y1.
  - (* using *)
    apply use_strict in Hu as [-> Hy]. apply bool_decide_eq_true in Hsrc. rename Hsrc into Hyx.
    destruct (inv_owned _ _ _ _ _ I Hy) as [i Hi].
    eapply drop_before in He; eauto. destruct He as (d1 & O1 & R1 & S1 & X1 & Y1 & He).
    assert (delete x own !! y = Some i) as Hi' by (by rewrite lookup_delete_ne).
    cbn [app] in He. eapply execs_prim in He;
      [|done|simpl; rewrite (owning_read _ _ _ _ _ O1 Hi'); done].
    rewrite <- (app_nil_r (flag F x true)) in He. apply execs_flag in He.
    destruct He as [-> ->].
    apply (upd_post _ _ _ _ _ _ _ (<[x:=d_next d1]> (delete x own))); auto.
    + apply owning_flagged. apply owning_make; [done|]. apply lookup_delete.
    + by rewrite flagged_ret.
    + simpl. by rewrite (ds_sealed _ _ _ _ Dst).
    + intros z Hz. rewrite st_set_state, (st_dstep _ _ _ _ z Dst). case_decide.
      * subst. apply fmap_is_Some, st_is_Some. eauto.
      * rewrite lookup_insert_ne, lookup_delete_ne in Hz by done.
        by apply (inv_own _ _ _ _ _ I).
    + intros z s' Hz. rewrite st_set_state, (st_dstep _ _ _ _ z Dst) in Hz.
      case_decide as Hzx.
      * subst z. right. apply fmap_Some in Hz as (? & _ & ->). split.
        -- apply vrel_asg; [by rewrite lookup_insert|]. intros HxF.
           rewrite flagged_flags by done. by rewrite decide_True.
        -- intros _. split; [|done]. simpl. by rewrite bool_decide_eq_true_2.
      * left. split; [done|]. apply same_at_ext.
        -- rewrite lookup_insert_ne by done. by rewrite lookup_delete_ne.
        -- rewrite flagged_store. simpl. rewrite lookup_insert_ne by done. by rewrite S1.
        -- rewrite flagged_flags_ne by done. simpl. by apply Y1.
Qed.

Lemma dyn_null x : stmt_dyn (SNull x).
Proof.
  intros cur inl c base m code m' own d o d' H Hcalm W K D Hc HF Hs I He.
  cbn [manage_stmt calm_stmt] in *.
  apply andb_true_iff in Hcalm as [Hmv Hma].
  destruct (m_vars m !! x) as [t|] eqn:Et; [|done].
  destruct (drop_var cur inl x m) as [cd m1] eqn:Ed. simplify_eq.
  pose proof (drop_var_step _ _ _ _ _ _ Ed) as Dst.
  rewrite <- (app_nil_r (fin code)) in He.
  eapply drop_before in He; eauto. destruct He as (d1 & O1 & R1 & S1 & X1 & Y1 & -> & ->).
  apply (upd_post _ _ _ _ _ _ _ (delete x own)); auto.
  - simpl. by rewrite (ds_sealed _ _ _ _ Dst).
  - intros z Hz. rewrite st_set_state, (st_dstep _ _ _ _ z Dst). case_decide.
    + subst. rewrite lookup_delete in Hz. by destruct Hz.
    + rewrite lookup_delete_ne in Hz by done. by apply (inv_own _ _ _ _ _ I).
  - intros z s' Hz. rewrite st_set_state, (st_dstep _ _ _ _ z Dst) in Hz.
    case_decide as Hzx.
    + subst z. right. apply fmap_Some in Hz as (? & _ & ->). split.
      * apply vrel_gone; [apply lookup_delete|done|by right].
      * intros _. split; [|done]. simpl. by apply bool_decide_eq_true.
    + left. split; [done|]. apply same_at_ext.
      * by rewrite lookup_delete_ne.
      * by rewrite S1.
      * by apply Y1.
Qed.

Lemma dyn_move x : stmt_dyn (SMove x).
Proof.
  intros cur inl c base m code m' own d o d' H Hcalm W K D Hc HF Hs I He.
  cbn [manage_stmt calm_stmt] in *.
  apply bind_Some in H as (m1 & Hm & H). simplify_eq.
  apply move_eq in Hm as [-> Hu]. apply use_strict in Hu as [_ Hx].
  destruct (inv_owned _ _ _ _ _ I Hx) as [i Hi].
  pose proof (inv_owning _ _ _ _ I) as O. pose proof (inv_ret _ _ _ _ I) as R.
  cbn [flat_map finalize] in He. cbn [app] in He.
  eapply execs_prim in He; [|done|simpl; rewrite (owning_read _ _ _ _ _ O Hi); done].
  apply execs_flag in He. destruct He as [-> ->].
  apply (upd_post _ _ _ _ _ _ _ (delete x own)); auto.
  - apply owning_flagged. by apply owning_remove.
  - by rewrite flagged_ret.
  - intros z Hz. rewrite st_set_state. case_decide.
    + subst. rewrite lookup_delete in Hz. by destruct Hz.
    + rewrite lookup_delete_ne in Hz by done. by apply (inv_own _ _ _ _ _ I).
  - intros z s' Hz. rewrite st_set_state in Hz. case_decide as Hzx.
    + subst z. right. apply fmap_Some in Hz as (? & _ & ->). split.
      * apply vrel_gone; [apply lookup_delete| |by left].
        intros HxF. rewrite flagged_flags by done. by rewrite decide_True.
      * intros _. split; [|done]. simpl. by apply bool_decide_eq_true.
    + left. split; [done|]. apply same_at_ext.
      * by rewrite lookup_delete_ne.
      * by rewrite flagged_store.
      * by rewrite flagged_flags_ne.
Qed.

Lemma dyn_use x : stmt_dyn (SUse x).
Proof.
  intros cur inl c base m code m' own d o d' H Hcalm W K D Hc HF Hs I He.
  cbn [manage_stmt calm_stmt] in *.
  apply bind_Some in H as (m1 & Hm & H). simplify_eq.
  apply use_strict in Hm as [-> Hx].
  destruct (inv_owned _ _ _ _ _ I Hx) as [i Hi].
  pose proof (inv_owning _ _ _ _ I) as O. pose proof (inv_ret _ _ _ _ I) as R.
  cbn [flat_map finalize] in He. cbn [app] in He.
  eapply execs_prim in He; [|done|simpl; rewrite (owning_read _ _ _ _ _ O Hi); done].
  destruct He as [-> ->].
  apply (upd_post _ _ _ _ _ _ _ own); auto.
  - intros z Hz. by apply (inv_own _ _ _ _ _ I).
  - intros z s' Hz. left. done.
Qed.
End with_class.
