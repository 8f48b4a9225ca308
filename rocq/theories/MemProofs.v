(** * The releases put in by the memory pass, along every execution *)
From stdpp Require Import numbers list gmap.
From Verif Require Import MemModel MemSpec MemEval MemStatic.

(** ** Executing lists *)

Lemma execs_app a b d o d' :
  execs (a ++ b) d o d' →
  (o ≠ Fell ∧ execs a d o d') ∨ ∃ d1, execs a d Fell d1 ∧ execs b d1 o d'.
Proof.
  revert d. induction a as [|s a IH]; intros d H; simpl in *.
  - right. exists d. done.
  - destruct H as [[Ho H]|(d1 & H1 & H2)].
    + left. split; [done|]. left. done.
    + destruct (IH d1 H2) as [[Ho H]|(d2 & H3 & H4)].
      * left. split; [done|]. right. eauto.
      * right. exists d2. split; [|done]. right. eauto.
Qed.

Lemma execs_prim s l d d1 o d' :
  exec s = primr s → prim s d = Some d1 →
  execs (s :: l) d o d' → execs l d1 o d'.
Proof.
  intros E H [[Ho He]|(d2 & He & Hl)]; rewrite E in He; unfold primr in He;
    rewrite H in He; destruct He as [? ->]; done.
Qed.

Lemma execs_one s d o d' : execs [s] d o d' → exec s d o d'.
Proof. intros [[? ?]|(d1 & H & Ho & Hd)]; [done|]. by subst. Qed.

Ltac here H := match type of H with execs _ ?d _ _ => exists d end.

(** ** Ownership *)

Record owning (own : gmap nat nat) (rt : option nat) (d : dst) : Prop := {
  ow_store : ∀ x i, own !! x = Some i → d_store d !! x = Some i;
  ow_inj : ∀ x y i, own !! x = Some i → own !! y = Some i → x = y;
  ow_live : ∀ i, i ∈ d_live d ↔ (∃ x, own !! x = Some i) ∨ rt = Some i;
  ow_rt : ∀ x i, rt = Some i → own !! x ≠ Some i;
  ow_next : ∀ i, i ∈ d_live d → i < d_next d;
}.

Lemma owning_read own rt d y i :
  owning own rt d → own !! y = Some i → read y d = Some (Some i).
Proof.
  intros W H. unfold read. rewrite (ow_store _ _ _ W _ _ H).
  rewrite decide_True; [done|]. apply (ow_live _ _ _ W). eauto.
Qed.

Lemma owning_remove own rt d x i :
  owning own rt d → own !! x = Some i →
  owning (delete x own) rt (with_live (d_live d ∖ {[i]}) d).
Proof.
  intros [W1 W2 W3 W4 W5] H. split; simpl.
  - intros y j [? ?]%lookup_delete_Some. auto.
  - intros y z j [? ?]%lookup_delete_Some [? ?]%lookup_delete_Some. eauto.
  - intros j. rewrite elem_of_difference, W3, elem_of_singleton. split.
    + intros [[[y Hy]|Hr] Hne]; [left|by right]. exists y.
      rewrite lookup_delete_ne; [done|]. intros ->. congruence.
    + intros [[y Hy]|Hr].
      * apply lookup_delete_Some in Hy as [Hne Hy]. split; [eauto|].
        intros ->. apply Hne. eauto.
      * split; [by right|]. intros ->. by apply (W4 x i).
  - intros y j Hr Hj. apply lookup_delete_Some in Hj as [? ?]. by eapply W4.
  - intros j Hj. apply elem_of_difference in Hj as [? ?]. auto.
Qed.

Lemma owning_release own rt d x i :
  owning own rt d → own !! x = Some i →
  release x d = Some (with_live (d_live d ∖ {[i]}) d).
Proof.
  intros W H. unfold release. rewrite (ow_store _ _ _ W _ _ H).
  rewrite decide_True; [done|]. apply (ow_live _ _ _ W). eauto.
Qed.

Lemma next_fresh own rt d :
  owning own rt d → d_next d ∉ d_live d.
Proof. intros W H. apply (ow_next _ _ _ W) in H. lia. Qed.

Lemma owning_make own rt d x :
  owning own rt d → own !! x = None →
  owning (<[x := d_next d]> own) rt (make x d).
Proof.
  intros W H. pose proof (next_fresh _ _ _ W) as Hf.
  destruct W as [W1 W2 W3 W4 W5]. split; simpl.
  - intros y j. rewrite !lookup_insert_Some. intros [[-> ->]|[? ?]]; auto.
  - intros y z j. rewrite !lookup_insert_Some.
    intros [[-> <-]|[? Hy]] [[-> ?]|[? Hz]]; auto.
    + exfalso. apply Hf, W3. eauto.
    + subst. exfalso. apply Hf, W3. eauto.
    + eauto.
  - intros j. rewrite elem_of_union, elem_of_singleton, W3. split.
    + intros [->|[[y Hy]|Hr]]; [left|left|by right].
      * exists x. by rewrite lookup_insert.
      * exists y. rewrite lookup_insert_ne; [done|]. congruence.
    + intros [[y Hy]|Hr]; [|auto]. apply lookup_insert_Some in Hy as [[-> ->]|[? ?]]; eauto.
  - intros y j -> Hj. apply lookup_insert_Some in Hj as [[-> <-]|[? ?]].
    + apply Hf, W3. by right.
    + by eapply W4.
  - intros j [->%elem_of_singleton|Hj]%elem_of_union; [lia|]. apply W5 in Hj. lia.
Qed.

Lemma owning_move own rt d x y i :
  owning own rt d → own !! y = Some i → own !! x = None → x ≠ y →
  owning (<[x := i]> (delete y own)) rt (put x (Some i) d).
Proof.
  intros [W1 W2 W3 W4 W5] Hy Hx Hne. split; simpl.
  - intros z j. rewrite !lookup_insert_Some, lookup_delete_Some.
    intros [[-> ->]|[? [? ?]]]; auto.
  - intros z w j. rewrite !lookup_insert_Some, !lookup_delete_Some.
    intros [[-> <-]|(? & ? & Hz)] [[-> ?]|(? & ? & Hw)]; auto.
    + exfalso. eauto.
    + subst. exfalso. eauto.
    + eauto.
  - intros j. rewrite W3. f_equiv. split.
    + intros [z Hz]. destruct (decide (z = y)) as [->|].
      * exists x. rewrite lookup_insert. congruence.
      * exists z. rewrite lookup_insert_ne by congruence. by rewrite lookup_delete_ne.
    + intros [z Hz]. apply lookup_insert_Some in Hz as [[-> ->]|[? Hz]]; [eauto|].
      apply lookup_delete_Some in Hz as [? ?]. eauto.
  - intros z j Hr Hj. apply lookup_insert_Some in Hj as [[-> ->]|[? Hj]].
    + by eapply W4.
    + apply lookup_delete_Some in Hj as [? ?]. by eapply W4.
  - auto.
Qed.

Lemma owning_null own rt d x :
  owning own rt d → own !! x = None → owning own rt (put x None d).
Proof.
  intros [W1 W2 W3 W4 W5] Hx. split; simpl; auto.
  intros z j Hz. rewrite lookup_delete_ne; [auto|]. congruence.
Qed.

Lemma owning_keep own d x i :
  owning own None d → own !! x = Some i →
  owning (delete x own) (Some i) (with_ret (Some i) d).
Proof.
  intros [W1 W2 W3 W4 W5] Hx. split; simpl; auto.
  - intros y j [? ?]%lookup_delete_Some. auto.
  - intros y z j [? ?]%lookup_delete_Some [? ?]%lookup_delete_Some. eauto.
  - intros j. rewrite W3. split.
    + intros [[y Hy]|?]; [|done]. destruct (decide (y = x)) as [->|].
      * right. congruence.
      * left. exists y. by rewrite lookup_delete_ne.
    + intros [[y Hy]|?]; [|simplify_eq; eauto].
      apply lookup_delete_Some in Hy as [? ?]. eauto.
  - intros y j ? Hj. simplify_eq. apply lookup_delete_Some in Hj as [Hne Hj].
    apply Hne. eauto.
Qed.

Lemma owning_keepnew own d :
  owning own None d →
  owning own (Some (d_next d)) (with_ret (Some (d_next d)) (acquire d)).
Proof.
  intros W. pose proof (next_fresh _ _ _ W) as Hf.
  destruct W as [W1 W2 W3 W4 W5]. split; simpl; auto.
  - intros j. rewrite elem_of_union, elem_of_singleton, W3. split.
    + intros [->|[?|?]]; auto. done.
    + intros [?|?]; [by auto|]. left. congruence.
  - intros y j ? Hj. simplify_eq. apply Hf, W3. eauto.
  - intros j [->%elem_of_singleton|Hj]%elem_of_union; [lia|]. apply W5 in Hj. lia.
Qed.

Definition set_flag (x : nat) (b : bool) (d : dst) : dst :=
  Dst (d_store d) (d_live d) (d_next d) (<[x := b]> (d_flags d)) (d_ret d).

Lemma owning_flag own rt d x b :
  owning own rt d → owning own rt (set_flag x b d).
Proof. intros []. by split. Qed.

Section with_class.
Context (cls : nat → class) (F : gset nat).

Notation nonmob := (nonmob cls).
Notation legal := (legal cls).
Notation fin := (flat_map (finalize F)).

Definition held (own : gmap nat nat) (x : nat) : bool :=
  match own !! x with Some _ => true | None => false end.

Lemma held_true own x : held own x = true ↔ is_Some (own !! x).
Proof. unfold held. destruct (own !! x); split; [eauto|done|done|by intros []]. Qed.

(** Setting the flag of [x], if it has one. *)
Definition flagged (x : nat) (b : bool) (d : dst) : dst :=
  if decide (x ∈ F) then set_flag x b d else d.

Lemma execs_flag x b l d o d' :
  execs (flag F x b ++ l) d o d' → execs l (flagged x b d) o d'.
Proof.
  unfold flag, flagged. case_decide; [|done]. cbn [app].
  by apply execs_prim.
Qed.

Lemma flagged_store x b d : d_store (flagged x b d) = d_store d.
Proof. unfold flagged. by case_decide. Qed.
Lemma flagged_ret x b d : d_ret (flagged x b d) = d_ret d.
Proof. unfold flagged. by case_decide. Qed.
Lemma flagged_flags x b d y :
  y ∈ F → d_flags (flagged x b d) !! y = if decide (y = x) then Some b else d_flags d !! y.
Proof.
  intros Hy. unfold flagged. destruct (decide (y = x)) as [->|Hne].
  - rewrite decide_True by done. simpl. by rewrite lookup_insert.
  - case_decide; [|done]. simpl. by rewrite lookup_insert_ne.
Qed.
Lemma flagged_flags_ne x b d y :
  y ≠ x → d_flags (flagged x b d) !! y = d_flags d !! y.
Proof.
  intros Hy. unfold flagged. case_decide; [|done]. simpl. by rewrite lookup_insert_ne.
Qed.
Lemma owning_flagged own rt d x b :
  owning own rt d → owning own rt (flagged x b d).
Proof. unfold flagged. case_decide; [apply owning_flag|done]. Qed.

(** ** Releasing a list of variables *)

Lemma drop_vars_code cur inl xs m c m' :
  drop_vars cur inl xs m = (c, m') → NoDup xs →
  (∀ x, x ∈ xs → is_Some (m_vars m !! x)) →
  ∃ ys, c = TDrop <$> ys ∧ NoDup ys ∧
    ∀ x, x ∈ ys ↔ x ∈ xs ∧ ∃ t, m_vars m !! x = Some t ∧ needs_drop cur inl t = true.
Proof.
  revert m c m'. induction xs as [|x xs IH]; intros m c m' H Hn Hd; simpl in H.
  - simplify_eq. exists []. split_and!; [done|constructor|].
    intros x. split; [|by intros [? _]]. intros Hx. by apply elem_of_nil in Hx.
  - apply NoDup_cons in Hn as [Hx Hn].
    destruct (drop_var cur inl x m) as [c1 m1] eqn:E1.
    destruct (drop_vars cur inl xs m1) as [c2 m2] eqn:E2. simplify_eq.
    pose proof (drop_var_step _ _ _ _ _ _ E1) as D.
    assert (∀ y, y ≠ x → m_vars m1 !! y = m_vars m !! y) as Hsame.
    { intros y Hy. destruct (ds_var _ _ _ _ D y) as [?|(Hy' & _)]; [done|].
      by apply elem_of_list_singleton in Hy'. }
    destruct (IH m1 c2 m' E2 Hn) as (ys & -> & Hys & Hiff).
    { intros y Hy. rewrite Hsame; [apply Hd; by right|]. by intros ->. }
    destruct (Hd x) as [t Ht]; [by left|].
    unfold drop_var in E1. rewrite Ht in E1.
    assert (∀ y, y ∈ ys → y ≠ x) as Hyx.
    { intros y Hy ->. by apply Hiff in Hy as [? _]. }
    destruct (needs_drop cur inl t) eqn:En; simplify_eq.
    + exists (x :: ys). split_and!.
      * done.
      * apply NoDup_cons. split; [|done]. intros Hxy. by apply (Hyx x).
      * intros y. rewrite !elem_of_cons. split.
        -- intros [->|Hy]; [eauto|]. pose proof (Hyx y Hy).
           apply Hiff in Hy as [? Hy]. rewrite Hsame in Hy by done. eauto.
        -- intros [[->|Hy] Hnd]; [by left|right]. apply Hiff. split; [done|].
           rewrite Hsame; [done|]. by intros ->.
    + exists ys. split_and!; [done|done|]. intros y. rewrite elem_of_cons, Hiff.
      split; [by intros [? ?]; eauto|]. intros [[->|Hy] (t' & Ht' & Hnd)].
      * congruence.
      * eauto.
Qed.

Lemma drops_exec ys own rt d o d' :
  NoDup ys → owning own rt d →
  (∀ x, x ∈ ys → x ∉ F → is_Some (own !! x) ∨ d_store d !! x = None) →
  (∀ x, x ∈ ys → x ∈ F → d_flags d !! x = Some (held own x)) →
  execs (fin (TDrop <$> ys)) d o d' →
  o = Fell ∧ ∃ own', owning own' rt d' ∧
    (∀ x, x ∈ ys → own' !! x = None) ∧
    (∀ x, x ∉ ys → own' !! x = own !! x) ∧
    d_store d' = d_store d ∧ d_ret d' = d_ret d ∧
    (∀ x, x ∈ ys → x ∈ F → d_flags d' !! x = Some false) ∧
    (∀ x, x ∉ ys → d_flags d' !! x = d_flags d !! x).
Proof.
  revert own d. induction ys as [|x ys IH]; intros own d Hn W H1 H2 He.
  - simpl in He. destruct He as [-> ->]. split; [done|]. exists own.
    split_and!; try done; intros x Hx; by apply elem_of_nil in Hx.
  - apply NoDup_cons in Hn as [Hx Hn].
    assert (∃ d1, owning (delete x own) rt d1 ∧ d_store d1 = d_store d ∧
      d_ret d1 = d_ret d ∧ (x ∈ F → d_flags d1 !! x = Some false) ∧
      (∀ y, y ≠ x → d_flags d1 !! y = d_flags d !! y) ∧
      execs (fin (TDrop <$> ys)) d1 o d') as (d1 & W1 & E1 & E2 & E3 & E4 & He1).
    { cbn [fmap list_fmap flat_map finalize] in He. case_decide as HF.
      - (* guarded *)
        pose proof (H2 x) as Hf. specialize (Hf ltac:(left) HF).
        destruct (own !! x) as [i|] eqn:Ei.
        + assert (held own x = true) as Hh by (unfold held; by rewrite Ei).
          rewrite Hh in Hf.
          eapply execs_prim in He; [|done|simpl; rewrite Hf; by apply (owning_release own rt)].
          eapply execs_prim in He; [|done|done].
          here He. split_and!; [|done|done| | |exact He].
          * apply (owning_flag _ _ _ x false). by apply owning_remove.
          * intros _. simpl. by rewrite lookup_insert.
          * intros y Hy. simpl. by rewrite lookup_insert_ne.
        + assert (held own x = false) as Hh by (unfold held; by rewrite Ei).
          rewrite Hh in Hf.
          eapply execs_prim in He; [|done|simpl; by rewrite Hf].
          eapply execs_prim in He; [|done|done].
          here He. split_and!; [|done|done| | |exact He].
          * apply (owning_flag _ _ _ x false). by rewrite delete_notin.
          * intros _. simpl. by rewrite lookup_insert.
          * intros y Hy. simpl. by rewrite lookup_insert_ne.
      - pose proof (H1 x ltac:(left) HF) as Hf.
        destruct (own !! x) as [i|] eqn:Ei.
        + eapply execs_prim in He; [|done|simpl; by apply (owning_release own rt)].
          here He. split_and!; [| | | | |exact He]; simpl; try done.
          by apply owning_remove.
        + destruct Hf as [[? ?]|Hf]; [done|].
          eapply execs_prim in He; [|done|simpl; unfold release; by rewrite Hf].
          here He. split_and!; [| | | | |exact He]; simpl; try done.
          by rewrite delete_notin. }
    destruct (IH (delete x own) d1 Hn W1) as (-> & own' & W' & A1 & A2 & A3 & A4 & A5 & A6).
    + intros y Hy HyF. assert (y ≠ x) by (by intros ->).
      rewrite lookup_delete_ne by done. rewrite E1. apply H1; [by right|done].
    + intros y Hy HyF. assert (y ≠ x) by (by intros ->). rewrite E4 by done.
      rewrite H2; [|by right|done]. unfold held. by rewrite lookup_delete_ne.
    + done.
    + split; [done|]. exists own'. split_and!; [done| | |congruence|congruence| |].
      * intros y Hy. destruct (decide (y ∈ ys)); [by apply A1|].
        apply elem_of_cons in Hy as [->|?]; [|done].
        rewrite A2 by done. apply lookup_delete.
      * intros y Hy. apply not_elem_of_cons in Hy as [? ?]. rewrite A2 by done.
        by apply lookup_delete_ne.
      * intros y Hy HyF. destruct (decide (y ∈ ys)); [by apply A5|].
        apply elem_of_cons in Hy as [->|?]; [|done]. rewrite A6 by done. auto.
      * intros y Hy. apply not_elem_of_cons in Hy as [? ?]. rewrite A6 by done. auto.
Qed.

(** ** The invariant *)

Record vrel (base : gset nat) (own : gmap nat nat) (d : dst) (x : nat) (s : vstate)
    : Prop := {
  vr_asg : s = Assigned → is_Some (own !! x);
  vr_own : is_Some (own !! x) →
           s = Assigned ∨ s = Maybe ∨ (s = Uninit ∧ x ∈ base ∧ nonmob x);
  vr_flag : x ∈ F → d_flags d !! x = Some (held own x);
  vr_maybe : s = Maybe → x ∈ F;
  vr_null : x ∉ F → s = Uninit → nonmob x → d_store d !! x = None;
}.

Definition inv (base : gset nat) (m : mst) (own : gmap nat nat) (d : dst) : Prop :=
  owning own None d ∧ d_ret d = None ∧
  (∀ x, is_Some (own !! x) → is_Some (m_vars m !! x)) ∧
  (∀ x t, m_vars m !! x = Some t → vrel base own d x (t_state t)).

Definition same_at (x : nat) (own : gmap nat nat) (d : dst)
    (own' : gmap nat nat) (d' : dst) : Prop :=
  own' !! x = own !! x ∧ d_store d' !! x = d_store d !! x ∧
  d_flags d' !! x = d_flags d !! x.

Lemma same_at_refl x own d : same_at x own d own d.
Proof. done. Qed.
Lemma same_at_trans x own d own1 d1 own2 d2 :
  same_at x own d own1 d1 → same_at x own1 d1 own2 d2 → same_at x own d own2 d2.
Proof. intros (?&?&?) (?&?&?). split_and!; congruence. Qed.

Lemma vrel_same base own d own' d' x s :
  same_at x own d own' d' → vrel base own d x s → vrel base own' d' x s.
Proof.
  intros (E1 & E2 & E3) [V1 V2 V3 V4 V5]. split.
  - by rewrite E1.
  - by rewrite E1.
  - intros Hx. rewrite E3, V3 by done. unfold held. by rewrite E1.
  - done.
  - by rewrite E2.
Qed.

(** What a statement leaves alone: a variable it does not touch, and a
    variable that is still unassigned after it. *)
Definition frame (P : nat → Prop) (tch : nat → bool) (m m' : mst)
    (own : gmap nat nat) (d : dst) (own' : gmap nat nat) (d' : dst) : Prop :=
  ∀ x t', P x → is_Some (m_vars m !! x) → m_vars m' !! x = Some t' →
    (tch x = false ∨ nonmob x ∧ t_state t' = Uninit) →
    same_at x own d own' d'.

Definition jumped (base : gset nat) (tch : nat → bool) (m m' : mst)
    (own : gmap nat nat) (d : dst) (d' : dst) : Prop :=
  ∃ own', owning own' None d' ∧ d_ret d' = None ∧
    (∀ x, is_Some (own' !! x) → x ∈ base) ∧
    (∀ x, x ∈ base → x ∈ F → d_flags d' !! x = Some (held own' x)) ∧
    (∀ x t, x ∈ base → m_vars m !! x = Some t → nonmob x →
       t_state t = Assigned → is_Some (own' !! x)) ∧
    frame (λ x, x ∈ base) tch m m' own d own' d'.

Definition ret_ok (d : dst) : Prop := ∀ i, i ∈ d_live d ↔ d_ret d = Some i.

Definition post (sl : bool) (c : ctx) (base : gset nat) (tch : nat → bool)
    (m m' : mst) (own : gmap nat nat) (d : dst) (o : outcome) (d' : dst) : Prop :=
  match o with
  | Bad => False
  | Returned => ret_ok d'
  | Fell => sl = false ∧ ∃ own', inv base m' own' d' ∧
              frame (λ _, True) tch m m' own d own' d'
  | Broke => c_loop c = true ∧ c_switch c = false ∧ jumped base tch m m' own d d'
  | Continued => c_loop c = true ∧ jumped base tch m m' own d d'
  end.

(** How the discipline sees the state of the pass. *)
Record cok (c : ctx) (cur : nat) (inl : bool) (base : gset nat) (m : mst) : Prop := {
  ck_loop : c_loop c = inl;
  ck_base : ∀ x, x ∈ base → is_Some (m_vars m !! x);
  ck_out : ∀ x t, m_vars m !! x = Some t → x ∈ base → t_scope t ≠ Some cur;
  ck_noloop : inl = false → base = ∅;
  ck_mobile : ∀ x t, m_vars m !! x = Some t → cls x = Mobile →
    (x ∉ base ∧ x ∈ c_here c ++ c_above c) ∨
    (x ∈ base ∧ x ∈ c_outer c ∧ x ∈ c_frozen c);
  ck_here : inl = true → ∀ x t, m_vars m !! x = Some t → cls x = Mobile →
    x ∉ base → x ∈ c_here c → t_scope t = Some cur;
  ck_lates : lates_ok cls c m;
  ck_jump : inl = true → ∀ x, x ∈ jump_vars false (m_scopes m) ↔
    is_Some (m_vars m !! x) ∧ x ∉ base;
}.

Definition dok (cur : nat) (base : gset nat) (m : mst) : Prop :=
  m_sealed m = false → ∀ x t, m_vars m !! x = Some t → x ∈ base → nonmob x →
    t_state t = Uninit → t_drop t ≠ Some cur.

Lemma jump_vars_push ret new sc x :
  sc ≠ [] → x ∈ jump_vars ret (push new sc) ↔ x ∈ new ∨ x ∈ jump_vars ret sc.
Proof.
  destruct sc as [|[xs l] r]; [done|]. intros _. simpl. rewrite !elem_of_app. tauto.
Qed.

Lemma cok_after tch s c cur inl base m m' :
  cok c cur inl base m → wf cls m →
  sstep cls tch cur m m' → shape cur (own_decl s) m m' →
  cok (after cls c s) cur inl base m'.
Proof.
  intros [K1 K2 K3 K4 K5 K6 K7 K8] W S Sh.
  assert (∀ x t', m_vars m' !! x = Some t' →
    (∃ t, m_vars m !! x = Some t ∧ t_scope t' = t_scope t) ∨
    x ∈ own_decl s ∧ x ∉ base ∧ t_scope t' = Some cur) as Hx.
  { intros x t' Ht'. destruct (proj1 (sh_dom _ _ _ _ Sh x)) as [[t Ht]|Hn]; [eauto| |].
    - left. destruct (ss_var _ _ _ _ _ S x t Ht) as (t1 & Ht1 & V). simplify_eq.
      exists t. split; [done|]. apply V.
    - right. split_and!; [done| |].
      + intros Hb. apply K2 in Hb as [t Ht]. by rewrite (sh_new _ _ _ _ Sh x Hn) in Ht.
      + by eapply (sh_trace _ _ _ _ Sh). }
  assert (∀ x, x ∈ own_decl s → cls x = Mobile → x ∈ c_here (after cls c s)) as Hown.
  { intros x Hxs Hm. destruct s; simpl in *; try by apply elem_of_nil in Hxs.
    apply elem_of_list_singleton in Hxs as ->. rewrite Hm. simpl. by left. }
  assert (∀ x, x ∈ c_here c → x ∈ c_here (after cls c s)) as Hhere.
  { intros x Hxs. destruct s; simpl; try done. destruct (cls x0); simpl; auto. by right. }
  assert (c_above (after cls c s) = c_above c ∧ c_outer (after cls c s) = c_outer c ∧
          c_loop (after cls c s) = c_loop c) as (Ea & Eo & El).
  { destruct s; simpl; try done. by destruct (cls x). }
  split.
  - congruence.
  - intros x Hb. apply (sh_dom _ _ _ _ Sh). left. auto.
  - intros x t Ht Hb. destruct (Hx x t Ht) as [(t0 & Ht0 & E)|(?&?&?)]; [|done].
    rewrite E. eauto.
  - done.
  - intros x t Ht Hm. rewrite Ea, Eo, after_frozen.
    destruct (Hx x t Ht) as [(t0 & Ht0 & E)|(Hxs&Hb&?)].
    + destruct (K5 x t0 Ht0 Hm) as [[? Hin]|?]; [left|by right].
      split; [done|]. apply elem_of_app in Hin as [?|?]; apply elem_of_app; auto.
    + left. split; [done|]. apply elem_of_app. left. auto.
  - intros Hl x t Ht Hm Hb Hh. destruct (Hx x t Ht) as [(t0 & Ht0 & E)|(Hxs&_&E)]; [|done].
    rewrite E. apply (K6 Hl x t0 Ht0 Hm Hb).
    destruct s; simpl in Hh; try done.
    destruct (cls x0) eqn:Ec; simpl in Hh; try done.
    apply elem_of_cons in Hh as [->|]; [|done]. exfalso.
    assert (m_vars m !! x0 = None); [|congruence].
    apply (sh_new _ _ _ _ Sh). simpl. by left.
  - by eapply lates_ok_after.
  - intros Hl x. rewrite (sh_scopes _ _ _ _ Sh), jump_vars_push by apply W.
    rewrite (K8 Hl), (sh_dom _ _ _ _ Sh).
    split; [|tauto]. intros [Hn|?]; [|tauto]. split; [by right|].
    intros Hb. apply K2 in Hb as [t Ht]. by rewrite (sh_new _ _ _ _ Sh x Hn) in Ht.
Qed.

Lemma dok_step tch cur base m m' :
  dok cur base m → wf cls m → (∀ x, x ∈ base → is_Some (m_vars m !! x)) →
  sstep cls tch cur m m' → dok cur base m'.
Proof.
  intros D W Hb S Hs x t Ht Hxb Hn Hu Hd.
  destruct (Hb x Hxb) as [t0 Ht0].
  destruct (ss_var _ _ _ _ _ S x t0 Ht0) as (t1 & Ht1 & V). simplify_eq.
  pose proof (wf_legal _ _ W _ _ Ht0) as Hl.
  assert (m_sealed m = false) as Hs0.
  { destruct (m_sealed m) eqn:E; [|done]. rewrite (ss_seal _ _ _ _ _ S) in Hs by done. done. }
  assert (t_state t0 = Uninit) as Hu0.
  { destruct (decide (t_state t0 = Uninit)) as [|Hne]; [done|].
    exfalso. by apply (vs_set _ _ _ _ _ _ _ _ V Hn Hl Hne). }
  eapply (D Hs0 x t0); eauto. eapply (vs_drop2 _ _ _ _ _ _ _ _ V); eauto.
Qed.

(** Entering the blocks of a statement. *)
Lemma cok_nest c cur inl base m :
  cok c cur inl base m → wf cls m → cok (nest c) (m_next m) inl base (enter false m).
Proof.
  intros [K1 K2 K3 K4 K5 K6 K7 K8] W. split; simpl; auto.
  - intros x t Ht _ E. pose proof (wf_scope _ _ W _ _ _ Ht E). lia.
  - intros x t Ht Hm. destruct (K5 x t Ht Hm) as [?|(?&?&?)]; [by left|].
    right. split_and!; auto. apply elem_of_app. by right.
  - intros _ x t _ _ _ Hx. by apply elem_of_nil in Hx.
Qed.

Lemma cok_switch c cur inl base m :
  cok c cur inl base m → wf cls m →
  cok (into_switch c) (m_next m) inl base (enter false m).
Proof.
  intros [K1 K2 K3 K4 K5 K6 K7 K8] W. split; simpl; auto.
  - intros x t Ht _ E. pose proof (wf_scope _ _ W _ _ _ Ht E). lia.
  - intros x t Ht Hm. destruct (K5 x t Ht Hm) as [?|(?&?&?)]; [by left|].
    right. split_and!; auto. rewrite !elem_of_app. tauto.
  - intros _ x t _ _ _ Hx. by apply elem_of_nil in Hx.
Qed.

Lemma cok_loop c cur inl base m :
  cok c cur inl base m → wf cls m →
  cok (into_loop c) (m_next m) true (dom (m_vars m)) (enter true m).
Proof.
  intros [K1 K2 K3 K4 K5 K6 K7 K8] W. split; simpl; auto.
  - intros x. by rewrite elem_of_dom.
  - intros x t Ht _ E. pose proof (wf_scope _ _ W _ _ _ Ht E). lia.
  - done.
  - intros x t Ht Hm. right. rewrite elem_of_dom.
    destruct (K5 x t Ht Hm) as [[? Hin]|(?&?&?)].
    + rewrite !elem_of_app in *. split_and!; [eauto|tauto|tauto].
    + rewrite !elem_of_app in *. split_and!; [eauto|tauto|tauto].
  - intros _ x t _ _ _ Hx. by apply elem_of_nil in Hx.
  - intros _ x. rewrite elem_of_dom. split; [|tauto]. intros Hx. by apply elem_of_nil in Hx.
Qed.

Lemma dok_enter il base m : wf cls m → dok (m_next m) base (enter il m).
Proof.
  intros W _ x t Ht _ _ _ Hd. simpl in Ht. pose proof (wf_drop _ _ W _ _ _ Ht Hd). lia.
Qed.
End with_class.
