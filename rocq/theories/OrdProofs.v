(** Lemmas about the order of evaluation. *)
From Coq Require Import ZArith List Bool Arith Lia.
From Verif Require Import OrdModel OrdSpec.
Import ListNotations.
Open Scope nat_scope.

Scheme expr_mut := Induction for expr Sort Prop with args_mut := Induction for args Sort Prop.
Combined Scheme expr_args_ind from expr_mut, args_mut.
Scheme stmt_mut := Induction for stmt Sort Prop with block_mut := Induction for block Sort Prop.
Combined Scheme stmt_block_ind from stmt_mut, block_mut.

(** * Effects *)
Definition wf (f : effects) : Prop :=
  incl (sets f) (uses f) /\ (changes_world f = true -> reads_world f = true).
Definition le (f g : effects) : Prop :=
  incl (uses f) (uses g) /\ incl (sets f) (sets g) /\
  (reads_world f = true -> reads_world g = true) /\ (changes_world f = true -> changes_world g = true) /\
  (fails f = true -> fails g = true).

(** [f] does what [g] does, but for temporaries from [n] to [m], which it reads, and sets if [w] *)
Definition within (n m : nat) (w : bool) (f g : effects) : Prop :=
  (forall x, In x (uses f) -> In x (uses g) \/ n <= x < m) /\
  (forall x, In x (sets f) -> In x (sets g) \/ w = true /\ n <= x < m) /\
  (reads_world f = true -> reads_world g = true) /\ (changes_world f = true -> changes_world g = true) /\
  (fails f = true -> fails g = true).

Definition separate (f g : effects) : Prop :=
  (forall x, In x (sets f) -> ~ In x (uses g)) /\ (forall x, In x (sets g) -> ~ In x (uses f)) /\
  (changes_world f = true -> reads_world g = true -> False) /\
  (changes_world g = true -> reads_world f = true -> False).

Lemma disjoint_spec l m : disjoint l m = true -> forall x, In x l -> ~ In x m.
Proof.
  unfold disjoint. rewrite forallb_forall. intros H x Hx Hm. specialize (H x Hx).
  apply negb_true_iff in H. assert (existsb (Nat.eqb x) m = true) as E.
  { apply existsb_exists. exists x. split; [exact Hm|apply Nat.eqb_refl]. }
  congruence.
Qed.

Lemma apart_separate f g : apart f g = true -> separate f g.
Proof.
  unfold apart. rewrite !andb_true_iff, !negb_true_iff. intros [[[H1 H2] H3] H4].
  repeat split.
  - exact (disjoint_spec _ _ H1).
  - exact (disjoint_spec _ _ H2).
  - intros E1 E2. rewrite E1, E2 in H3. discriminate.
  - intros E1 E2. rewrite E1, E2 in H4. discriminate.
Qed.

Lemma separate_sym f g : separate f g -> separate g f.
Proof. unfold separate. intuition. Qed.

Lemma wf_plus f g : wf f -> wf g -> wf (plus f g).
Proof.
  intros [A B] [C D]. split; cbn.
  - apply incl_app; [apply incl_appl|apply incl_appr]; assumption.
  - rewrite !orb_true_iff. intuition.
Qed.

Lemma le_refl f : le f f.
Proof. unfold le. repeat split; auto using incl_refl. Qed.
Lemma le_plus_l f g : le f (plus f g).
Proof. repeat split; cbn; auto using incl_appl, incl_refl; intros ->; reflexivity. Qed.
Lemma le_plus_r f g : le g (plus f g).
Proof. repeat split; cbn; auto using incl_appr, incl_refl; intros ->; apply orb_true_r. Qed.

Lemma wf_nothing : wf nothing. Proof. split; [apply incl_refl|discriminate]. Qed.
Lemma wf_fail : wf may_fail. Proof. split; [apply incl_refl|discriminate]. Qed.
Lemma wf_read : wf outside_read. Proof. split; [apply incl_refl|discriminate]. Qed.
Lemma wf_change : wf outside_change. Proof. split; [apply incl_refl|reflexivity]. Qed.
Lemma wf_var x : wf (Effects [x] [] false false false).
Proof. split; [intros y []|discriminate]. Qed.
Lemma wf_set x : wf (Effects [x] [x] false false false).
Proof. split; [apply incl_refl|discriminate]. Qed.
Global Hint Resolve wf_plus wf_nothing wf_fail wf_read wf_change wf_var wf_set : wf.

(** What the evaluation of an expression as it is does *)
Fixpoint whole (e : expr) : effects :=
  match e with
  | Num _ => nothing
  | Var x => Effects [x] [] false false false
  | Glob _ => outside_read
  | Inc x => Effects [x] [x] false false false
  | Elem _ i => plus (whole i) (plus outside_read may_fail)
  | Neg e => whole e
  | Bin o a b => plus (plus (whole a) (whole b)) (match o with Div => may_fail | _ => nothing end)
  | And a b => plus (whole a) (whole b)
  | Cond c a b => plus (whole c) (plus (whole a) (whole b))
  | Cast _ e => plus (whole e) may_fail
  | Call _ a => plus (whole_args a) outside_change
  end
with whole_args (a : args) : effects :=
  match a with ANil => nothing | ACons e r => plus (whole e) (whole_args r) end.

Lemma wf_whole : (forall e, wf (whole e)) /\ (forall a, wf (whole_args a)).
Proof. apply expr_args_ind; cbn; intros; auto 6 with wf. destruct o; auto with wf. Qed.

Lemma wf_late : (forall e, wf (late e)) /\ (forall a, wf (late_args a)).
Proof.
  apply expr_args_ind; cbn; intros; auto 6 with wf.
  - destruct (stays i); auto 6 with wf.
  - destruct o; auto 6 with wf.
  - destruct (stays e); auto 6 with wf.
Qed.

Lemma wf_early : (forall e, wf (early e)) /\ (forall a, wf (early_moved a) /\ wf (early_staying a)).
Proof.
  apply expr_args_ind; cbn; intros; auto 6 with wf.
  - destruct (stays i); auto using (proj1 wf_late) with wf.
  - auto using (proj1 wf_late) with wf.
  - destruct H. auto with wf.
  - destruct H0. destruct (stays e); auto 6 using (proj1 wf_late) with wf.
Qed.

(** * Computations *)
Section Comp.
Variable h : host.
Notation state := (state h).
Notation comp := (comp h).

Record foot {A} (f : effects) (m : comp A) : Prop := Foot {
  foot_same : forall s t, (forall x, In x (uses f) -> loc s x = loc t x) ->
    (reads_world f = true -> wd s = wd t) ->
    match m s, m t with
    | None, None => True
    | Some (a, s'), Some (b, t') =>
        a = b /\ (forall x, In x (uses f) -> loc s' x = loc t' x) /\ (reads_world f = true -> wd s' = wd t')
    | _, _ => False
    end;
  foot_frame : forall s a s', m s = Some (a, s') ->
    (forall x, ~ In x (sets f) -> loc s' x = loc s x) /\ (changes_world f = false -> wd s' = wd s);
  foot_safe : fails f = false -> forall s, m s <> None
}.

Lemma foot_le {A} f g (m : comp A) : wf f -> le f g -> foot f m -> foot g m.
Proof.
  intros [Wi Wc] (L1 & L2 & L3 & L4 & L5) [F1 F2 F3]. constructor.
  - intros s t Hl Hw. specialize (F1 s t (fun x i => Hl x (L1 x i)) (fun r => Hw (L3 r))).
    destruct (m s) as [[a s']|] eqn:E1, (m t) as [[b t']|] eqn:E2; try exact F1.
    destruct F1 as (-> & G1 & G2). split; [reflexivity|].
    destruct (F2 _ _ _ E1) as [P1 P2]. destruct (F2 _ _ _ E2) as [Q1 Q2]. split.
    + intros x Hx. destruct (in_dec Nat.eq_dec x (uses f)) as [i|i]; [auto|].
      rewrite P1, Q1 by (intros j; apply i, Wi, j). auto.
    + intros r. destruct (changes_world f) eqn:C; [apply G2; auto|].
      rewrite P2, Q2 by reflexivity. auto.
  - intros s a s' E. destruct (F2 _ _ _ E) as [P1 P2]. split.
    + intros x Hx. apply P1. intros i. apply Hx, L2, i.
    + intros c. apply P2. destruct (changes_world f); [|reflexivity]. rewrite L4 in c by reflexivity. discriminate.
  - intros H. apply F3. destruct (fails f); [|reflexivity]. rewrite L5 in H by reflexivity. discriminate.
Qed.

Lemma foot_ret {A} f (a : A) : foot f (ret a : comp A).
Proof.
  constructor.
  - intros s t Hl Hw. cbn. auto.
  - intros s b s' [= <- <-]. auto.
  - intros _ s. discriminate.
Qed.

Lemma foot_bind {A B} f (m : comp A) (k : A -> comp B) :
  foot f m -> (forall a, foot f (k a)) -> foot f (bind m k).
Proof.
  intros [F1 F2 F3] K. constructor; unfold bind.
  - intros s t Hl Hw. specialize (F1 s t Hl Hw).
    destruct (m s) as [[a s']|], (m t) as [[b t']|]; try contradiction; [|exact I].
    destruct F1 as (-> & G1 & G2). exact (foot_same _ _ (K b) s' t' G1 G2).
  - intros s a s' E. destruct (m s) as [[b s1]|] eqn:E1; [|discriminate].
    destruct (F2 _ _ _ E1) as [P1 P2]. destruct (foot_frame _ _ (K b) _ _ _ E) as [Q1 Q2]. split.
    + intros x Hx. rewrite Q1, P1 by assumption. reflexivity.
    + intros c. rewrite Q2, P2 by assumption. reflexivity.
  - intros H s. specialize (F3 H s). destruct (m s) as [[b s1]|] eqn:E1; [|congruence]. apply (foot_safe _ _ (K b) H).
Qed.

Lemma foot_bind2 {A B} f g (m : comp A) (k : A -> comp B) :
  wf f -> wf g -> foot f m -> (forall a, foot g (k a)) -> foot (plus f g) (bind m k).
Proof.
  intros Wf Wg F K. apply foot_bind.
  - apply (foot_le f); auto using le_plus_l.
  - intros a. apply (foot_le g); auto using le_plus_r.
Qed.

Lemma foot_both {A B} f g r (m : comp A) (k : comp B) :
  wf f -> wf g -> foot f m -> foot g k -> foot (plus f g) (both r m k).
Proof.
  intros Wf Wg F K. assert (foot (plus f g) m) by (apply (foot_le f); auto using le_plus_l).
  assert (foot (plus f g) k) by (apply (foot_le g); auto using le_plus_r).
  destruct r; cbn; repeat (apply foot_bind; [assumption|intros]); apply foot_ret.
Qed.

Lemma foot_var x : foot (Effects [x] [] false false false) (fun s : state => Some (loc s x, s)).
Proof.
  constructor; cbn.
  - intros s t Hl _. split; [apply Hl; auto|]. split; [exact Hl|discriminate].
  - intros s a s' [= <- <-]. auto.
  - discriminate.
Qed.

Lemma foot_inc x (k : Z -> Z) (v : Z -> Z) :
  foot (Effects [x] [x] false false false) (fun s : state => Some (v (loc s x), set_loc x (k (loc s x)) s)).
Proof.
  constructor; cbn.
  - intros s t Hl _. rewrite (Hl x) by auto. split; [reflexivity|]. split; [|discriminate].
    intros y [<-|[]]. rewrite Nat.eqb_refl. reflexivity.
  - intros s a s' [= <- <-]. cbn. split; [|reflexivity]. intros y Hy.
    destruct (Nat.eqb_spec x y); [|reflexivity]. subst. destruct Hy. auto.
  - discriminate.
Qed.

Lemma foot_assign x z : foot (Effects [x] [x] false false false) (assign h x z).
Proof.
  constructor; cbn.
  - intros s t Hl _. split; [reflexivity|]. split; [|discriminate].
    intros y [<-|[]]. rewrite Nat.eqb_refl. reflexivity.
  - intros s a s' [= <- <-]. cbn. split; [|reflexivity]. intros y Hy.
    destruct (Nat.eqb_spec x y); [|reflexivity]. subst. destruct Hy. auto.
  - discriminate.
Qed.

Lemma foot_glob g : foot outside_read (fun s : state => Some (glob h (wd s) g, s)).
Proof.
  constructor; cbn.
  - intros s t Hl Hw. rewrite Hw by reflexivity. auto.
  - intros s a s' [= <- <-]. auto.
  - discriminate.
Qed.

Lemma foot_elem g i : foot (plus outside_read may_fail) (read_elem h g i).
Proof.
  constructor; cbn; unfold read_elem.
  - intros s t Hl Hw. rewrite Hw by reflexivity. destruct (elem h (wd t) g i); auto.
  - intros s a s'. destruct (elem h (wd s) g i); [|discriminate]. intros [= <- <-]. auto.
  - discriminate.
Qed.

Lemma foot_call f l : foot outside_change (do_call h f l).
Proof.
  constructor; cbn; unfold do_call.
  - intros s t Hl Hw. rewrite Hw by reflexivity. destruct (call h f l (wd t)) as [[z w]|]; auto.
  - intros s a s'. destruct (call h f l (wd s)) as [[z w]|]; [|discriminate]. intros [= <- <-]. split; [auto|discriminate].
  - discriminate.
Qed.

Lemma foot_check k z : foot may_fail (check h k z).
Proof.
  constructor; cbn; unfold check.
  - intros s t Hl Hw. destruct (Nat.eqb _ _); auto.
  - intros s a s'. destruct (Nat.eqb _ _); [|discriminate]. intros [= <- <-]. auto.
  - discriminate.
Qed.

Lemma foot_apply o x y : foot (match o with Div => may_fail | _ => nothing end) (apply h o x y).
Proof.
  constructor.
  - intros s t Hl Hw. unfold apply. destruct o; cbn in *; auto. destruct (y =? 0)%Z; auto.
  - intros s a s'. unfold apply. destruct o; cbn in *; try (intros [= <- <-]; auto).
    destruct (y =? 0)%Z; [discriminate|]. intros [= <- <-]. auto.
  - intros H s. destruct o; discriminate.
Qed.

Lemma foot_le' {A} f g (m : comp A) : foot f m -> wf f -> le f g -> foot g m.
Proof. intros F W L. exact (foot_le f g m W L F). Qed.

Section Eval.
Variables (pick : expr -> bool) (pa : args -> bool).
Notation ev := (eval h pick pa).
Notation eva := (eval_args h pick pa).

Lemma eval_foot : (forall e, foot (whole e) (ev e)) /\ (forall a, foot (whole_args a) (eva a)).
Proof.
  destruct wf_whole as [We Wa].
  apply expr_args_ind; cbn [whole whole_args eval eval_args]; intros.
  - apply foot_ret.
  - apply foot_var.
  - apply foot_glob.
  - apply foot_bind2; auto with wf. intros. apply foot_elem.
  - apply foot_bind; [assumption|]. intros. apply foot_ret.
  - exact (foot_inc x (fun v => v + 1)%Z (fun v => v)).
  - apply foot_bind2; auto with wf.
    + destruct o; auto with wf.
    + apply foot_both; auto.
    + intros [x y]. apply foot_apply.
  - apply foot_bind2; auto. intros x. destruct (x =? 0)%Z; [apply foot_ret|].
    apply foot_bind; [assumption|]. intros. apply foot_ret.
  - apply foot_bind2; auto with wf. intros x. destruct (x =? 0)%Z.
    + apply (foot_le' (whole b)); auto using le_plus_r.
    + apply (foot_le' (whole a)); auto using le_plus_l.
  - apply foot_bind2; auto with wf. intros. apply foot_check.
  - apply foot_bind2; auto with wf. intros. apply foot_call.
  - apply foot_ret.
  - apply foot_bind.
    + apply foot_both; auto.
    + intros [z l]. apply foot_ret.
Qed.
End Eval.

(** States that agree on some variables *)
Definition agr (V : nat -> Prop) (s t : state) : Prop := (forall x, V x -> loc s x = loc t x) /\ wd s = wd t.
Definition all : nat -> Prop := fun _ => True.
Definition upto (n : nat) : nat -> Prop := fun x => x < n.

Definition eqv {A} (V : nat -> Prop) (o p : option (A * state)) : Prop :=
  match o, p with
  | None, None => True
  | Some (a, s), Some (b, t) => a = b /\ agr V s t
  | _, _ => False
  end.

Lemma agr_refl V s : agr V s s. Proof. split; auto. Qed.
Lemma agr_sym V s t : agr V s t -> agr V t s.
Proof. intros [A B]. split; auto. intros x Hx. symmetry. auto. Qed.
Lemma agr_trans V s t u : agr V s t -> agr V t u -> agr V s u.
Proof. intros [A B] [C D]. split; [|congruence]. intros x Hx. rewrite A, C by assumption. reflexivity. Qed.
Lemma agr_weak (V U : nat -> Prop) s t : (forall x, U x -> V x) -> agr V s t -> agr U s t.
Proof. intros I [A B]. split; auto. Qed.
Lemma agr_all V s t : agr all s t -> agr V s t.
Proof. apply agr_weak. intros. exact I. Qed.

Lemma eqv_refl {A} V (o : option (A * state)) : eqv V o o.
Proof. destruct o as [[a s]|]; cbn; auto using agr_refl. Qed.
Lemma eqv_sym {A} V (o p : option (A * state)) : eqv V o p -> eqv V p o.
Proof. destruct o as [[a s]|], p as [[b t]|]; cbn; auto. intros [-> H]. auto using agr_sym. Qed.
Lemma eqv_trans {A} V (o p q : option (A * state)) : eqv V o p -> eqv V p q -> eqv V o q.
Proof.
  destruct o as [[a s]|], p as [[b t]|], q as [[c u]|]; cbn; try tauto. intros [-> H] [-> G]. eauto using agr_trans.
Qed.
Lemma eqv_weak {A} (V U : nat -> Prop) (o p : option (A * state)) :
  (forall x, U x -> V x) -> eqv V o p -> eqv U o p.
Proof. intros I. destruct o as [[a s]|], p as [[b t]|]; cbn; auto. intros [-> H]. eauto using agr_weak. Qed.

Definition ceq {A} (m k : comp A) : Prop := forall s, eqv all (m s) (k s).
Definition rel {A} (n : nat) (m k : comp A) : Prop :=
  forall s t, agr (upto n) s t -> eqv (upto n) (m s) (k t).
Definition proper {A} (m : comp A) : Prop := forall s t, agr all s t -> eqv all (m s) (m t).

(** A computation that uses variables of [V] only goes the same way from states that agree there. *)
Lemma foot_agr {A} f (m : comp A) (V : nat -> Prop) s t :
  wf f -> foot f m -> (forall x, In x (uses f) -> V x) -> agr V s t -> eqv V (m s) (m t).
Proof.
  intros W F I [Hl Hw]. pose proof (foot_same _ _ F s t (fun x i => Hl x (I x i)) (fun _ => Hw)) as G.
  destruct (m s) as [[a s']|] eqn:E1, (m t) as [[b t']|] eqn:E2; cbn; try exact G.
  destruct G as (-> & G1 & G2). split; [reflexivity|].
  destruct (foot_frame _ _ F _ _ _ E1) as [P1 P2]. destruct (foot_frame _ _ F _ _ _ E2) as [Q1 Q2]. split.
  - intros x Hx. destruct (in_dec Nat.eq_dec x (uses f)) as [i|i]; [auto|].
    rewrite P1, Q1 by (intros j; apply i, (proj1 W), j). auto.
  - destruct (changes_world f) eqn:C; [apply G2, (proj2 W), C|]. rewrite P2, Q2 by reflexivity. exact Hw.
Qed.

Lemma foot_proper {A} f (m : comp A) : wf f -> foot f m -> proper m.
Proof. intros W F s t H. apply (foot_agr f); auto. intros. exact I. Qed.

Lemma proper_ret {A} (a : A) : proper (ret a).
Proof. intros s t H. cbn. auto. Qed.
Lemma proper_bind {A B} (m : comp A) (k : A -> comp B) : proper m -> (forall a, proper (k a)) -> proper (bind m k).
Proof.
  intros M K s t H. specialize (M s t H). unfold bind.
  destruct (m s) as [[a s']|], (m t) as [[b t']|]; cbn in *; try contradiction; auto.
  destruct M as [-> M]. apply K, M.
Qed.

Lemma ceq_refl {A} (m : comp A) : ceq m m. Proof. intros s. apply eqv_refl. Qed.
Lemma ceq_sym {A} (m k : comp A) : ceq m k -> ceq k m. Proof. intros H s. apply eqv_sym, H. Qed.
Lemma ceq_trans {A} (m k l : comp A) : ceq m k -> ceq k l -> ceq m l.
Proof. intros H G s. eapply eqv_trans; eauto. Qed.
Lemma ceq_eq {A} (m k : comp A) : (forall s, m s = k s) -> ceq m k.
Proof. intros H s. rewrite H. apply eqv_refl. Qed.
Lemma ceq_bind_r {A B} (m : comp A) (k l : A -> comp B) : (forall a, ceq (k a) (l a)) -> ceq (bind m k) (bind m l).
Proof. intros H s. unfold bind. destruct (m s) as [[a s']|]; [apply H|exact I]. Qed.
Lemma ceq_bind_l {A B} (m l : comp A) (k : A -> comp B) :
  ceq m l -> (forall a, proper (k a)) -> ceq (bind m k) (bind l k).
Proof.
  intros H K s. specialize (H s). unfold bind.
  destruct (m s) as [[a s']|], (l s) as [[b t']|]; cbn in *; try contradiction; auto.
  destruct H as [-> H]. apply K, H.
Qed.
Lemma bind_assoc {A B C} (m : comp A) (k : A -> comp B) (l : B -> comp C) s :
  bind (bind m k) l s = bind m (fun a => bind (k a) l) s.
Proof. unfold bind. destruct (m s) as [[a s']|]; reflexivity. Qed.

Lemma rel_ceq_l {A} n (m k l : comp A) : ceq m k -> rel n k l -> rel n m l.
Proof. intros H G s t E. eapply eqv_trans; [|apply G, E]. eapply eqv_weak; [|apply H]. intros. exact I. Qed.
Lemma rel_bind {A B} n (m1 m2 : comp A) (k1 k2 : A -> comp B) :
  rel n m1 m2 -> (forall a, rel n (k1 a) (k2 a)) -> rel n (bind m1 k1) (bind m2 k2).
Proof.
  intros H K s t E. specialize (H s t E). unfold bind.
  destruct (m1 s) as [[a s']|], (m2 t) as [[b t']|]; cbn in *; try contradiction; auto.
  destruct H as [-> H]. apply K, H.
Qed.
Lemma rel_upto {A} n n' (m k l : comp A) : n <= n' -> (forall s, eqv (upto n') (m s) (k s)) -> rel n k l -> rel n m l.
Proof.
  intros L H G s t E. eapply eqv_trans; [|apply G, E]. eapply eqv_weak; [|apply H]. unfold upto. intros. lia.
Qed.
Lemma rel_ret {A} n (a : A) : rel n (ret a) (ret a).
Proof. intros s t E. cbn. auto. Qed.
Lemma rel_foot {A} n f (m : comp A) : wf f -> foot f m -> (forall x, In x (uses f) -> x < n) -> rel n m m.
Proof. intros W F H s t E. apply (foot_agr f); auto. Qed.

(** Computations without a conflict may be swapped. *)
Lemma commute {A B C} f g (m : comp A) (k : comp B) (l : A -> B -> comp C) :
  wf f -> wf g -> foot f m -> foot g k -> separate f g -> (forall a b, proper (l a b)) ->
  ceq (bind m (fun a => bind k (fun b => l a b))) (bind k (fun b => bind m (fun a => l a b))).
Proof.
  intros Wf Wg F G (S1 & S2 & S3 & S4) L s. unfold bind.
  destruct (m s) as [[a s1]|] eqn:E1.
  - destruct (foot_frame _ _ F _ _ _ E1) as [P1 P2].
    assert (forall x, In x (uses g) -> loc s x = loc s1 x) as A1.
    { intros x Hx. symmetry. apply P1. intros i. exact (S1 x i Hx). }
    assert (reads_world g = true -> wd s = wd s1) as A2.
    { intros r. symmetry. apply P2. destruct (changes_world f) eqn:C0; [destruct (S3 eq_refl r)|reflexivity]. }
    pose proof (foot_same _ _ G s s1 A1 A2) as K1.
    destruct (k s) as [[b s2]|] eqn:E2, (k s1) as [[b' s12]|] eqn:E12; try contradiction; [|exact I].
    destruct K1 as (<- & K1 & K2).
    destruct (foot_frame _ _ G _ _ _ E2) as [Q1 Q2]. destruct (foot_frame _ _ G _ _ _ E12) as [R1 R2].
    assert (forall x, In x (uses f) -> loc s x = loc s2 x) as B1.
    { intros x Hx. symmetry. apply Q1. intros i. exact (S2 x i Hx). }
    assert (reads_world f = true -> wd s = wd s2) as B2.
    { intros r. symmetry. apply Q2. destruct (changes_world g) eqn:C0; [destruct (S4 eq_refl r)|reflexivity]. }
    pose proof (foot_same _ _ F s s2 B1 B2) as M1. rewrite E1 in M1.
    destruct (m s2) as [[a' s21]|] eqn:E21; [|contradiction]. destruct M1 as (<- & M1 & M2).
    destruct (foot_frame _ _ F _ _ _ E21) as [T1 T2].
    apply L. split.
    + intros x _. destruct (in_dec Nat.eq_dec x (uses f)) as [u|u], (in_dec Nat.eq_dec x (uses g)) as [v|v].
      * rewrite R1 by (intros j; exact (S2 x j u)). rewrite T1 by (intros i; exact (S1 x i v)).
        rewrite P1 by (intros i; exact (S1 x i v)). rewrite Q1 by (intros j; exact (S2 x j u)). reflexivity.
      * rewrite R1 by (intros j; exact (S2 x j u)). exact (M1 x u).
      * rewrite T1 by (intros i; exact (S1 x i v)). symmetry. exact (K1 x v).
      * assert (~ In x (sets f)) by (intros i; apply u, (proj1 Wf), i).
        assert (~ In x (sets g)) by (intros j; apply v, (proj1 Wg), j).
        rewrite R1, P1, T1, Q1 by assumption. reflexivity.
    + destruct (changes_world f) eqn:C1, (changes_world g) eqn:C2.
      * destruct (S3 eq_refl (proj2 Wg C2)).
      * rewrite R2 by reflexivity. exact (M2 (proj2 Wf C1)).
      * rewrite T2 by reflexivity. symmetry. exact (K2 (proj2 Wg C2)).
      * rewrite R2, P2, T2, Q2 by reflexivity. reflexivity.
  - destruct (k s) as [[b s2]|] eqn:E2; [|exact I].
    destruct (foot_frame _ _ G _ _ _ E2) as [Q1 Q2].
    assert (forall x, In x (uses f) -> loc s x = loc s2 x) as B1.
    { intros x Hx. symmetry. apply Q1. intros i. exact (S2 x i Hx). }
    assert (reads_world f = true -> wd s = wd s2) as B2.
    { intros r. symmetry. apply Q2. destruct (changes_world g) eqn:C0; [destruct (S4 eq_refl r)|reflexivity]. }
    pose proof (foot_same _ _ F s s2 B1 B2) as M1. rewrite E1 in M1.
    destruct (m s2) as [[a' s21]|]; [contradiction|exact I].
Qed.

(** * Statements put before others *)
Section Low.
Variables (pick : expr -> bool) (pa : args -> bool).
Notation ev := (eval h pick pa).
Notation eva := (eval_args h pick pa).
Notation lr := (eval h left_to_right left_to_right_args).
Notation lra := (eval_args h left_to_right left_to_right_args).

Definition decl (s : stmt) : bool := match s with Assign _ _ | Assert _ _ => true | _ => false end.

Definition run1 (s : stmt) : comp unit :=
  match s with
  | Assign x e => bind (ev e) (assign h x)
  | Assert k e => bind (bind (ev e) (check h k)) (fun _ => ret tt)
  | _ => ret tt
  end.
Fixpoint run (d : list stmt) : comp unit :=
  match d with [] => ret tt | s :: d => bind (run1 s) (fun _ => run d) end.

Definition whole1 (s : stmt) : effects :=
  match s with
  | Assign x e => plus (whole e) (Effects [x] [x] false false false)
  | Assert _ e => plus (whole e) may_fail
  | _ => nothing
  end.
Fixpoint whole_run (d : list stmt) : effects :=
  match d with [] => nothing | s :: d => plus (whole1 s) (whole_run d) end.

Lemma wf_whole1 s : wf (whole1 s).
Proof. destruct s; cbn; auto using (proj1 wf_whole) with wf. Qed.
Lemma wf_run d : wf (whole_run d).
Proof. induction d; cbn; auto using wf_whole1 with wf. Qed.

Lemma foot_run1 s : foot (whole1 s) (run1 s).
Proof.
  destruct s; cbn; try apply foot_ret.
  - apply foot_bind2; auto using (proj1 wf_whole) with wf; [apply eval_foot|]. intros. apply foot_assign.
  - apply foot_bind; [|intros; apply foot_ret].
    apply foot_bind2; auto using (proj1 wf_whole) with wf; [apply eval_foot|]. intros. apply foot_check.
Qed.
Lemma foot_run d : foot (whole_run d) (run d).
Proof.
  induction d; cbn; [apply foot_ret|]. apply foot_bind2; auto using wf_whole1, wf_run, foot_run1.
Qed.

Lemma run_app d d' s : run (d ++ d') s = bind (run d) (fun _ => run d') s.
Proof.
  revert s. induction d as [|x d IH]; intros s; cbn; [reflexivity|]. rewrite bind_assoc.
  unfold bind in *. destruct (run1 x s) as [[? s1]|]; [|reflexivity]. apply IH.
Qed.

Lemma run_app_bind {A} d d' (k : unit -> comp A) s :
  bind (run (d ++ d')) k s = bind (run d) (fun _ => bind (run d') k) s.
Proof.
  unfold bind at 1. rewrite run_app. unfold bind. destruct (run d s) as [[? s1]|]; reflexivity.
Qed.

Lemma whole_app_in d d' :
  (forall x, In x (uses (whole_run (d ++ d'))) <-> In x (uses (whole_run d)) \/ In x (uses (whole_run d'))) /\
  (forall x, In x (sets (whole_run (d ++ d'))) <-> In x (sets (whole_run d)) \/ In x (sets (whole_run d'))) /\
  reads_world (whole_run (d ++ d')) = reads_world (whole_run d) || reads_world (whole_run d') /\
  changes_world (whole_run (d ++ d')) = changes_world (whole_run d) || changes_world (whole_run d') /\
  fails (whole_run (d ++ d')) = fails (whole_run d) || fails (whole_run d').
Proof.
  induction d as [|s d (I1 & I2 & I3 & I4 & I5)]; cbn.
  - repeat split; tauto.
  - rewrite I3, I4, I5, !orb_assoc. repeat split.
    + rewrite !in_app_iff, I1. tauto.
    + rewrite !in_app_iff, I1. tauto.
    + rewrite !in_app_iff, I2. tauto.
    + rewrite !in_app_iff, I2. tauto.
Qed.

Lemma within_app n m d d' g :
  within n m true (whole_run d) g -> within n m true (whole_run d') g -> within n m true (whole_run (d ++ d')) g.
Proof.
  intros (A1 & A2 & A3 & A4 & A5) (B1 & B2 & B3 & B4 & B5).
  destruct (whole_app_in d d') as (C1 & C2 & C3 & C4 & C5).
  repeat split.
  - intros x Hx. apply C1 in Hx. destruct Hx; auto.
  - intros x Hx. apply C2 in Hx. destruct Hx; auto.
  - rewrite C3, orb_true_iff. tauto.
  - rewrite C4, orb_true_iff. tauto.
  - rewrite C5, orb_true_iff. tauto.
Qed.

Lemma within_more n m n' m' (w : bool) f g g' :
  within n m w f g -> n' <= n -> m <= m' -> le g g' -> within n' m' w f g'.
Proof.
  intros (A1 & A2 & A3 & A4 & A5) L1 L2 (B1 & B2 & B3 & B4 & B5). repeat split; auto.
  - intros x Hx. destruct (A1 x Hx); [left; auto|right; lia].
  - intros x Hx. destruct (A2 x Hx) as [|[? ?]]; [left; auto|right; split; [assumption|lia]].
Qed.
Lemma within_weak n m f g : within n m false f g -> within n m true f g.
Proof.
  intros (A1 & A2 & A3 & A4 & A5). repeat split; auto. intros x Hx. destruct (A2 x Hx) as [|[? _]]; [auto|discriminate].
Qed.
Lemma within_plus n m w f f' g : within n m w f g -> within n m w f' g -> within n m w (plus f f') g.
Proof.
  intros (A1 & A2 & A3 & A4 & A5) (B1 & B2 & B3 & B4 & B5). repeat split; cbn.
  - intros x Hx. apply in_app_iff in Hx. destruct Hx; auto.
  - intros x Hx. apply in_app_iff in Hx. destruct Hx; auto.
  - rewrite orb_true_iff. tauto.
  - rewrite orb_true_iff. tauto.
  - rewrite orb_true_iff. tauto.
Qed.
Lemma within_le n m w f g : le f g -> within n m w f g.
Proof. intros (B1 & B2 & B3 & B4 & B5). repeat split; auto. Qed.
Lemma within_nothing n m w g : within n m w nothing g.
Proof. repeat split; cbn; try discriminate; intros x []. Qed.

Lemma le_trans f g k : le f g -> le g k -> le f k.
Proof.
  intros (A1 & A2 & A3 & A4 & A5) (B1 & B2 & B3 & B4 & B5). repeat split; auto; eapply incl_tran; eauto.
Qed.
Lemma le_l f g k : le f g -> le f (plus g k).
Proof. intros H. eapply le_trans; [exact H|apply le_plus_l]. Qed.
Lemma le_r f g k : le f k -> le f (plus g k).
Proof. intros H. eapply le_trans; [exact H|apply le_plus_r]. Qed.
Lemma le_nothing g : le nothing g.
Proof. repeat split; cbn; try discriminate; intros x []. Qed.

Lemma stays_spec e : needs_temp e = negb (stays e).
Proof.
  unfold needs_temp, stays. change (place e) with (left_value e). change (constant e) with (literal e).
  destruct (left_value e), (literal e); cbn; auto. destruct e; reflexivity.
Qed.

(** What the visit of an expression puts before the statement does, and what is left *)
Ltac more := repeat (first [apply within_plus | apply within_app]);
  try (eapply within_more; [eassumption|lia|lia|auto using le_refl, le_l, le_r]).

Lemma low_effects :
  (forall e n n' d e', low e n = (n', d, e') ->
     n <= n' /\ forallb decl d = true /\ within n n' true (whole_run d) (early e) /\
     within n n' false (whole e') (late e)) /\
  (forall a,
     (forall n n' d, low_first a n = (n', d) ->
        n <= n' /\ forallb decl d = true /\ within n n' true (whole_run d) (early_moved a)) /\
     (forall m m' dm n n' d a', low_first a m = (m', dm) -> m' <= n -> low_second a m n = (n', d, a') ->
        n <= n' /\ forallb decl d = true /\ within n n' true (whole_run d) (early_staying a) /\
        within m n' false (whole_args a') (late_args a))).
Proof.
  apply expr_args_ind; cbn [low low_first low_second early late early_moved early_staying late_args whole whole_args].
  - intros z n n' d e' [= <- <- <-]. repeat split; try lia; cbn; try discriminate; intros x [].
  - intros x n n' d e' [= <- <- <-]. repeat split; try lia; cbn; try discriminate; try (intros y []; fail); auto.
  - intros g n n' d e' [= <- <- <-]. repeat split; try lia; cbn; try discriminate; try (intros y []; fail); auto.
  - intros g i IH n n' d e'. destruct (low i n) as [[n1 d1] i'] eqn:E. rewrite stays_spec.
    destruct (IH _ _ _ _ E) as (L & D & W1 & W2). destruct (stays i); cbn [negb]; intros [= <- <- <-].
    + split; [lia|]. split; [assumption|]. split; [more|].
      cbn [whole]. more; apply within_le; auto using le_r, le_l, le_refl.
    + split; [lia|]. split; [rewrite forallb_app, D; reflexivity|]. split.
      * more. cbn [whole_run whole1]. more.
        -- eapply within_more; [apply within_weak, W2|lia|lia|auto using le_r, le_refl].
        -- repeat split; cbn; try discriminate; intros x [<-|[]]; right; try split; auto; lia.
        -- apply within_nothing.
      * cbn [whole]. more.
        -- repeat split; cbn; try discriminate; intros x []; try subst; try contradiction. right. lia.
        -- apply within_le. auto using le_r, le_l, le_refl.
        -- apply within_le. auto using le_r, le_l, le_refl.
  - intros e IH n n' d e'. destruct (low e n) as [[n1 d1] i'] eqn:E. destruct (IH _ _ _ _ E) as (L & D & W1 & W2).
    intros [= <- <- <-]. auto.
  - intros x n n' d e' [= <- <- <-]. repeat split; try lia; cbn; try discriminate; try (intros y []; fail); auto.
  - intros o a IHa b IHb n n' d e'. destruct (low a n) as [[n1 d1] a'] eqn:Ea. destruct (low b n1) as [[n2 d2] b'] eqn:Eb.
    destruct (IHa _ _ _ _ Ea) as (La & Da & A1 & A2). destruct (IHb _ _ _ _ Eb) as (Lb & Db & B1 & B2).
    intros [= <- <- <-]. split; [lia|]. split; [rewrite forallb_app, Da, Db; reflexivity|]. split; [more|].
    cbn [whole]. more. apply within_le. auto using le_r, le_refl.
  - intros a IHa b IHb n n' d e'. destruct (low a n) as [[n1 d1] a'] eqn:Ea. destruct (low b n1) as [[n2 d2] b'] eqn:Eb.
    destruct (IHa _ _ _ _ Ea) as (La & Da & A1 & A2). destruct (IHb _ _ _ _ Eb) as (Lb & Db & B1 & B2).
    intros [= <- <- <-]. split; [lia|]. split; [rewrite forallb_app, Da, Db; reflexivity|]. split; [more|]. cbn [whole]. more.
  - intros c IHc a IHa b IHb n n' d e'. destruct (low c n) as [[n0 d0] c'] eqn:Ec.
    destruct (low a n0) as [[n1 d1] a'] eqn:Ea. destruct (low b n1) as [[n2 d2] b'] eqn:Eb.
    destruct (IHc _ _ _ _ Ec) as (Lc & Dc & C1 & C2).
    destruct (IHa _ _ _ _ Ea) as (La & Da & A1 & A2). destruct (IHb _ _ _ _ Eb) as (Lb & Db & B1 & B2).
    intros [= <- <- <-]. split; [lia|]. split; [rewrite !forallb_app, Dc, Da, Db; reflexivity|]. split; [more|]. cbn [whole]. more.
  - intros k e IH n n' d e'. destruct (low e n) as [[n1 d1] i'] eqn:E. destruct (IH _ _ _ _ E) as (L & D & W1 & W2).
    intros [= <- <- <-]. split; [lia|]. split; [rewrite forallb_app, D; reflexivity|]. split; [|assumption].
    more. cbn [whole_run whole1]. more.
    + eapply within_more; [apply within_weak, W2|lia|lia|auto using le_r, le_l, le_refl].
    + apply within_le. auto using le_r, le_refl.
    + apply within_nothing.
  - intros f a [IH1 IH2] n n' d e'. destruct (low_first a n) as [n1 d1] eqn:E1.
    destruct (low_second a n n1) as [[n2 d2] a'] eqn:E2.
    destruct (IH1 _ _ _ E1) as (L1 & D1 & W1). destruct (IH2 _ _ _ _ _ _ _ E1 (Nat.le_refl _) E2) as (L2 & D2 & W2 & W3).
    intros [= <- <- <-]. split; [lia|]. split; [rewrite forallb_app, D1, D2; reflexivity|]. split; [more|].
    cbn [whole]. more. apply within_le. auto using le_r, le_refl.
  - split.
    + intros n n' d [= <- <-]. repeat split; try lia; cbn; try discriminate; intros x [].
    + intros m m' dm n n' d a' [= <- <-] L [= <- <- <-]. repeat split; try lia; cbn; try discriminate; intros x [].
  - intros e IHe r [IH1 IH2]. rewrite stays_spec. destruct (stays e) eqn:St; cbn [negb]; split.
    + intros n n' d E. destruct (IH1 _ _ _ E) as (L1 & D1 & W1). split; [lia|]. split; [assumption|]. more.
    + intros m m' dm n n' d a' E1 L. destruct (low e n) as [[n1 d1] e'] eqn:Ee.
      destruct (low_second r m n1) as [[n2 d2] r'] eqn:E2. intros [= <- <- <-].
      destruct (IHe _ _ _ _ Ee) as (Le & De & A1 & A2).
      destruct (IH1 _ _ _ E1) as (L1 & D1 & W1).
      destruct (IH2 _ _ _ _ _ _ _ E1 (Nat.le_trans _ _ _ L Le) E2) as (L2 & D2 & W2 & W3).
      split; [lia|]. split; [rewrite forallb_app, De, D2; reflexivity|]. split; [more|]. cbn [whole_args]. more.
    + intros n n' d. destruct (low e n) as [[n1 d1] e'] eqn:Ee. destruct (low_first r (S n1)) as [n2 d2] eqn:E1.
      destruct (IHe _ _ _ _ Ee) as (Le & De & A1 & A2). destruct (IH1 _ _ _ E1) as (L1 & D1 & W1).
      intros [= <- <-]. split; [lia|]. split; [rewrite forallb_app, De; cbn; assumption|].
      more.
      * eapply within_more; [apply within_weak, A2|lia|lia|auto using le_r, le_l, le_refl].
      * repeat split; cbn; try discriminate; intros x [<-|[]]; right; try split; auto; lia.
    + intros m m' dm n n' d a' E1 L. destruct (low e m) as [[m1 d1] e'] eqn:Ee. destruct (low_first r (S m1)) as [m2 d2] eqn:E1'.
      revert E1. intros [= <- <-]. destruct (low_second r (S m1) n) as [[n2 d3] r'] eqn:E2. intros [= <- <- <-].
      destruct (IHe _ _ _ _ Ee) as (Le & De & A1 & A2). destruct (IH1 _ _ _ E1') as (L1 & D1 & W1).
      destruct (IH2 _ _ _ _ _ _ _ E1' L E2) as (L2 & D2 & W2 & W3).
      split; [lia|]. split; [assumption|]. split; [more|]. cbn [whole_args whole]. more.
      repeat split; cbn; try discriminate; intros x []; try subst; try contradiction. right. lia.
Qed.

Lemma in_vars :
  (forall e x, In x (uses (late e)) \/ In x (uses (early e)) -> In x (vars e)) /\
  (forall a x, In x (uses (late_args a)) \/ In x (uses (early_moved a)) \/ In x (uses (early_staying a)) ->
     In x (vars_args a)).
Proof.
  apply expr_args_ind; cbn; intros; auto; repeat rewrite in_app_iff in *.
  - destruct H; contradiction.
  - destruct H as [H|[]]; exact H.
  - destruct H; contradiction.
  - apply H. destruct (stays i); cbn in *; rewrite ?in_app_iff in *; cbn in *; tauto.
  - destruct H as [H|[]]; exact H.
  - specialize (H x). specialize (H0 x). destruct o; cbn in *; rewrite ?in_app_iff in *; cbn in *; tauto.
  - specialize (H x). specialize (H0 x). tauto.
  - specialize (H x). specialize (H0 x). specialize (H1 x). rewrite ?in_app_iff in *. tauto.
  - specialize (H x). rewrite ?in_app_iff in *; cbn in *. tauto.
  - specialize (H x). cbn in *. tauto.
  - tauto.
  - specialize (H x). specialize (H0 x). destruct (stays e); cbn in *; rewrite ?in_app_iff in *; cbn in *; tauto.
Qed.

Lemma separate_within N n n' w f f0 m m' w' g g0 :
  within n n' w f f0 -> within m m' w' g g0 -> N <= n -> N <= m -> n' <= m \/ m' <= n ->
  (forall x, In x (uses f0) -> x < N) -> (forall x, In x (uses g0) -> x < N) -> wf f0 -> wf g0 ->
  separate f0 g0 -> separate f g.
Proof.
  intros (A1 & A2 & A3 & A4 & A5) (B1 & B2 & B3 & B4 & B5) Ln Lm Lr Uf Ug [Wf _] [Wg _] (S1 & S2 & S3 & S4).
  repeat split.
  - intros x i j. destruct (A2 x i) as [p|[_ p]], (B1 x j) as [q|q]; try lia.
    + exact (S1 x p q).
    + specialize (Uf x (Wf x p)). lia.
    + specialize (Ug x q). lia.
  - intros x i j. destruct (B2 x i) as [p|[_ p]], (A1 x j) as [q|q]; try lia.
    + exact (S2 x p q).
    + specialize (Ug x (Wg x p)). lia.
    + specialize (Uf x q). lia.
  - auto.
  - auto.
Qed.

Lemma harmless_run d n n' g : harmless g = true -> within n n' true (whole_run d) g ->
  forall s, exists s', run d s = Some (tt, s') /\ agr (fun x => ~ n <= x < n') s' s.
Proof.
  unfold harmless. rewrite !andb_true_iff, !negb_true_iff. intros [[H1 H2] H3] (A1 & A2 & A3 & A4 & A5) s.
  destruct (sets g) eqn:E; [|discriminate].
  pose proof (foot_run d) as F.
  assert (fails (whole_run d) = false) as Hf.
  { destruct (fails (whole_run d)); [rewrite A5 in H3 by reflexivity; discriminate|reflexivity]. }
  assert (changes_world (whole_run d) = false) as Hc.
  { destruct (changes_world (whole_run d)); [rewrite A4 in H2 by reflexivity; discriminate|reflexivity]. }
  pose proof (foot_safe _ _ F Hf s) as N. destruct (run d s) as [[[] s']|] eqn:R; [|congruence].
  exists s'. split; [reflexivity|]. destruct (foot_frame _ _ F _ _ _ R) as [P1 P2]. split.
  - intros x Hx. apply P1. intros i. destruct (A2 x i) as [[]|[_ i']]. auto.
  - auto.
Qed.

(** Temporaries hold the value of what they were made for. *)
Lemma let_read N d t e (m : comp Z) : N <= t ->
  rel N (bind (run d) (fun _ => ev e)) m ->
  rel N (bind (run d) (fun _ => bind (ev e) (fun z => bind (assign h t z) (fun _ => ev (Var t))))) m.
Proof.
  intros L H s s0 E. specialize (H s s0 E). unfold bind in *.
  destruct (run d s) as [[[] s1]|]; [|exact H].
  destruct (ev e s1) as [[z s2]|]; [|exact H]. cbn. rewrite Nat.eqb_refl.
  destruct (m s0) as [[z' s3]|]; [|exact H]. destruct H as [-> [H1 H2]]. split; [reflexivity|].
  split; [|exact H2]. intros x Hx. cbn. unfold upto in Hx.
  destruct (Nat.eqb_spec t x); [lia|]. apply H1, Hx.
Qed.

Lemma drop N d n n' g {A} (m k : comp A) : harmless g = true -> within n n' true (whole_run d) g -> N <= n ->
  rel N m k -> rel N (bind (run d) (fun _ => m)) k.
Proof.
  intros Hh Hw L H s t E. destruct (harmless_run _ _ _ _ Hh Hw s) as (s' & R & G). unfold bind. rewrite R. apply H.
  eapply agr_trans; [|exact E]. eapply agr_weak; [|exact G]. unfold upto. cbn. intros. lia.
Qed.

Lemma proper_ev e : proper (ev e).
Proof. apply (foot_proper (whole e)); [apply wf_whole|apply (eval_foot pick pa)]. Qed.
Lemma proper_eva a : proper (eva a).
Proof. apply (foot_proper (whole_args a)); [apply wf_whole|apply (eval_foot pick pa)]. Qed.
Lemma proper_run d : proper (run d).
Proof. eapply foot_proper; [apply wf_run|apply foot_run]. Qed.

Variables (strict : bool) (N : nat).
Hypothesis picks : strict = true \/ (forall e, pick e = false) /\ (forall a, pa a = false).

(** Operands that may be swapped are evaluated as from the left. *)
Lemma both_left {A B C} f g r (m : comp A) (k : comp B) (l : A -> B -> comp C) :
  wf f -> wf g -> foot f m -> foot g k -> (strict = true -> separate f g) -> strict = true \/ r = false ->
  (forall a b, proper (l a b)) ->
  ceq (bind (both r m k) (fun '(a, b) => l a b)) (bind m (fun a => bind k (fun b => l a b))).
Proof.
  intros Wf Wg F G S R L. destruct r; cbn.
  - destruct R as [R|R]; [|discriminate].
    eapply ceq_trans; [apply ceq_eq; intros s; apply bind_assoc|].
    eapply ceq_trans; [|apply (commute g f k m (fun b a => l a b)); auto using separate_sym].
    apply ceq_bind_r. intros b. apply ceq_eq. intros s. rewrite bind_assoc. reflexivity.
  - eapply ceq_trans; [apply ceq_eq; intros s; apply bind_assoc|].
    apply ceq_bind_r. intros a. apply ceq_eq. intros s. rewrite bind_assoc. reflexivity.
Qed.

Lemma free_spec f g : free strict f g = true -> strict = true -> separate f g.
Proof. unfold free. intros H ->. apply apart_separate, H. Qed.

Lemma pick_spec b : strict = true \/ pick b = false.
Proof. destruct picks as [H|[H _]]; auto. Qed.
Lemma pa_spec b : strict = true \/ pa b = false.
Proof. destruct picks as [H|[_ H]]; auto. Qed.

Notation small e := (forall x, In x (vars e) -> x < N).

Lemma late_small e : small e -> forall x, In x (uses (late e)) -> x < N.
Proof. intros H x i. apply H, (proj1 in_vars). auto. Qed.
Lemma early_small e : small e -> forall x, In x (uses (early e)) -> x < N.
Proof. intros H x i. apply H, (proj1 in_vars). auto. Qed.
Lemma args_small a : (forall x, In x (vars_args a) -> x < N) ->
  (forall x, In x (uses (late_args a)) -> x < N) /\ (forall x, In x (uses (early_moved a)) -> x < N) /\
  (forall x, In x (uses (early_staying a)) -> x < N).
Proof. intros H. repeat split; intros x i; apply H, (proj2 in_vars); auto. Qed.

Ltac assoc := eapply ceq_trans; [apply ceq_eq; intros ?; apply bind_assoc|].

(** Two operands from left to right *)
Lemma two_ops {C} d1 d2 a' b' (ma mb : comp Z) (l k : Z -> Z -> comp C) :
  separate (whole a') (whole_run d2) -> (forall x y, proper (l x y)) -> (forall x y, rel N (l x y) (k x y)) ->
  rel N (bind (run d1) (fun _ => ev a')) ma -> rel N (bind (run d2) (fun _ => ev b')) mb ->
  rel N (bind (run (d1 ++ d2)) (fun _ => bind (ev a') (fun x => bind (ev b') (fun y => l x y))))
        (bind ma (fun x => bind mb (fun y => k x y))).
Proof.
  intros S Pl Rl Ra Rb.
  eapply rel_ceq_l.
  - eapply ceq_trans; [apply ceq_eq; intros s; apply run_app_bind|].
    eapply ceq_trans.
    + apply ceq_bind_r. intros u.
      apply (commute (whole_run d2) (whole a') (run d2) (ev a') (fun _ x => bind (ev b') (fun y => l x y)));
        auto using wf_run, foot_run, separate_sym, (proj1 wf_whole), (proj1 (eval_foot pick pa)).
      intros ? x. apply proper_bind; auto using proper_ev.
    + apply ceq_eq. intros s. symmetry. apply bind_assoc.
  - apply rel_bind; [exact Ra|]. intros x. eapply rel_ceq_l.
    + apply ceq_eq. intros s. symmetry. apply bind_assoc.
    + apply rel_bind; [exact Rb|]. intros y. apply Rl.
Qed.

Lemma two_operands {C} a b n n1 n2 d1 d2 a' b' (l k : Z -> Z -> comp C) :
  low a n = (n1, d1, a') -> low b n1 = (n2, d2, b') -> N <= n -> small a -> small b ->
  apart (late a) (early b) = true -> (forall x y, proper (l x y)) -> (forall x y, rel N (l x y) (k x y)) ->
  rel N (bind (run d1) (fun _ => ev a')) (lr a) -> rel N (bind (run d2) (fun _ => ev b')) (lr b) ->
  rel N (bind (run (d1 ++ d2)) (fun _ => bind (ev a') (fun x => bind (ev b') (fun y => l x y))))
        (bind (lr a) (fun x => bind (lr b) (fun y => k x y))).
Proof.
  intros Ea Eb L Sa Sb Ap Pl Rl Ra Rb.
  destruct (proj1 low_effects _ _ _ _ _ Ea) as (La & _ & A1 & A2).
  destruct (proj1 low_effects _ _ _ _ _ Eb) as (Lb & _ & B1 & B2).
  apply two_ops; auto.
  apply (separate_within N n n1 false _ (late a) n1 n2 true _ (early b)); auto; try lia.
  - apply late_small, Sa.
  - apply early_small, Sb.
  - apply wf_late.
  - apply wf_early.
  - apply apart_separate, Ap.
Qed.

Lemma rel_ext {A} n (m m' k k' : comp A) :
  (forall s, m s = m' s) -> (forall s, k s = k' s) -> rel n m' k' -> rel n m k.
Proof. intros H1 H2 H s t E. rewrite H1, H2. apply H, E. Qed.

Lemma both_false {A B C} (m : comp A) (k : comp B) (l : A -> B -> comp C) s :
  bind (both false m k) (fun '(a, b) => l a b) s = bind m (fun a => bind k (fun b => l a b)) s.
Proof.
  unfold both, bind. destruct (m s) as [[a s1]|]; [|reflexivity]. destruct (k s1) as [[b s2]|]; reflexivity.
Qed.
Lemma lr_cons e r s : lra (ACons e r) s = bind (lr e) (fun z => bind (lra r) (fun l => ret (z :: l))) s.
Proof. exact (both_false (lr e) (lra r) (fun z l => ret (z :: l)) s). Qed.
Lemma lr_bin o a b s : lr (Bin o a b) s = bind (lr a) (fun x => bind (lr b) (fun y => apply h o x y)) s.
Proof. exact (both_false (lr a) (lr b) (fun x y => apply h o x y) s). Qed.

Lemma and_split (a b : bool) : a && b = true -> a = true /\ b = true.
Proof. apply andb_true_iff. Qed.

Lemma assoc4 {A B C D F} (m : comp A) (p : comp B) (q : B -> comp C) (v : comp D) (k : D -> comp F) s :
  bind m (fun _ => bind p (fun z => bind (q z) (fun _ => bind v k))) s =
  bind (bind m (fun _ => bind p (fun z => bind (q z) (fun _ => v)))) k s.
Proof.
  unfold bind. destruct (m s) as [[a s1]|]; [|reflexivity]. destruct (p s1) as [[b s2]|]; [|reflexivity].
  destruct (q b s2) as [[c s3]|]; reflexivity.
Qed.
Lemma assoc3 {A B C D} (m : comp A) (p : comp B) (v : comp C) (k : C -> comp D) s :
  bind m (fun _ => bind p (fun _ => bind v k)) s = bind (bind m (fun _ => bind p (fun _ => v))) k s.
Proof.
  unfold bind. destruct (m s) as [[a s1]|]; [|reflexivity]. destruct (p s1) as [[b s2]|]; reflexivity.
Qed.
Lemma assoc2 {A B C} (m : comp A) (v : comp B) (k : B -> comp C) s :
  bind m (fun _ => bind v k) s = bind (bind m (fun _ => v)) k s.
Proof. unfold bind. destruct (m s) as [[a s1]|]; reflexivity. Qed.

Lemma low_args_temp e r m n1 d1 e' m2 d2 n n2 d3 r' :
  low e m = (n1, d1, e') -> low_first r (S n1) = (m2, d2) -> m2 <= n -> low_second r (S n1) n = (n2, d3, r') ->
  N <= m -> small e -> (forall x, In x (vars_args r) -> x < N) ->
  rel N (bind (run d1) (fun _ => ev e')) (lr e) ->
  rel N (bind (run d2) (fun _ => bind (run d3) (fun _ => eva r'))) (lra r) ->
  rel N (bind (run (d1 ++ Assign n1 e' :: d2)) (fun _ => bind (run d3) (fun _ => eva (ACons (Var n1) r'))))
    (lra (ACons e r)).
Proof.
  intros Ee E1 L E2 Ln Se Sr Re Rr.
  destruct (proj1 low_effects _ _ _ _ _ Ee) as (Le & _ & A1 & A2).
  destruct (proj2 low_effects r) as [P1 P2].
  destruct (P1 _ _ _ E1) as (L1 & _ & B1). destruct (P2 _ _ _ _ _ _ _ E1 L E2) as (L2 & _ & C1 & C2).
  destruct (args_small _ Sr) as (U1 & U2 & U3).
  set (tv := Effects [n1] [] false false false).
  assert (forall g k k' w f, within k k' w f g -> n1 < k -> (forall x, In x (uses g) -> x < N) -> wf g ->
            separate tv f) as Sep.
  { intros g k k' w f (G1 & G2 & _) Hk Hu [Hw _]. repeat split; try discriminate.
    - intros x [].
    - intros x Hx [<-|[]]. destruct (G2 _ Hx) as [i|[_ i]]; [|lia]. specialize (Hu _ (Hw _ i)). lia. }
  assert (separate tv (whole_args r')) as S1.
  { apply (Sep (late_args r) (S n1) n2 false); auto. apply wf_late. }
  assert (separate tv (whole_run d2)) as S2.
  { apply (Sep (early_moved r) (S n1) m2 true); auto. apply wf_early. }
  assert (separate tv (whole_run d3)) as S3.
  { apply (Sep (early_staying r) n n2 true); auto; [lia|]. apply wf_early. }
  assert (foot tv (ev (Var n1))) as Fv by apply foot_var.
  assert (wf tv) as Wv by apply wf_var.
  (* the temporary is read first *)
  eapply rel_ceq_l.
  - eapply ceq_trans; [apply ceq_eq; intros s; apply run_app_bind|]. apply ceq_bind_r. intros u.
    cbn [run run1]. assoc. assoc. apply ceq_bind_r. intros z. apply ceq_bind_r. intros u'.
    eapply ceq_trans.
    + apply ceq_bind_r. intros u2. eapply ceq_trans.
      * apply ceq_bind_r. intros u3. cbn [eval_args].
        apply (both_left tv (whole_args r') (pa r') (ev (Var n1)) (eva r') (fun z l => ret (z :: l)));
          auto using pa_spec, proper_ret; [apply wf_whole|apply (eval_foot pick pa)].
      * apply (commute (whole_run d3) tv (run d3) (ev (Var n1)) (fun _ z => bind (eva r') (fun l => ret (z :: l))));
          auto using wf_run, foot_run, separate_sym.
        intros. apply proper_bind; auto using proper_eva, proper_ret.
    + apply (commute (whole_run d2) tv (run d2) (ev (Var n1))
        (fun _ z => bind (run d3) (fun _ => bind (eva r') (fun l => ret (z :: l)))));
        auto using wf_run, foot_run, separate_sym.
      intros. apply proper_bind; [apply proper_run|]. intros. apply proper_bind; auto using proper_eva, proper_ret.
  - eapply rel_ext; [intros s; apply (assoc4 (run d1) (ev e') (assign h n1) (ev (Var n1)))|intros s; apply lr_cons|].
    apply rel_bind; [apply let_read; [lia|exact Re]|]. intros z.
    eapply rel_ext; [intros s; apply assoc3|intros s; reflexivity|].
    apply rel_bind; [exact Rr|]. intros l. apply rel_ret.
Qed.

(** An argument that stays is evaluated in its place. *)
Lemma low_args_stays e r m m' dm n n1 d1 e' n2 d2 r' :
  low_first r m = (m', dm) -> m' <= n -> low e n = (n1, d1, e') -> low_second r m n1 = (n2, d2, r') ->
  N <= m -> small e -> (forall x, In x (vars_args r) -> x < N) ->
  apart (early e) (early_moved r) = true -> apart (late e) (early_moved r) = true ->
  apart (late e) (early_staying r) = true -> free strict (late e) (late_args r) = true ->
  rel N (bind (run d1) (fun _ => ev e')) (lr e) ->
  rel N (bind (run dm) (fun _ => bind (run d2) (fun _ => eva r'))) (lra r) ->
  rel N (bind (run dm) (fun _ => bind (run (d1 ++ d2)) (fun _ => eva (ACons e' r')))) (lra (ACons e r)).
Proof.
  intros E1 L Ee E2 Ln Se Sr H1 H2 H3 H4 Re Rr.
  destruct (proj1 low_effects _ _ _ _ _ Ee) as (Le & _ & A1 & A2).
  destruct (proj2 low_effects r) as [P1 P2].
  destruct (P1 _ _ _ E1) as (L1 & _ & B1).
  destruct (P2 _ _ _ _ _ _ _ E1 (Nat.le_trans _ _ _ L Le) E2) as (L2 & _ & C1 & C2).
  destruct (args_small _ Sr) as (U1 & U2 & U3).
  pose proof (late_small _ Se) as V1. pose proof (early_small _ Se) as V2.
  destruct wf_late as [Wl Wla]. destruct wf_early as [We Wea]. destruct (Wea r) as [Wm Ws].
  assert (separate (whole_run d1) (whole_run dm)) as S1.
  { apply (separate_within N n n1 true _ (early e) m m' true _ (early_moved r)); auto; try lia. apply apart_separate, H1. }
  assert (separate (whole e') (whole_run dm)) as S2.
  { apply (separate_within N n n1 false _ (late e) m m' true _ (early_moved r)); auto; try lia. apply apart_separate, H2. }
  assert (separate (whole e') (whole_run d2)) as S3.
  { apply (separate_within N n n1 false _ (late e) n1 n2 true _ (early_staying r)); auto; try lia. apply apart_separate, H3. }
  assert (strict = true -> separate (whole e') (whole_args r')) as S4.
  { intros Hs. pose proof (free_spec _ _ H4 Hs) as [F1 [F2 [F3 F4]]].
    destruct A2 as (a1 & a2 & a3 & a4 & _), C2 as (c1 & c2 & c3 & c4 & _). repeat split; auto.
    - intros x i j. destruct (a2 x i) as [p|[? _]]; [|discriminate]. specialize (V1 x (proj1 (Wl e) x p)).
      destruct (c1 x j) as [q|q]; [exact (F1 x p q)|lia].
    - intros x i j. destruct (c2 x i) as [p|[? _]]; [|discriminate]. specialize (U1 x (proj1 (Wla r) x p)).
      destruct (a1 x j) as [q|q]; [exact (F2 x p q)|lia]. }
  assert (wf (whole e') /\ foot (whole e') (ev e')) as [Wv Fv] by (split; [apply wf_whole|apply (eval_foot pick pa)]).
  eapply rel_ceq_l.
  - eapply ceq_trans.
    + apply ceq_bind_r. intros u. eapply ceq_trans; [apply ceq_eq; intros s; apply run_app_bind|].
      apply ceq_bind_r. intros u1. eapply ceq_trans.
      * apply ceq_bind_r. intros u2. cbn [eval_args].
        apply (both_left (whole e') (whole_args r') (pa r') (ev e') (eva r') (fun z l => ret (z :: l)));
          auto using pa_spec, proper_ret; [apply wf_whole|apply (eval_foot pick pa)].
      * apply (commute (whole_run d2) (whole e') (run d2) (ev e') (fun _ z => bind (eva r') (fun l => ret (z :: l))));
          auto using wf_run, foot_run, separate_sym.
        intros. apply proper_bind; auto using proper_eva, proper_ret.
    + eapply ceq_trans.
      * apply (commute (whole_run dm) (whole_run d1) (run dm) (run d1)
          (fun _ _ => bind (ev e') (fun z => bind (run d2) (fun _ => bind (eva r') (fun l => ret (z :: l))))));
          auto using wf_run, foot_run, separate_sym.
        intros. apply proper_bind; [apply proper_ev|]. intros. apply proper_bind; [apply proper_run|].
        intros. apply proper_bind; auto using proper_eva, proper_ret.
      * apply ceq_bind_r. intros u.
        apply (commute (whole_run dm) (whole e') (run dm) (ev e')
          (fun _ z => bind (run d2) (fun _ => bind (eva r') (fun l => ret (z :: l)))));
          auto using wf_run, foot_run, separate_sym.
        intros. apply proper_bind; [apply proper_run|]. intros. apply proper_bind; auto using proper_eva, proper_ret.
  - eapply rel_ext; [intros s; apply assoc2|intros s; apply lr_cons|].
    apply rel_bind; [exact Re|]. intros z.
    eapply rel_ext; [intros s; apply assoc3|intros s; reflexivity|].
    apply rel_bind; [exact Rr|]. intros l. apply rel_ret.
Qed.

Lemma check_twice k e : sets (whole e) = [] -> changes_world (whole e) = false ->
  ceq (bind (bind (ev e) (check h k)) (fun _ => ev e)) (bind (ev e) (check h k)).
Proof.
  intros H1 H2 s. unfold bind. destruct (ev e s) as [[z s1]|] eqn:E; [|exact I].
  unfold check. destruct (Nat.eqb (tag h z) k); [|exact I].
  destruct (foot_frame _ _ (proj1 (eval_foot pick pa) e) _ _ _ E) as [P1 P2].
  assert (agr all s1 s) as G.
  { split; [|auto]. intros x _. apply P1. rewrite H1. intros []. }
  pose proof (proper_ev e s1 s G) as Q. rewrite E in Q. exact Q.
Qed.

Lemma low_correct :
  (forall e n n' d e', low e n = (n', d, e') -> ordered strict e = true -> small e -> N <= n ->
     rel N (bind (run d) (fun _ => ev e')) (lr e)) /\
  (forall a m m' dm n n' d a', low_first a m = (m', dm) -> m' <= n -> low_second a m n = (n', d, a') ->
     ordered_args strict a = true -> (forall x, In x (vars_args a) -> x < N) -> N <= m ->
     rel N (bind (run dm) (fun _ => bind (run d) (fun _ => eva a'))) (lra a)).
Proof.
  apply expr_args_ind; cbn [low low_first low_second ordered ordered_args vars vars_args].
  - intros z n n' d e' [= <- <- <-] _ _ _. apply rel_ret.
  - intros x n n' d e' [= <- <- <-] _ Hx _ s t E. cbn. split; [|exact E]. apply E, Hx. cbn. auto.
  - intros g n n' d e' [= <- <- <-] _ _ _ s t E. cbn. destruct E as [E1 E2]. rewrite E2. split; [reflexivity|split; auto].
  - intros g i IH n n' d e'. destruct (low i n) as [[n1 d1] i'] eqn:E. intros Hq Ho Hs Hn.
    destruct (proj1 low_effects _ _ _ _ _ E) as (L & _ & _ & _).
    specialize (IH _ _ _ _ E Ho Hs Hn).
    assert (forall z, rel N (read_elem h g z) (read_elem h g z)) as R.
    { intros z. eapply rel_foot; [|apply foot_elem|intros x []]. auto with wf. }
    destruct (needs_temp i); injection Hq as <- <- <-.
    + eapply rel_ext; [intros s; apply run_app_bind|intros s; reflexivity|].
      cbn [run run1 eval]. eapply rel_ext; [|intros s; reflexivity|].
      * intros s. instantiate (1 := bind (bind (run d1) (fun _ => bind (ev i') (fun z => bind (assign h n1 z) (fun _ => ev (Var n1))))) (read_elem h g)).
        rewrite <- (assoc4 (run d1) (ev i') (assign h n1) (ev (Var n1))).
        unfold bind. destruct (run d1 s) as [[u s1]|]; [|reflexivity]. destruct (ev i' s1) as [[z s2]|]; reflexivity.
      * apply rel_bind; [apply let_read; [lia|exact IH]|exact R].
    + eapply rel_ext; [intros s; apply assoc2|intros s; reflexivity|]. apply rel_bind; auto.
  - intros e IH n n' d e'. destruct (low e n) as [[n1 d1] i'] eqn:E. intros [= <- <- <-] Ho Hs Hn.
    eapply rel_ext; [intros s; apply assoc2|intros s; reflexivity|]. apply rel_bind; [eapply IH; eauto|]. intros. apply rel_ret.
  - intros x n n' d e' [= <- <- <-] _ Hx _ s t [E1 E2]. cbn. assert (upto N x) as Ux by (apply Hx; cbn; auto).
    rewrite (E1 x Ux). split; [reflexivity|]. split; [|exact E2]. intros y Hy. cbn. rewrite (E1 y Hy). reflexivity.
  - intros o a IHa b IHb n n' d e'. destruct (low a n) as [[n1 d1] a'] eqn:Ea. destruct (low b n1) as [[n2 d2] b'] eqn:Eb.
    intros [= <- <- <-] Ho Hs Hn. repeat (apply and_split in Ho; destruct Ho as [Ho ?]).
    destruct (proj1 low_effects _ _ _ _ _ Ea) as (La & _ & A1 & A2).
    destruct (proj1 low_effects _ _ _ _ _ Eb) as (Lb & _ & B1 & B2).
    assert (small a /\ small b) as [Sa Sb] by (split; intros x Hx; apply Hs, in_app_iff; auto).
    assert (forall x y, proper (apply h o x y)) as Pa.
    { intros x y. eapply foot_proper; [|apply foot_apply]. destruct o; auto with wf. }
    assert (forall x y, rel N (apply h o x y) (apply h o x y)) as Ra.
    { intros x y. eapply rel_foot; [|apply foot_apply|]; destruct o; auto with wf; intros v []. }
    eapply rel_ceq_l.
    + apply ceq_bind_r. intros u. cbn [eval].
      apply (both_left (whole a') (whole b') (pick b') (ev a') (ev b') (fun x y => apply h o x y));
        auto using pick_spec; try apply wf_whole; try apply (eval_foot pick pa).
      intros Hst. apply (separate_within N n n1 false _ (late a) n1 n2 false _ (late b)); auto; try lia; try (apply late_small; assumption); try (apply early_small; assumption).
      * apply wf_late.
      * apply wf_late.
      * apply free_spec; assumption.
    + eapply rel_ext; [intros s; reflexivity|intros s; apply lr_bin|].
      eapply two_operands; eauto. eapply IHb; eauto. lia.
  - intros a IHa b IHb n n' d e'. destruct (low a n) as [[n1 d1] a'] eqn:Ea. destruct (low b n1) as [[n2 d2] b'] eqn:Eb.
    intros [= <- <- <-] Ho Hs Hn. repeat (apply and_split in Ho; destruct Ho as [Ho ?]).
    destruct (proj1 low_effects _ _ _ _ _ Ea) as (La & _ & A1 & A2).
    destruct (proj1 low_effects _ _ _ _ _ Eb) as (Lb & _ & B1 & B2).
    assert (small a /\ small b) as [Sa Sb] by (split; intros x Hx; apply Hs, in_app_iff; auto).
    assert (separate (whole a') (whole_run d2)) as S.
    { apply (separate_within N n n1 false _ (late a) n1 n2 true _ (early b)); auto; try lia; try (apply late_small; assumption); try (apply early_small; assumption).
      - apply wf_late.
      - apply wf_early.
      - apply apart_separate. assumption. }
    eapply rel_ceq_l.
    + eapply ceq_trans; [apply ceq_eq; intros s; apply run_app_bind|]. apply ceq_bind_r. intros u. cbn [eval].
      apply (commute (whole_run d2) (whole a') (run d2) (ev a')
        (fun _ x => if (x =? 0)%Z then ret 0%Z else bind (ev b') (fun y => ret (if (y =? 0)%Z then 0%Z else 1%Z))));
        auto using wf_run, foot_run, separate_sym; try apply wf_whole; try apply (eval_foot pick pa).
      intros _ x. destruct (x =? 0)%Z; [apply proper_ret|]. apply proper_bind; auto using proper_ev, proper_ret.
    + eapply rel_ext; [intros s; apply assoc2|intros s; reflexivity|].
      apply rel_bind; [eapply IHa; eauto|]. intros x. destruct (x =? 0)%Z.
      * eapply drop; eauto; [lia|]. apply rel_ret.
      * eapply rel_ext; [intros s; apply assoc2|intros s; reflexivity|].
        apply rel_bind; [eapply IHb; eauto; lia|]. intros. apply rel_ret.
  - intros c IHc a IHa b IHb n n' d e'. destruct (low c n) as [[n0 d0] c'] eqn:Ec.
    destruct (low a n0) as [[n1 d1] a'] eqn:Ea. destruct (low b n1) as [[n2 d2] b'] eqn:Eb.
    intros [= <- <- <-] Ho Hs Hn. repeat (apply and_split in Ho; destruct Ho as [Ho ?]).
    destruct (proj1 low_effects _ _ _ _ _ Ec) as (Lc & _ & C1 & C2).
    destruct (proj1 low_effects _ _ _ _ _ Ea) as (La & _ & A1 & A2).
    destruct (proj1 low_effects _ _ _ _ _ Eb) as (Lb & _ & B1 & B2).
    assert (small c /\ small a /\ small b) as (Sc & Sa & Sb) by (repeat split; intros x Hx; apply Hs; rewrite !in_app_iff; auto).
    assert (separate (whole c') (whole_run d1)) as S1.
    { apply (separate_within N n n0 false _ (late c) n0 n1 true _ (early a)); auto; try lia; try (apply late_small; assumption); try (apply early_small; assumption).
      - apply wf_late.
      - apply wf_early.
      - apply apart_separate. assumption. }
    assert (separate (whole c') (whole_run d2)) as S2.
    { apply (separate_within N n n0 false _ (late c) n1 n2 true _ (early b)); auto; try lia; try (apply late_small; assumption); try (apply early_small; assumption).
      - apply wf_late.
      - apply wf_early.
      - apply apart_separate. assumption. }
    eapply rel_ceq_l.
    + eapply ceq_trans; [apply ceq_eq; intros s; apply run_app_bind|]. apply ceq_bind_r. intros u.
      eapply ceq_trans; [apply ceq_eq; intros s; apply run_app_bind|]. cbn [eval].
      eapply ceq_trans.
      * apply ceq_bind_r. intros u1.
        apply (commute (whole_run d2) (whole c') (run d2) (ev c') (fun _ x => if (x =? 0)%Z then ev b' else ev a'));
          auto using wf_run, foot_run, separate_sym; try apply wf_whole; try apply (eval_foot pick pa).
        intros _ x. destruct (x =? 0)%Z; apply proper_ev.
      * apply (commute (whole_run d1) (whole c') (run d1) (ev c')
          (fun _ x => bind (run d2) (fun _ => if (x =? 0)%Z then ev b' else ev a')));
          auto using wf_run, foot_run, separate_sym; try apply wf_whole; try apply (eval_foot pick pa).
        intros _ x. apply proper_bind; [apply proper_run|]. intros. destruct (x =? 0)%Z; apply proper_ev.
    + eapply rel_ext; [intros s; apply assoc2|intros s; reflexivity|].
      apply rel_bind; [eapply IHc; eauto|]. intros x. destruct (x =? 0)%Z.
      * apply (drop N d1 n0 n1 (early a)); auto; [lia|]. eapply IHb; eauto. lia.
      * apply (rel_upto N n1 _ (bind (run d1) (fun _ => ev a'))); [lia| |eapply IHa; eauto; lia].
        intros s. unfold bind. destruct (run d1 s) as [[u s1]|]; [|exact I].
        destruct (harmless_run d2 n1 n2 (early b)) with (s := s1) as (s2 & R2 & G2); auto. rewrite R2.
        apply (foot_agr (whole a')); [apply wf_whole|apply (eval_foot pick pa)| |].
        -- intros y Hy. destruct A2 as (a1 & _). unfold upto. destruct (a1 y Hy) as [i|i]; [|lia].
           pose proof (late_small _ Sa y i). lia.
        -- eapply agr_weak; [|exact G2]. unfold upto. cbn. intros. lia.
  - intros k e IH n n' d e'. destruct (low e n) as [[n1 d1] i'] eqn:E. intros [= <- <- <-] Ho Hs Hn.
    apply and_split in Ho. destruct Ho as [Ho Hr]. unfold repeatable in Hr. apply and_split in Hr. destruct Hr as [Hr1 Hr2].
    apply negb_true_iff in Hr2. destruct (sets (late e)) eqn:Hset; [|discriminate].
    destruct (proj1 low_effects _ _ _ _ _ E) as (L & _ & _ & (W1 & W2 & _ & W4 & _)).
    eapply rel_ceq_l.
    + eapply ceq_trans; [apply ceq_eq; intros s; apply run_app_bind|]. apply ceq_bind_r. intros u.
      cbn [run run1]. eapply ceq_trans; [|apply (check_twice k i')].
      * apply ceq_eq. intros s. unfold bind. destruct (ev i' s) as [[z s1]|]; [|reflexivity].
        destruct (check h k z s1) as [[z' s2]|]; reflexivity.
      * destruct (sets (whole i')) as [|x l] eqn:Ex; [reflexivity|]. exfalso.
        destruct (W2 x) as [i|[? _]]; [left; reflexivity| |discriminate]. rewrite Hset in i. exact i.
      * destruct (changes_world (whole i')); [rewrite W4 in Hr2 by reflexivity; discriminate|reflexivity].
    + eapply rel_ext; [intros s; apply assoc2|intros s; reflexivity|]. apply rel_bind; [eapply IH; eauto|].
      intros z. eapply rel_foot; [|apply foot_check|intros x []]. auto with wf.
  - intros f a IH n n' d e'. destruct (low_first a n) as [n1 d1] eqn:E1.
    destruct (low_second a n n1) as [[n2 d2] a'] eqn:E2. intros [= <- <- <-] Ho Hs Hn.
    eapply rel_ext; [intros s; apply run_app_bind|intros s; reflexivity|]. cbn [eval].
    eapply rel_ext; [intros s; apply assoc3|intros s; reflexivity|].
    apply rel_bind; [eapply IH; eauto|]. intros l. eapply rel_foot; [|apply foot_call|intros x []]. auto with wf.
  - intros m m' dm n n' d a' [= <- <-] L [= <- <- <-] _ _ _. apply rel_ret.
  - intros e IHe r IHr m m' dm n n' d a'. rewrite stays_spec.
    destruct (stays e); cbn [negb]; intros E1 L E2 Ho Hs Hn;
      apply and_split in Ho; destruct Ho as [Ho Hc]; apply and_split in Ho; destruct Ho as [Ho1 Ho2];
      assert (small e /\ (forall x, In x (vars_args r) -> x < N)) as [Se Sr]
        by (split; intros x Hx; apply Hs, in_app_iff; auto).
    + destruct (low e n) as [[n1 d1] e'] eqn:Ee. destruct (low_second r m n1) as [[n2 d2] r'] eqn:E2'.
      injection E2 as <- <- <-. rewrite !andb_true_iff in Hc. destruct Hc as [[[Hc1 Hc2] Hc3] Hc4].
      destruct (proj1 low_effects _ _ _ _ _ Ee) as (La & _).
      destruct (proj2 low_effects r) as [P1 _]. destruct (P1 _ _ _ E1) as (L1 & _).
      eapply low_args_stays; eauto. { eapply IHe; eauto. lia. } eapply (IHr m m' dm n1); eauto; lia.
    + destruct (low e m) as [[m1 d1] e'] eqn:Ee. destruct (low_first r (S m1)) as [m2 d2] eqn:E1'.
      injection E1 as <- <-. destruct (low_second r (S m1) n) as [[n2 d3] r'] eqn:E2'. injection E2 as <- <- <-.
      destruct (proj1 low_effects _ _ _ _ _ Ee) as (La & _).
      eapply low_args_temp; eauto. eapply (IHr (S m1) m2 d2 n); eauto. lia.
Qed.

(** * Statements *)
Variable fuel : nat.
Notation X := (exec h pick pa fuel).
Notation XB := (exec_block h pick pa fuel).
Notation Xlr := (exec h left_to_right left_to_right_args fuel).
Notation XBlr := (exec_block h left_to_right left_to_right_args fuel).
Notation res := (res h).

Definition eqr (V : nat -> Prop) (r q : res) : Prop :=
  match r, q with
  | Undef, Undef | More, More => True
  | Done g s, Done k t => g = k /\ agr V s t
  | _, _ => False
  end.

Lemma eqr_look {A} V (o p : option (A * state)) k l : eqv V o p ->
  (forall a s t, agr V s t -> eqr V (k a s) (l a t)) -> eqr V (look o k) (look p l).
Proof.
  destruct o as [[a s]|], p as [[b t]|]; cbn; try tauto. intros [-> H] G. apply G, H.
Qed.
Lemma eqr_refl V r : eqr V r r.
Proof. destruct r; cbn; auto using agr_refl. Qed.
Lemma eqr_trans V r q p : eqr V r q -> eqr V q p -> eqr V r p.
Proof. destruct r, q, p; cbn; try tauto. intros [-> H] [-> G]. eauto using agr_trans. Qed.
Lemma eqr_weak (V U : nat -> Prop) r q : (forall x, U x -> V x) -> eqr V r q -> eqr U r q.
Proof. intros I. destruct r, q; cbn; auto. intros [-> H]. eauto using agr_weak. Qed.

Lemma iter_eqr V f g : (forall s t, agr V s t -> eqr V (f s) (g t)) ->
  forall n s t, agr V s t -> eqr V (iter n f s) (iter n g t).
Proof.
  intros H. induction n as [|n IH]; intros s t E; cbn; [exact I|].
  specialize (H s t E). destruct (f s) as [| |a s'], (g t) as [| |b t']; cbn in H; try contradiction; auto.
  destruct H as [-> H]. destruct b; cbn; auto.
Qed.

Lemma look_bind {A B} (m : comp A) (k : A -> comp B) s (l : B -> state -> res) :
  look (bind m k s) l = look (m s) (fun a s => look (k a s) l).
Proof. unfold bind. destruct (m s) as [[a s1]|]; reflexivity. Qed.
Lemma look_ext {A} (o : option (A * state)) (k l : A -> state -> res) :
  (forall a s, k a s = l a s) -> look o k = look o l.
Proof. intros H. destruct o as [[a s]|]; cbn; auto. Qed.

Lemma proper_assign x z : proper (assign h x z).
Proof. apply (foot_proper _ _ (wf_set x) (foot_assign x z)). Qed.
Lemma proper_check k z : proper (check h k z).
Proof. apply (foot_proper _ _ wf_fail (foot_check k z)). Qed.
Lemma foot_store g i z : foot outside_change (store h g i z).
Proof.
  constructor; cbn; unfold store.
  - intros s t Hl Hw. rewrite Hw by reflexivity. destruct (put h g i z (wd t)); auto.
  - intros s a s'. destruct (put h g i z (wd s)); [|discriminate]. intros [= <- <-]. split; [auto|discriminate].
  - discriminate.
Qed.
Lemma proper_store g i z : proper (store h g i z).
Proof. apply (foot_proper _ _ wf_change (foot_store g i z)). Qed.
Lemma proper_both {A B} r (m : comp A) (k : comp B) : proper m -> proper k -> proper (both r m k).
Proof.
  intros P Q. destruct r; cbn; repeat (apply proper_bind; [assumption|intros]); apply proper_ret.
Qed.

Lemma exec_cons pk pka p b t : exec_block h pk pka fuel (BCons p b) t =
  match exec h pk pka fuel p t with Done Next t' => exec_block h pk pka fuel b t' | r => r end.
Proof. reflexivity. Qed.
Lemma exec_if pk pka c p q t : exec h pk pka fuel (If c p q) t =
  look (eval h pk pka c t) (fun z t => if (z =? 0)%Z then exec h pk pka fuel q t else exec h pk pka fuel p t).
Proof. reflexivity. Qed.
Lemma exec_while pk pka c p t : exec h pk pka fuel (While c p) t =
  iter fuel (fun t => look (eval h pk pka c t)
    (fun z t => if (z =? 0)%Z then Done Brk t else exec h pk pka fuel p t)) t.
Proof. reflexivity. Qed.
Lemma exec_blk pk pka b t : exec h pk pka fuel (Block b) t = exec_block h pk pka fuel b t.
Proof. reflexivity. Qed.

Lemma exec_same :
  (forall p s t, agr all s t -> eqr all (X p s) (X p t)) /\ (forall b s t, agr all s t -> eqr all (XB b s) (XB b t)).
Proof.
  apply stmt_block_ind.
  - intros. cbn. auto.
  - intros. cbn [exec]. eapply eqr_look; [apply proper_ev; assumption|]. cbn. auto.
  - intros. cbn [exec]. eapply eqr_look; [apply proper_bind; [apply proper_ev|intros; apply proper_assign|assumption]|]. cbn. auto.
  - intros. cbn [exec]. eapply eqr_look; [apply proper_bind; [apply proper_both; apply proper_ev| |assumption]|].
    + intros [x y]. apply proper_store.
    + cbn. auto.
  - intros. rewrite !exec_if. eapply eqr_look; [apply proper_ev; assumption|]. intros z s1 t1 E. destruct (z =? 0)%Z; auto.
  - intros. rewrite !exec_while. apply iter_eqr; [|assumption]. intros s1 t1 E. eapply eqr_look; [apply proper_ev; assumption|].
    intros z s2 t2 E2. destruct (z =? 0)%Z; cbn; auto.
  - intros. rewrite !exec_blk. auto.
  - intros. cbn. auto.
  - intros. cbn. auto.
  - intros. cbn [exec]. eapply eqr_look; [apply proper_ev; assumption|]. cbn. auto.
  - intros. cbn [exec]. eapply eqr_look; [apply proper_bind; [apply proper_ev|intros; apply proper_check|assumption]|]. cbn. auto.
  - intros. cbn. auto.
  - intros p IHp b IHb s t E. rewrite !exec_cons. specialize (IHp _ _ E).
    destruct (X p s) as [| |g1 s1], (X p t) as [| |g2 t1]; cbn in IHp; try contradiction; try exact I.
    destruct IHp as [-> G]. destruct g2; cbn; auto.
Qed.

Lemma exec_prefix d b t : forallb decl d = true -> XB (prefix d b) t = look (run d t) (fun _ t => XB b t).
Proof.
  revert t. induction d as [|s d IH]; intros t H; cbn [prefix]; [reflexivity|].
  cbn [forallb] in H. apply and_split in H. destruct H as [Hs Hd]. cbn [run]. rewrite exec_cons, look_bind.
  destruct s; try discriminate; cbn [exec run1].
  - rewrite !look_bind. destruct (ev e t) as [[z t1]|]; [|reflexivity]. cbn [look].
    destruct (assign h x z t1) as [[u t2]|]; [|reflexivity]. cbn [look]. apply IH, Hd.
  - rewrite !look_bind. destruct (ev e t) as [[z t1]|]; [|reflexivity]. cbn [look].
    destruct (check h k z t1) as [[u t2]|]; [|reflexivity]. cbn [look]. apply IH, Hd.
Qed.

Lemma low_stmt_decl :
  (forall s n n' d s', low_stmt s n = (n', d, s') -> n <= n' /\ forallb decl d = true) /\
  (forall b n n' b', low_block b n = (n', b') -> n <= n').
Proof.
  apply stmt_block_ind; cbn [low_stmt low_block].
  - intros n n' d s' [= <- <- <-]. auto.
  - intros e n n' d s'. destruct (low e n) as [[n1 d1] e'] eqn:E. intros [= <- <- <-].
    destruct (proj1 low_effects _ _ _ _ _ E) as (? & ? & _). auto.
  - intros x e n n' d s'. destruct (low e n) as [[n1 d1] e'] eqn:E. intros [= <- <- <-].
    destruct (proj1 low_effects _ _ _ _ _ E) as (? & ? & _). auto.
  - intros g i e n n' d s'. destruct (low i n) as [[n1 d1] i'] eqn:E.
    destruct (proj1 low_effects _ _ _ _ _ E) as (? & D1 & _).
    destruct (needs_temp i).
    + destruct (low e (S n1)) as [[n3 d3] e'] eqn:E2. destruct (proj1 low_effects _ _ _ _ _ E2) as (? & D2 & _).
      intros [= <- <- <-]. split; [lia|]. rewrite !forallb_app, D1. cbn. assumption.
    + destruct (low e n1) as [[n3 d3] e'] eqn:E2. destruct (proj1 low_effects _ _ _ _ _ E2) as (? & D2 & _).
      intros [= <- <- <-]. split; [lia|]. rewrite !forallb_app, D1. cbn. assumption.
  - intros c p IHp q IHq n n' d s'. destruct (low c n) as [[n1 d1] c'] eqn:E.
    destruct (proj1 low_effects _ _ _ _ _ E) as (? & D1 & _).
    destruct (low_stmt p n1) as [[n2 d2] p'] eqn:Ep. destruct (low_stmt q n2) as [[n3 d3] q'] eqn:Eq.
    destruct (IHp _ _ _ _ Ep) as [? D2]. destruct (IHq _ _ _ _ Eq) as [? D3].
    intros [= <- <- <-]. split; [lia|]. rewrite !forallb_app, D1, D2, D3. reflexivity.
  - intros c p IHp n n' d s'. destruct (low c n) as [[n1 d1] c'] eqn:E.
    destruct (proj1 low_effects _ _ _ _ _ E) as (? & D1 & _).
    destruct (low_stmt p n1) as [[n2 d2] p'] eqn:Ep. destruct (IHp _ _ _ _ Ep) as [? D2].
    intros [= <- <- <-]. split; [lia|]. rewrite !forallb_app, D1, D2. reflexivity.
  - intros b IH n n' d s'. destruct (low_block b n) as [n1 b'] eqn:E. intros [= <- <- <-]. split; [eapply IH, E|reflexivity].
  - intros n n' d s' [= <- <- <-]. auto.
  - intros n n' d s' [= <- <- <-]. auto.
  - intros e n n' d s'. destruct (low e n) as [[n1 d1] e'] eqn:E. intros [= <- <- <-].
    destruct (proj1 low_effects _ _ _ _ _ E) as (? & ? & _). auto.
  - intros k e n n' d s'. destruct (low e n) as [[n1 d1] e'] eqn:E. intros [= <- <- <-].
    destruct (proj1 low_effects _ _ _ _ _ E) as (? & ? & _). auto.
  - intros n n' b' [= <- <-]. auto.
  - intros s IHs b IHb n n' b'. destruct (low_stmt s n) as [[n1 d] s'] eqn:E. destruct (low_block b n1) as [n2 b2] eqn:Eb.
    intros [= <- <-]. destruct (IHs _ _ _ _ E). specialize (IHb _ _ _ Eb). lia.
Qed.

(** A statement made a block *)
Lemma blk_low s n n1 d s1 : low_stmt s n = (n1, d, s1) ->
  exists s2, low_stmt (blk s) n = (n1, [], s2) /\ forall t, X s2 t = look (run d t) (fun _ t => X s1 t).
Proof.
  intros E. destruct (proj1 low_stmt_decl _ _ _ _ _ E) as [_ D].
  assert ((exists b, s = Block b) \/ blk s = Block (BCons s BNil)) as [[b ->]|B].
  { destruct s; cbn; eauto. }
  - exists s1. cbn [low_stmt blk] in *. destruct (low_block b n) as [n' b'].
    injection E as <- <- <-. split; reflexivity.
  - rewrite B. cbn [low_stmt low_block]. rewrite E. eexists. split; [reflexivity|]. intros t. rewrite exec_blk, exec_prefix by exact D. apply look_ext. intros _ s'. rewrite exec_cons.
    destruct (X s1 s') as [| |[] ?]; reflexivity.
Qed.

Definition else_part (q : stmt) : stmt := match q with If _ _ _ | Skip => shake q | _ => blk (shake q) end.

Lemma shake_if c p q : shake (If c p q) = If c (blk (shake p)) (else_part q).
Proof. reflexivity. Qed.

Lemma blk_nil s n n1 d s1 : low_stmt (blk s) n = (n1, d, s1) -> d = [].
Proof.
  intros E. destruct (low_stmt s n) as [[n2 d2] s2] eqn:Es. destruct (blk_low _ _ _ _ _ Es) as (s3 & E3 & _). congruence.
Qed.

Lemma else_effects q : forall n n' d s', low_stmt (else_part q) n = (n', d, s') ->
  within n n' true (whole_run d) (else_early q).
Proof.
  induction q; intros n n' d s' E; try (apply blk_nil in E; subst d; apply within_nothing).
  - cbn in E. injection E as <- <- <-. apply within_nothing.
  - unfold else_part in E. rewrite shake_if in E. cbn [low_stmt] in E.
    destruct (low c n) as [[n1 d1] c'] eqn:Ec. destruct (low_stmt (blk (shake q1)) n1) as [[n2 d2] p'] eqn:Ep.
    destruct (low_stmt (else_part q2) n2) as [[n3 d3] q'] eqn:Eq. injection E as <- <- <-.
    apply blk_nil in Ep as Hd. subst d2. cbn [app]. specialize (IHq2 _ _ _ _ Eq).
    destruct (proj1 low_effects _ _ _ _ _ Ec) as (L1 & _ & C1 & _).
    destruct (proj1 low_stmt_decl _ _ _ _ _ Ep) as [L2 _]. destruct (proj1 low_stmt_decl _ _ _ _ _ Eq) as [L3 _].
    cbn [else_early]. apply within_app; eapply within_more; eauto using le_plus_l, le_plus_r; lia.
Qed.

Lemma else_small q : (forall x, In x (vars_stmt q) -> x < N) ->
  (forall x, In x (uses (else_early q)) -> x < N) /\ wf (else_early q).
Proof.
  induction q; cbn; intros H; try (split; [intros ? []|apply wf_nothing]).
  destruct IHq2 as [I1 I2]. { intros x Hx. apply H. rewrite !in_app_iff. auto. }
  split; [|apply wf_plus; [apply wf_early|exact I2]]. intros x Hx. apply in_app_iff in Hx. destruct Hx as [i|i]; [|auto].
  apply (early_small c); [|exact i]. intros y Hy. apply H. rewrite !in_app_iff. auto.
Qed.

Lemma constant_low c n : constant c = true -> fails (early c) = false -> low c n = (n, [], c).
Proof.
  induction c; cbn; try discriminate; intros H1 H2; auto.
  - rewrite IHc by assumption. reflexivity.
  - rewrite orb_true_r, orb_true_r in H2. discriminate.
Qed.

Definition relr (f g : state -> res) : Prop := forall s t, agr (upto N) s t -> eqr (upto N) (f s) (g t).

Lemma if_correct c n n1 d1 c' n2 n3 d3 p' q' g (f1 f2 : state -> res) :
  low c n = (n1, d1, c') -> n1 <= n2 -> within n2 n3 true (whole_run d3) g -> wf g -> (forall x, In x (uses g) -> x < N) ->
  N <= n -> small c -> harmless g = true -> apart (late c) g = true ->
  rel N (bind (run d1) (fun _ => ev c')) (lr c) ->
  relr (X p') f1 -> relr (fun t => look (run d3 t) (fun _ t => X q' t)) f2 ->
  relr (fun t => look (run (d1 ++ d3) t) (fun _ t => X (If c' p' q') t))
       (fun t => look (lr c t) (fun z t => if (z =? 0)%Z then f2 t else f1 t)).
Proof.
  intros Ec L W Wg Ug Ln Sc Hh Ha Rc R1 R2 s t E.
  destruct (proj1 low_effects _ _ _ _ _ Ec) as (L1 & _ & C1 & C2).
  assert (separate (whole c') (whole_run d3)) as S.
  { apply (separate_within N n n1 false _ (late c) n2 n3 true _ g); auto; try lia; try (apply late_small; assumption).
    - apply wf_late.
    - apply apart_separate, Ha. }
  assert (ceq (bind (run (d1 ++ d3)) (fun _ => ev c'))
    (bind (bind (run d1) (fun _ => ev c')) (fun z => bind (run d3) (fun _ => ret z)))) as Q.
  { eapply ceq_trans; [apply ceq_eq; intros s0; apply run_app_bind|].
    eapply ceq_trans; [|apply ceq_eq; intros s0; apply assoc2]. apply ceq_bind_r. intros u.
    eapply ceq_trans; [|apply (commute (whole_run d3) (whole c') (run d3) (ev c') (fun _ z => ret z))];
      auto using wf_run, foot_run, separate_sym, proper_ret; try apply wf_whole; try apply (eval_foot pick pa).
    apply ceq_bind_r. intros u1. apply ceq_eq. intros s0. unfold bind, ret. destruct (ev c' s0) as [[z s1]|]; reflexivity. }
  rewrite (look_ext _ _ _ (fun u t => exec_if pick pa c' p' q' t)), <- (look_bind (run (d1 ++ d3)) (fun _ => ev c') s).
  eapply eqr_trans.
  - eapply eqr_weak; [|eapply eqr_look; [apply (Q s)|]].
    + intros x _. exact I.
    + intros z s1 s2 G. instantiate (1 := fun z t => if (z =? 0)%Z then X q' t else X p' t). cbn beta.
      destruct (z =? 0)%Z; apply exec_same, G.
  - rewrite look_bind. eapply eqr_look; [apply Rc, E|]. intros z s1 t1 G. rewrite look_bind. cbn [look ret].
    destruct (z =? 0)%Z; [apply R2, G|].
    destruct (harmless_run _ _ _ _ Hh W s1) as (s2 & R & G2). rewrite R. cbn [look]. apply R1.
    eapply agr_trans; [|exact G]. eapply agr_weak; [|exact G2]. unfold upto. cbn. intros. lia.
Qed.

Lemma rel_look {A} (m k : comp A) f g : rel N m k -> (forall a, relr (f a) (g a)) ->
  relr (fun s => look (m s) f) (fun s => look (k s) g).
Proof. intros H G s t E. eapply eqr_look; [apply H, E|]. intros a s1 t1 E1. apply G, E1. Qed.

Lemma relr_done g : relr (fun t => Done g t) (fun t => Done g t).
Proof. intros s t E. cbn. auto. Qed.
Lemma relr_ext f f' g g' : (forall s, f s = f' s) -> (forall s, g s = g' s) -> relr f' g' -> relr f g.
Proof. intros H1 H2 H s t E. rewrite H1, H2. apply H, E. Qed.

Lemma stmt_correct :
  (forall s n n' d s', low_stmt (shake s) n = (n', d, s') -> ordered_stmt strict s = true ->
     (forall x, In x (vars_stmt s) -> x < N) -> N <= n -> relr (fun t => look (run d t) (fun _ t => X s' t)) (Xlr s)) /\
  (forall b n n' b', low_block (shake_block b) n = (n', b') -> ordered_block strict b = true ->
     (forall x, In x (vars_block b) -> x < N) -> N <= n -> relr (XB b') (XBlr b)).
Proof.
  destruct low_correct as [LC _].
  apply stmt_block_ind; cbn [ordered_stmt ordered_block vars_stmt vars_block].
  - intros n n' d s' [= <- <- <-] _ _ _. apply relr_done.
  - intros e n n' d s'. cbn [shake low_stmt]. destruct (low e n) as [[n1 d1] e'] eqn:E. intros [= <- <- <-] Ho Hs Hn.
    cbn [exec]. eapply relr_ext; [intros s; symmetry; apply look_bind|intros s; reflexivity|].
    apply rel_look; [eapply LC; eauto|]. intros. apply relr_done.
  - intros x e n n' d s'. cbn [shake low_stmt]. destruct (low e n) as [[n1 d1] e'] eqn:E. intros [= <- <- <-] Ho Hs Hn.
    cbn [exec]. eapply relr_ext; [intros s; symmetry; apply look_bind|intros s; reflexivity|].
    apply rel_look; [|intros; apply relr_done].
    eapply rel_ext; [intros s; apply assoc2|intros s; reflexivity|].
    apply rel_bind; [eapply LC; eauto; intros y Hy; apply Hs; right; exact Hy|].
    intros z. eapply rel_foot; [|apply foot_assign|]; auto with wf. cbn. intros y [<-|[]]. apply Hs. left. reflexivity.
  - intros g i e n n' d s'. cbn [shake low_stmt]. destruct (low i n) as [[n1 d1] i'] eqn:Ei. rewrite stays_spec.
    intros Hq Ho Hs Hn. rewrite !andb_true_iff in Ho. destruct Ho as [[Ho1 Ho2] Hc].
    assert (small i /\ small e) as [Si Se] by (split; intros x Hx; apply Hs, in_app_iff; auto).
    destruct (proj1 low_effects _ _ _ _ _ Ei) as (Li & _ & I1 & I2).
    pose proof (LC _ _ _ _ _ Ei Ho1 Si Hn) as Ri.
    assert (forall x y, rel N (store h g x y) (store h g x y)) as Rs.
    { intros x y. eapply rel_foot; [|apply foot_store|intros v []]. auto with wf. }
    assert (exists di i2 n2 d3 e', Assign n1 i' = Assign n1 i' /\ rel N (bind (run di) (fun _ => ev i2)) (lr i) /\
      low e n2 = (n', d3, e') /\ n1 <= n2 /\ d = di ++ d3 /\ s' = Store g i2 e' /\
      separate (whole i2) (whole_run d3) /\ (strict = true -> separate (whole i2) (whole e'))) as G.
    { destruct (stays i); cbn [negb] in Hq.
      - destruct (low e n1) as [[n3 d3] e'] eqn:Ee. injection Hq as <- <- <-.
        destruct (proj1 low_effects _ _ _ _ _ Ee) as (Le & _ & E1 & E2).
        apply andb_true_iff in Hc. destruct Hc as [Hc1 Hc2].
        exists d1, i', n1, d3, e'. repeat (split; [solve [auto]|]). split.
        + apply (separate_within N n n1 false _ (late i) n1 n3 true _ (early e)); auto; try lia;
            try (apply late_small; assumption); try (apply early_small; assumption).
          * apply wf_late.
          * apply wf_early.
          * apply apart_separate, Hc1.
        + intros Hst. apply (separate_within N n n1 false _ (late i) n1 n3 false _ (late e)); auto; try lia;
            try (apply late_small; assumption).
          * apply wf_late.
          * apply wf_late.
          * apply free_spec; assumption.
      - destruct (low e (S n1)) as [[n3 d3] e'] eqn:Ee. injection Hq as <- <- <-.
        destruct (proj1 low_effects _ _ _ _ _ Ee) as (Le & _ & (E1 & E2 & _) & (E3 & E4 & _)).
        exists (d1 ++ [Assign n1 i']), (Var n1), (S n1), d3, e'.
        split; [reflexivity|]. split.
        { eapply rel_ext; [|intros s; reflexivity|apply (let_read N d1 n1 i' (lr i)); [lia|exact Ri]].
          intros s. rewrite run_app_bind. unfold bind. destruct (run d1 s) as [[u s1]|]; [|reflexivity].
          cbn [run run1]. unfold bind. destruct (ev i' s1) as [[z s2]|]; reflexivity. }
        split; [exact Ee|]. split; [lia|]. split; [rewrite <- app_assoc; reflexivity|]. split; [reflexivity|].
        assert (forall x, In x (sets (whole e')) -> x <> n1) as Z1.
        { intros x Hx ->. destruct (E4 _ Hx) as [j|[? _]]; [|discriminate].
          pose proof (late_small _ Se n1 (proj1 (proj1 wf_late e) _ j)). lia. }
        assert (forall x, In x (sets (whole_run d3)) -> x <> n1) as Z2.
        { intros x Hx ->. destruct (E2 _ Hx) as [j|[_ ?]]; [|lia].
          pose proof (early_small _ Se n1 (proj1 (proj1 wf_early e) _ j)). lia. }
        split; [|intros _]; (repeat split; try discriminate; [intros x []|intros x Hx [<-|[]]]).
        + exact (Z2 _ Hx eq_refl).
        + exact (Z1 _ Hx eq_refl). }
    destruct G as (di & i2 & n2 & d3 & e' & _ & R2 & Ee & L2 & -> & -> & S1 & S2).
    cbn [exec]. eapply relr_ext; [intros s; symmetry; apply look_bind|intros s; reflexivity|].
    apply rel_look; [|intros; apply relr_done].
    eapply rel_ceq_l.
    + apply ceq_bind_r. intros u.
      apply (both_left (whole i2) (whole e') (pick e') (ev i2) (ev e') (fun x y => store h g x y));
        auto using pick_spec, proper_store; try apply wf_whole; try apply (eval_foot pick pa).
    + eapply rel_ext; [intros s; reflexivity|intros s; apply (both_false (lr i) (lr e) (fun x y => store h g x y))|].
      apply two_ops; auto using proper_store. eapply LC; eauto. lia.
  - intros c p IHp q IHq n n' d s'. rewrite shake_if. cbn [low_stmt]. destruct (low c n) as [[n1 d1] c'] eqn:Ec.
    destruct (low_stmt (shake p) n1) as [[n2 dp] p1] eqn:Ep. destruct (blk_low _ _ _ _ _ Ep) as (p' & Ep' & Xp).
    rewrite Ep'. destruct (low_stmt (else_part q) n2) as [[n3 d3] q'] eqn:Eq. intros [= <- <- <-] Ho Hs Hn. cbn [app].
    rewrite !andb_true_iff in Ho. destruct Ho as [[[[Hc Hp] Hq] Hh] Ha].
    assert (small c /\ (forall x, In x (vars_stmt p) -> x < N) /\ (forall x, In x (vars_stmt q) -> x < N)) as (Sc & Sp & Sq)
      by (repeat split; intros x Hx; apply Hs; rewrite !in_app_iff; auto).
    destruct (proj1 low_effects _ _ _ _ _ Ec) as (L1 & _).
    destruct (proj1 low_stmt_decl _ _ _ _ _ Ep) as [L2 _].
    destruct (else_small _ Sq) as [U1 U2].
    change (Xlr (If c p q)) with (fun t => look (lr c t) (fun z t => if (z =? 0)%Z then Xlr q t else Xlr p t)).
    apply (if_correct c n n1 d1 c' n2 n3 d3 p' q' (else_early q)); auto.
    + exact (else_effects _ _ _ _ _ Eq).
    + eapply LC; eauto.
    + eapply relr_ext; [apply Xp|intros s; reflexivity|]. eapply IHp; eauto. lia.
    + assert (else_part q = shake q \/ else_part q = blk (shake q)) as [Hep|Hep] by (destruct q; auto); rewrite Hep in Eq.
      * eapply IHq; eauto. lia.
      * destruct (low_stmt (shake q) n2) as [[n4 d4] q1] eqn:Eq1. destruct (blk_low _ _ _ _ _ Eq1) as (q2 & Eq2 & Xq).
        rewrite Eq2 in Eq. injection Eq as <- <- <-. cbn [run look ret].
        eapply relr_ext; [apply Xq|intros s; reflexivity|]. eapply IHq; eauto. lia.
  - intros c p IHp n n' d s' Hq Ho Hs Hn. rewrite !andb_true_iff in Ho. destruct Ho as [[Hc Hl] Hp].
    assert (small c /\ (forall x, In x (vars_stmt p) -> x < N)) as (Sc & Sp)
      by (repeat split; intros x Hx; apply Hs; rewrite !in_app_iff; auto).
    cbn [shake] in Hq. change (literal c) with (constant c) in Hq. destruct (constant c) eqn:Hk.
    + cbn [negb orb] in Hl. apply negb_true_iff in Hl. cbn [low_stmt] in Hq.
      pose proof (constant_low c n Hk Hl) as Ec. rewrite Ec in Hq.
      destruct (low_stmt (shake p) n) as [[n2 dp] p1] eqn:Ep. destruct (blk_low _ _ _ _ _ Ep) as (p' & Ep' & Xp).
      rewrite Ep' in Hq. injection Hq as <- <- <-. cbn [app run look ret exec].
      intros s t E. apply iter_eqr; [|exact E]. intros s1 t1 E1. eapply eqr_look; [apply (LC _ _ _ _ _ Ec Hc Sc Hn), E1|].
      intros z s2 t2 E2. destruct (z =? 0)%Z; [cbn; auto|]. rewrite Xp. eapply IHp; eauto.
    + cbn [low_stmt low low_block] in Hq. destruct (low c n) as [[n1 d1] c'] eqn:Ec.
      destruct (low_stmt (shake p) n1) as [[n2 dp] p1] eqn:Ep. destruct (blk_low _ _ _ _ _ Ep) as (p' & Ep' & Xp).
      rewrite Ep' in Hq. cbn [app prefix] in Hq. injection Hq as <- <- <-.
      destruct (proj1 low_effects _ _ _ _ _ Ec) as (L1 & D1 & _).
      cbn [app run look ret]. intros s t E. rewrite !exec_while. apply iter_eqr; [|exact E]. intros s1 t1 E1.
      change (eqr (upto N) (X (Block (prefix (d1 ++ []) (BCons (If c' p' (Block (BCons Break BNil))) BNil))) s1)
        (look (lr c t1) (fun z t => if (z =? 0)%Z then Done Brk t else Xlr p t))).
      rewrite exec_blk, app_nil_r, exec_prefix by exact D1.
      assert (relr (fun s => look (bind (run d1) (fun _ => ev c') s)
          (fun z t => if (z =? 0)%Z then Done Brk t else X p' t))
        (fun t => look (lr c t) (fun z t => if (z =? 0)%Z then Done Brk t else Xlr p t))) as G.
      { apply rel_look; [eapply LC; eauto|]. intros z. destruct (z =? 0)%Z; [apply relr_done|].
        eapply relr_ext; [apply Xp|intros s0; reflexivity|]. eapply IHp; eauto. lia. }
      specialize (G s1 t1 E1). cbn beta in G. rewrite look_bind in G.
      erewrite look_ext; [exact G|]. intros u s2. rewrite exec_cons, exec_if. destruct (ev c' s2) as [[z s3]|]; [|reflexivity].
      cbn [look]. destruct (z =? 0)%Z; [reflexivity|]. destruct (X p' s3) as [| |[] ?]; reflexivity.
  - intros b IH n n' d s'. cbn [shake low_stmt]. destruct (low_block (shake_block b) n) as [n1 b'] eqn:E.
    intros [= <- <- <-] Ho Hs Hn. cbn [run look ret]. eapply relr_ext; [apply exec_blk|apply exec_blk|]. eapply IH; eauto.
  - intros n n' d s' [= <- <- <-] _ _ _. apply relr_done.
  - intros n n' d s' [= <- <- <-] _ _ _. apply relr_done.
  - intros e n n' d s'. cbn [shake low_stmt]. destruct (low e n) as [[n1 d1] e'] eqn:E. intros [= <- <- <-] Ho Hs Hn.
    cbn [exec]. eapply relr_ext; [intros s; symmetry; apply look_bind|intros s; reflexivity|].
    apply rel_look; [eapply LC; eauto|]. intros. apply relr_done.
  - intros k e n n' d s'. cbn [shake low_stmt]. destruct (low e n) as [[n1 d1] e'] eqn:E. intros [= <- <- <-] Ho Hs Hn.
    cbn [exec]. eapply relr_ext; [intros s; symmetry; apply look_bind|intros s; reflexivity|].
    apply rel_look; [|intros; apply relr_done].
    eapply rel_ext; [intros s; apply assoc2|intros s; reflexivity|].
    apply rel_bind; [eapply LC; eauto|].
    intros z. eapply rel_foot; [|apply foot_check|intros y []]; auto with wf.
  - intros n n' b' [= <- <-] _ _ _. apply relr_done.
  - intros s IHs b IHb n n' b'. cbn [shake_block low_block]. destruct (low_stmt (shake s) n) as [[n1 d] s'] eqn:E.
    destruct (low_block (shake_block b) n1) as [n2 b2] eqn:Eb. intros [= <- <-] Ho Hs Hn.
    apply and_split in Ho. destruct Ho as [Ho1 Ho2].
    assert ((forall x, In x (vars_stmt s) -> x < N) /\ (forall x, In x (vars_block b) -> x < N)) as [Ss Sb]
      by (split; intros x Hx; apply Hs, in_app_iff; auto).
    destruct (proj1 low_stmt_decl _ _ _ _ _ E) as [L D].
    intros u v G. rewrite exec_prefix by exact D. rewrite exec_cons.
    pose proof (IHs _ _ _ _ E Ho1 Ss Hn u v G) as K. cbn beta in K.
    destruct (run d u) as [[w u1]|]; cbn [look] in *.
    + rewrite exec_cons. destruct (X s' u1) as [| |g1 u2], (Xlr s v) as [| |g2 v2]; cbn in K; try contradiction; try exact I.
      destruct K as [-> K]. destruct g2; try (split; [reflexivity|exact K]). eapply IHb; eauto. lia.
    + destruct (Xlr s v); cbn in K; try contradiction. exact I.
Qed.
End Low.
End Comp.
