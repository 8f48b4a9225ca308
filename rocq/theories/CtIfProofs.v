(** Proofs about compile-time [#if] in the preprocessor. *)
From Coq Require Import Bool List Arith ZArith String Lia.
Import ListNotations.
From Verif Require Import CtIfModel CtIfSpec.

Lemma item_nested (P : item -> Prop) : (forall n, P (Mem n)) -> P Noop ->
  (forall c t k e, Forall P t -> Forall P e -> P (If c t k e)) -> forall i, P i.
Proof.
  intros M N I. fix F 1. intros [n| |c t k e]; [apply M|exact N|].
  apply I; [induction t as [|x t IHt]|induction e as [|x e IHe]]; constructor; auto.
Qed.
Lemma all_forall (P : item -> Prop) l : (fix all l := match l with [] => True | x :: r => P x /\ all r end) l <-> Forall P l.
Proof. induction l as [|x l IH]; [split; auto|]. rewrite Forall_cons_iff, IH. tauto. Qed.

(** * The specification as functions *)
Definition truth (v : nat -> bool) (c : cond) : bool :=
  match as_boolean c with Some b => b | None => match c with CFree k => v k | _ => false end end.
Fixpoint sel (v : nat -> bool) (i : item) : list nat :=
  match i with
  | Mem n => [n]
  | Noop => []
  | If c t k e => if truth v c then flat_map (sel v) t else match k with KNone => [] | _ => flat_map (sel v) e end
  end.
Fixpoint wd (i : item) : nat :=
  match i with
  | If c t k e =>
      match as_boolean c with
      | None => 1
      | Some true => list_sum (map wd t)
      | Some false => match k with KNone => 1 | _ => list_sum (map wd e) end
      end
  | _ => 1
  end.
Lemma holds_truth v c : holds v c <-> truth v c = true.
Proof.
  unfold truth. destruct c; simpl; try (split; congruence); try (split; [intros []|discriminate]).
  - destruct (Nat.eqb_spec n 0); simpl; split; congruence.
  - destruct (Z.eqb_spec z 0); simpl; split; congruence.
  - destruct zero; simpl; split; congruence.
  - destruct (String.eqb_spec s ""); simpl; split; congruence.
Qed.
Lemma open_none c : open c <-> as_boolean c = None.
Proof. split; [intros [k ->]; reflexivity|]. destruct c; simpl; try discriminate. intros _. eexists. reflexivity. Qed.
Lemma holds_some c b : as_boolean c = Some b -> holds (fun _ => false) c <-> b = true.
Proof. intros A. rewrite holds_truth. unfold truth. rewrite A. tauto. Qed.
Lemma selects_app v l r ms ns : selects v l ms -> selects v r ns -> selects v (l ++ r) (ms ++ ns).
Proof. induction 1; intros R; simpl; try rewrite <- app_assoc; try (constructor; auto; fail). exact R. Qed.
Lemma sel_selects v l : selects v l (flat_map (sel v) l).
Proof.
  assert (S : forall i, selects v [i] (sel v i)).
  { apply item_nested.
    - intros n. simpl. constructor. constructor.
    - simpl. constructor. constructor.
    - intros c t k e Ht He.
      assert (L : forall l, Forall (fun i => selects v [i] (sel v i)) l -> selects v l (flat_map (sel v) l)).
      { induction 1 as [|x r X _ IH]; [constructor|]. simpl. apply (selects_app v [x] r _ _ X IH). }
      pose proof (holds_truth v c) as H. cbn [sel]. destruct (truth v c).
      + rewrite <- (app_nil_r (flat_map (sel v) t)). apply s_then; [tauto|auto|constructor].
      + assert (~ holds v c) by (rewrite H; discriminate). destruct k.
        * apply s_none; [assumption|constructor].
        * rewrite <- (app_nil_r (flat_map (sel v) e)). apply s_else; [assumption|discriminate|auto|constructor].
        * rewrite <- (app_nil_r (flat_map (sel v) e)). apply s_else; [assumption|discriminate|auto|constructor]. }
  induction l as [|x r IH]; [constructor|]. simpl. apply (selects_app v [x] r _ _ (S x) IH).
Qed.
Lemma selects_sel v l ns : selects v l ns <-> ns = flat_map (sel v) l.
Proof.
  split; [|intros ->; apply sel_selects]. induction 1; simpl; subst; auto.
  - apply holds_truth in H. rewrite H. reflexivity.
  - rewrite holds_truth in H. destruct (truth v c); [destruct H; reflexivity|]. destruct k; [destruct H0; reflexivity| |]; reflexivity.
  - rewrite holds_truth in H. destruct (truth v c); [destruct H; reflexivity|]. reflexivity.
Qed.
Scheme width_m := Induction for width Sort Prop with widths_m := Induction for widths Sort Prop.
Lemma width_wd i n : width i n -> n = wd i.
Proof.
  intros W. induction W using width_m with (P0 := fun l n _ => n = list_sum (map wd l)); simpl; auto.
  - apply open_none in o. rewrite o. reflexivity.
  - rewrite open_none in n0. destruct (as_boolean c) as [b|] eqn:A; [|destruct n0; reflexivity].
    apply (holds_some c b A) in h. subst b. assumption.
  - rewrite open_none in n0. destruct (as_boolean c) as [b|] eqn:A; [|destruct n0; reflexivity].
    rewrite (holds_some c b A) in n1. destruct b; [destruct n1; reflexivity|]. destruct k; [destruct n2; reflexivity|assumption|assumption].
  - rewrite open_none in n. destruct (as_boolean c) as [b|] eqn:A; [|destruct n; reflexivity].
    rewrite (holds_some c b A) in n0. destruct b; [destruct n0; reflexivity|reflexivity].
Qed.

(** * Visited lists *)
Definition noisy (i : item) : bool := match i with Noop => false | _ => true end.
Inductive nf : item -> Prop :=
| nf_mem n : nf (Mem n)
| nf_noop : nf Noop
| nf_if c t k e : as_boolean c = None -> Forall nf t -> forallb noisy t = true -> Forall nf e ->
    (k = KBlock -> forallb noisy e = true) -> (k = KChain -> e <> []) -> nf (If c t k e).
Lemma filter_all l : forallb noisy l = true -> filter noisy l = l.
Proof. induction l as [|x l IH]; [reflexivity|]. simpl. intros H. apply andb_prop in H as [H1 H2]. rewrite H1, IH by exact H2. reflexivity. Qed.
Lemma filter_noisy l : forallb noisy (filter noisy l) = true.
Proof. induction l as [|x l IH]; [reflexivity|]. simpl. destruct (noisy x) eqn:N; simpl; [rewrite N|]; exact IH. Qed.
Lemma filter_forall (P : item -> Prop) l : Forall P l -> Forall P (filter noisy l).
Proof. induction 1; simpl; [constructor|]. destruct (noisy x); [constructor|]; assumption. Qed.
Lemma filter_sel v l : flat_map (sel v) (filter noisy l) = flat_map (sel v) l.
Proof. induction l as [|x l IH]; [reflexivity|]. destruct x; simpl; rewrite IH; reflexivity. Qed.

Section F.
Variable f : item -> res (list item).
Hypothesis Hf : forall i l, nf i -> f i = Ok l -> l = [i].
Lemma visits_nf l : forall l', Forall nf l -> visits f l = Ok l' -> l' = l.
Proof.
  induction l as [|x r IH]; intros l' N V; simpl in V; [congruence|]. inversion N; subst.
  destruct (f x) as [| |xs] eqn:A; try discriminate. cbn [bind] in V.
  destruct (visits f r) as [| |ys] eqn:B; try discriminate. cbn [bind] in V. inversion V.
  rewrite (Hf _ _ H1 A), (IH _ H2 eq_refl). reflexivity.
Qed.
Lemma block_nf k : forall l l', Forall nf l -> block k f l = Ok l' -> l' = filter noisy l.
Proof.
  induction k as [|k IH]; intros l l' N V; [discriminate|]. destruct l as [|x r]; cbn [block] in V; [inversion V; reflexivity|].
  inversion N; subst. destruct (f x) as [| |xs] eqn:A; try discriminate. cbn [bind] in V.
  destruct (visits f r) as [| |ys] eqn:B; try discriminate. cbn [bind] in V.
  destruct (block k f ys) as [| |b] eqn:C; try discriminate. cbn [bind] in V. inversion V.
  apply Hf in A; [|exact H1]. apply visits_nf in B; [|exact H2]. subst. apply IH in C; [|exact H2]. subst.
  simpl. destruct x; reflexivity.
Qed.
End F.
Lemma nf_fix fuel : forall i l, nf i -> visit fuel i = Ok l -> l = [i].
Proof.
  induction fuel as [|fuel IH]; intros i l N V; [discriminate|]. destruct N as [n| |c t k e A Nt Ft Ne Fe Ce]; cbn [visit] in V; try congruence.
  rewrite A in V. destruct (block fuel (visit fuel) t) as [| |t'] eqn:B; try discriminate. cbn [bind] in V.
  apply (block_nf _ IH) in B; [|exact Nt]. rewrite filter_all in B by exact Ft. subst t'. destruct k.
  - congruence.
  - destruct (block fuel (visit fuel) e) as [| |e'] eqn:C; try discriminate. cbn [bind] in V.
    apply (block_nf _ IH) in C; [|exact Ne]. rewrite filter_all in C by auto. congruence.
  - destruct e as [|x r]; [discriminate|]. inversion Ne; subst. destruct (visit fuel x) as [| |xs] eqn:C; try discriminate.
    cbn [bind] in V. apply IH in C; [|assumption]. subst. inversion V. reflexivity.
Qed.

(** * What a run does *)
Section Step.
Variable f : item -> res (list item).
Hypothesis Hf : forall i l, nf i -> f i = Ok l -> l = [i].
Hypothesis Hs : forall i l, wf i -> f i = Ok l -> Forall nf l /\ List.length l = wd i /\ filled i /\
  (safe i -> forall v, flat_map (sel v) l = sel v i) /\ l <> [].
Lemma visits_run l : forall l', Forall wf l -> visits f l = Ok l' -> Forall nf l' /\ List.length l' = list_sum (map wd l) /\ Forall filled l /\
  (Forall safe l -> forall v, flat_map (sel v) l' = flat_map (sel v) l) /\ (l <> [] -> l' <> []).
Proof.
  induction l as [|x r IH]; intros l' W V; simpl in V.
  - inversion V. repeat split; auto; constructor.
  - inversion W; subst. destruct (f x) as [| |xs] eqn:A; try discriminate. cbn [bind] in V.
    destruct (visits f r) as [| |ys] eqn:B; try discriminate. cbn [bind] in V. inversion V.
    destruct (Hs _ _ H1 A) as (N1 & L1 & F1 & S1 & M1). destruct (IH _ H2 eq_refl) as (N2 & L2 & F2 & S2 & M2). repeat split.
    + apply Forall_app. auto.
    + rewrite app_length, L1, L2. reflexivity.
    + constructor; assumption.
    + intros S v. inversion S; subst. rewrite flat_map_app, S1, S2 by assumption. reflexivity.
    + intros _ E. apply app_eq_nil in E as [E _]. exact (M1 E).
Qed.
Lemma block_run k l l' : Forall wf l -> block k f l = Ok l' -> Forall nf l' /\ forallb noisy l' = true /\ Forall filled l /\
  (Forall safe l -> safe_start l -> forall v, flat_map (sel v) l' = flat_map (sel v) l).
Proof.
  intros W V. destruct k as [|k]; [discriminate|]. destruct l as [|x r]; cbn [block] in V.
  - inversion V. repeat split; constructor.
  - inversion W; subst. destruct (f x) as [| |xs] eqn:A; try discriminate. cbn [bind] in V.
    destruct (visits f r) as [| |ys] eqn:B; try discriminate. cbn [bind] in V.
    destruct (block k f ys) as [| |b] eqn:C; try discriminate. cbn [bind] in V. inversion V.
    destruct (Hs _ _ H1 A) as (N1 & L1 & F1 & S1 & M1). destruct (visits_run _ _ H2 B) as (N2 & L2 & F2 & S2 & M2).
    apply (block_nf f Hf) in C; [|exact N2]. subst b. pose proof (filter_noisy ys) as FN. pose proof (filter_forall nf ys N2) as FF.
    repeat split.
    + destruct xs as [|y z]; [exact FF|]. inversion N1; subst. destruct y; auto.
    + destruct xs as [|[]]; auto.
    + constructor; assumption.
    + intros S SS v. inversion S; subst. simpl in SS. apply width_wd in SS. rewrite <- SS in L1.
      destruct xs as [|y [|z xs]]; simpl in L1; try discriminate. specialize (S1 H4 v). specialize (S2 H5 v).
      simpl. rewrite <- S1, <- S2, <- (filter_sel v ys). destruct y; simpl; try rewrite app_nil_r; reflexivity.
Qed.
End Step.
Lemma run fuel : forall i l, wf i -> visit fuel i = Ok l -> Forall nf l /\ List.length l = wd i /\ filled i /\
  (safe i -> forall v, flat_map (sel v) l = sel v i) /\ l <> [].
Proof.
  induction fuel as [|fuel IH]; intros i l W V; [discriminate|]. destruct i as [n| |c t k e]; cbn [visit] in V.
  - inversion V. repeat split; try discriminate; repeat constructor.
  - inversion V. repeat split; try discriminate; repeat constructor.
  - cbn [wf] in W. rewrite !all_forall in W. destruct W as (Wt & We & Wk). cbn [filled safe wd sel]. rewrite !all_forall, !open_none.
    pose proof (fun v => holds_truth v c) as HT. pose proof (holds_some c) as HS. unfold truth in *.
    destruct (as_boolean c) as [b|] eqn:A.
    + specialize (HS b eq_refl). rewrite HS. assert (SB : forall l l', substitute (visit fuel) l = Ok l' -> l <> [] /\ visits (visit fuel) l = Ok l').
      { intros [|x r] l'; [discriminate|]. intros X. split; [discriminate|exact X]. }
      destruct b.
      * apply SB in V as [NE V]. apply (visits_run _ IH) in V; [|exact Wt]. destruct V as (N & L & F & S & M).
        repeat split; auto; try congruence. intros (_ & S' & _). apply S. apply S'; congruence.
      * destruct k.
        -- inversion V. repeat split; try congruence. repeat constructor.
        -- apply SB in V as [NE V]. apply (visits_run _ IH) in V; [|exact We]. destruct V as (N & L & F & S & M).
           repeat split; auto; try congruence. intros (_ & _ & S'). apply S. apply S'; congruence.
        -- apply SB in V as [NE V]. apply (visits_run _ IH) in V; [|exact We]. destruct V as (N & L & F & S & M).
           repeat split; auto; try congruence. intros (_ & _ & S'). apply S. apply S'; congruence.
    + destruct (block fuel (visit fuel) t) as [| |t'] eqn:B; try discriminate. cbn [bind] in V.
      apply (block_run _ (nf_fix fuel) IH) in B; [|exact Wt]. destruct B as (N & Z & F & S).
      destruct k.
      * inversion V; subst. repeat split; auto; try congruence.
        -- constructor; [|constructor]. constructor; auto; discriminate.
        -- intros (S' & _) v. destruct (S' eq_refl) as (S1 & S2 & _). specialize (S S1 S2 v). simpl. unfold truth. rewrite A, S.
           apply app_nil_r.
      * destruct (block fuel (visit fuel) e) as [| |e'] eqn:C; try discriminate. cbn [bind] in V. inversion V; subst.
        apply (block_run _ (nf_fix fuel) IH) in C; [|exact We]. destruct C as (N2 & Z2 & F2 & S2). repeat split; auto; try congruence.
        -- constructor; [|constructor]. constructor; auto; discriminate.
        -- intros (S' & _) v. destruct (S' eq_refl) as (X1 & X2 & X3 & X4). specialize (S X1 X2 v). specialize (S2 X3 (X4 eq_refl) v).
           simpl. unfold truth. rewrite A, S, S2. apply app_nil_r.
      * destruct Wk as (c' & t1 & k' & e' & ->). destruct (visit fuel (If c' t1 k' e')) as [| |xs] eqn:C; try discriminate.
        cbn [bind] in V. inversion V; subst. rewrite app_nil_r. inversion We; subst.
        destruct (IH _ _ H1 C) as (N2 & L2 & F2 & S2 & M2).
        repeat split; auto; try congruence.
        -- constructor; [|constructor]. constructor; auto; discriminate.
        -- intros (S' & _) v. destruct (S' eq_refl) as (X1 & X2 & X3 & X4). specialize (S X1 X2 v). inversion X3; subst.
           specialize (S2 H3 v). simpl. unfold truth at 1. rewrite A, S, S2. simpl. rewrite !app_nil_r. reflexivity.
Qed.

(** * The run ends. *)
Lemma visits_mono (f g : item -> res (list item)) l : (forall i w, f i = Ok w -> g i = Ok w) ->
  forall w, visits f l = Ok w -> visits g l = Ok w.
Proof.
  intros H. induction l as [|x r IH]; intros w V; simpl in *; [exact V|].
  destruct (f x) as [| |xs] eqn:A; try discriminate. cbn [bind] in V. rewrite (H _ _ A). cbn [bind].
  destruct (visits f r) as [| |ys] eqn:B; try discriminate. rewrite (IH _ eq_refl). exact V.
Qed.
Lemma block_mono (f g : item -> res (list item)) k : (forall i w, f i = Ok w -> g i = Ok w) ->
  forall k' l w, k <= k' -> block k f l = Ok w -> block k' g l = Ok w.
Proof.
  intros H. induction k as [|k IH]; intros k' l w K V; [discriminate|]. destruct k' as [|k']; [lia|].
  destruct l as [|x r]; cbn [block] in *; [exact V|].
  destruct (f x) as [| |xs] eqn:A; try discriminate. cbn [bind] in V. rewrite (H _ _ A). cbn [bind].
  destruct (visits f r) as [| |ys] eqn:B; try discriminate. cbn [bind] in V. rewrite (visits_mono f g r H _ B). cbn [bind].
  destruct (block k f ys) as [| |b] eqn:C; try discriminate. rewrite (IH k' _ _ ltac:(lia) C). exact V.
Qed.
Lemma substitute_mono (f g : item -> res (list item)) l : (forall i w, f i = Ok w -> g i = Ok w) ->
  forall w, substitute f l = Ok w -> substitute g l = Ok w.
Proof. intros H w. destruct l; [discriminate|]. apply (visits_mono f g _ H). Qed.
Lemma visit_step fuel : forall i w, visit fuel i = Ok w -> visit (S fuel) i = Ok w.
Proof.
  induction fuel as [|fuel IH]; intros i w V; [discriminate|]. remember (S fuel) as m. cbn [visit]. rewrite Heqm in V. cbn [visit] in V.
  destruct i as [n| |c t k e]; try exact V. subst m. destruct (as_boolean c) as [[]|].
  - revert V. apply substitute_mono, IH.
  - destruct k; try exact V; revert V; apply substitute_mono, IH.
  - destruct (block fuel (visit fuel) t) as [| |t'] eqn:B; try discriminate. cbn [bind] in V.
    rewrite (block_mono _ (visit (S fuel)) fuel IH (S fuel) t t' ltac:(lia) B). cbn [bind]. destruct k; try exact V.
    + destruct (block fuel (visit fuel) e) as [| |e'] eqn:C; try discriminate.
      rewrite (block_mono _ (visit (S fuel)) fuel IH (S fuel) e e' ltac:(lia) C). exact V.
    + destruct e as [|x r]; [discriminate|]. destruct (visit fuel x) as [| |xs] eqn:C; try discriminate.
      rewrite (IH _ _ C). exact V.
Qed.
Lemma visit_mono fuel fuel' i w : fuel <= fuel' -> visit fuel i = Ok w -> visit fuel' i = Ok w.
Proof. induction 1; auto using visit_step. Qed.
Lemma visits_up x y l w : x <= y -> visits (visit x) l = Ok w -> visits (visit y) l = Ok w.
Proof. intros H. apply visits_mono. intros i v. apply visit_mono, H. Qed.
Lemma block_up x y l w : x <= y -> block x (visit x) l = Ok w -> block y (visit y) l = Ok w.
Proof. intros H. apply block_mono; [|exact H]. intros i v. apply visit_mono, H. Qed.

Lemma visits_ends l : Forall (fun i => exists fuel w, visit fuel i = Ok w) l -> exists fuel w, visits (visit fuel) l = Ok w.
Proof.
  induction 1 as [|x r (n & w & X) _ (m & u & Y)]; [exists 0, []; reflexivity|]. exists (max n m), (w ++ u). simpl.
  rewrite (visit_mono n (max n m) x w) by (auto; lia). cbn [bind]. rewrite (visits_up m (max n m) r u) by (auto; lia). reflexivity.
Qed.
Lemma block_nf_ends l : Forall nf l -> Forall (fun i => exists fuel w, visit fuel i = Ok w) l ->
  exists fuel w, block fuel (visit fuel) l = Ok w.
Proof.
  induction 1 as [|x r Nx Nr IH]; intros H; [exists 1, []; reflexivity|]. inversion H; subst.
  destruct H2 as (n & w & X). destruct (IH H3) as (m & u & Y). destruct (visits_ends r H3) as (o & z & Z).
  pose proof (visits_nf _ (nf_fix o) r z Nr Z) as E. subst z.
  exists (S (max n (max m o))). set (K := max n (max m o)). cbn [block].
  rewrite (visit_mono n (S K) x w) by (auto; lia). cbn [bind]. rewrite (visits_up o (S K) r r) by (auto; lia). cbn [bind].
  rewrite (block_mono (visit m) (visit (S K)) m) with (k' := K) (l := r) (w := u); [cbn [bind]; eauto| |lia|exact Y].
  intros i v V. apply (visit_mono m); [lia|exact V].
Qed.
Lemma nf_ends i : nf i -> exists fuel w, visit fuel i = Ok w.
Proof.
  induction i as [n| |c t k e Ht He] using item_nested; intros N; [exists 1; eexists; reflexivity|exists 1; eexists; reflexivity|].
  inversion N as [| |c0 t0 k0 e0 A Nt Ft Ne Fe Ce]; subst.
  assert (L : forall l, Forall nf l -> Forall (fun i => nf i -> exists fuel w, visit fuel i = Ok w) l ->
    Forall (fun i => exists fuel w, visit fuel i = Ok w) l) by (induction 1; intros X; inversion X; subst; constructor; auto).
  destruct (block_nf_ends t Nt (L t Nt Ht)) as (n & w & X). destruct k.
  - exists (S n). eexists. cbn [visit]. rewrite A, X. reflexivity.
  - destruct (block_nf_ends e Ne (L e Ne He)) as (m & u & Y). exists (S (max n m)). eexists. cbn [visit].
    rewrite A, (block_up n (max n m) t w), (block_up m (max n m) e u) by (auto; lia). reflexivity.
  - destruct e as [|x r]; [destruct Ce; reflexivity|]. pose proof (L _ Ne He) as Q. inversion Q as [|? ? Q1 Q2]; subst. destruct Q1 as (m & u & Y).
    exists (S (max n m)). eexists. cbn [visit]. rewrite A, (block_up n (max n m) t w), (visit_mono m (max n m) x u) by (auto; lia). reflexivity.
Qed.
Lemma block_ends l : Forall wf l -> Forall (fun i => exists fuel w, visit fuel i = Ok w) l ->
  exists fuel w, block fuel (visit fuel) l = Ok w.
Proof.
  intros W H. destruct l as [|x r]; [exists 1, []; reflexivity|]. inversion H; subst. inversion W; subst.
  destruct H2 as (n & w & X). destruct (visits_ends r H3) as (o & z & Z).
  destruct (visits_run (visit o) (run o) r z H5 Z) as (N & _).
  assert (E : Forall (fun i => exists fuel w, visit fuel i = Ok w) z) by (revert N; apply Forall_impl; apply nf_ends).
  destruct (block_nf_ends z N E) as (m & u & Y). exists (S (max n (max m o))). set (K := max n (max m o)). cbn [block].
  rewrite (visit_mono n (S K) x w) by (auto; lia). cbn [bind]. rewrite (visits_up o (S K) r z) by (auto; lia). cbn [bind].
  rewrite (block_mono (visit m) (visit (S K)) m) with (k' := K) (l := z) (w := u); [cbn [bind]; eauto| |lia|exact Y].
  intros i v V. apply (visit_mono m); [lia|exact V].
Qed.
Lemma ends i : wf i -> filled i -> exists fuel w, visit fuel i = Ok w.
Proof.
  induction i as [n| |c t k e Ht He] using item_nested; intros W F; [exists 1; eexists; reflexivity|exists 1; eexists; reflexivity|].
  cbn [wf] in W. rewrite !all_forall in W. destruct W as (Wt & We & Wk). cbn [filled] in F. rewrite !all_forall, !open_none in F.
  assert (L : forall l, Forall wf l -> Forall filled l -> Forall (fun i => wf i -> filled i -> exists fuel w, visit fuel i = Ok w) l ->
    Forall (fun i => exists fuel w, visit fuel i = Ok w) l).
  { induction 1; intros X Y; inversion X; inversion Y; subst; constructor; auto. }
  pose proof (holds_some c) as HS. destruct F as (F1 & F2 & F3). destruct (as_boolean c) as [b|] eqn:A.
  - rewrite (HS b eq_refl) in F2, F3. destruct b.
    + destruct F2 as [NE Ft]; [discriminate|reflexivity|]. destruct (visits_ends t (L t Wt Ft Ht)) as (n & w & X).
      exists (S n), w. cbn [visit]. rewrite A. destruct t; [destruct NE; reflexivity|exact X].
    + assert (Z : k = KNone \/ k <> KNone) by (destruct k; [left|right|right]; congruence). destruct Z as [->|Z].
      * exists 1. eexists. cbn [visit]. rewrite A. reflexivity.
      * destruct F3 as [NE Fe]; [discriminate|discriminate|exact Z|]. destruct (visits_ends e (L e We Fe He)) as (n & w & X).
        exists (S n), w. cbn [visit]. rewrite A. destruct e; [destruct NE; reflexivity|]. destruct k; [destruct Z; reflexivity|exact X|exact X].
  - destruct (F1 eq_refl) as [Ft Fe]. destruct (block_ends t Wt (L t Wt Ft Ht)) as (n & w & X). destruct k.
    + exists (S n). eexists. cbn [visit]. rewrite A, X. reflexivity.
    + destruct (block_ends e We (L e We Fe He)) as (m & u & Y). exists (S (max n m)). eexists. cbn [visit].
      rewrite A, (block_up n (max n m) t w), (block_up m (max n m) e u) by (auto; lia). reflexivity.
    + destruct Wk as (c' & t1 & k' & e' & ->). pose proof (L _ We Fe He) as Q. inversion Q; subst. destruct H1 as (m & u & Y).
      exists (S (max n m)). eexists. cbn [visit].
      rewrite A, (block_up n (max n m) t w), (visit_mono m (max n m) (If c' t1 k' e') u) by (auto; lia). reflexivity.
Qed.
