(** Proofs about SwitchModel. *)
From Coq Require Import ZArith List Bool Permutation Lia ZifyBool.
From stdpp Require Import tactics.
From Verif Require Import SwitchModel SwitchSpec.
Import ListNotations.
Ltac Zify.zify_post_hook ::= Z.div_mod_to_equations.
Local Open Scope Z_scope.

Lemma i64_id v : - 2 ^ 63 <= v < 2 ^ 63 -> i64 v = v.
Proof. unfold i64. intros H. rewrite Z.mod_small; lia. Qed.

(** Bounds of a case. *)
Definition lo (c : scase) : Z := match c with CVal v => v | CRange a _ => a end.
Definition hi (c : scase) : Z := match c with CVal v => v | CRange _ b => b end.
Lemma matches_bounds c v : matches c v <-> lo c <= v <= hi c.
Proof. destruct c; cbn; lia. Qed.
Definition fits (c : scase) : Prop := - 2 ^ 63 <= lo c /\ lo c <= hi c /\ hi c < 2 ^ 63.
Lemma machine_bounds t : machine t -> - 2 ^ 63 <= least t /\ most t < 2 ^ 63.
Proof.
  intros [(n & Hn & ->)|(n & Hn & ->)]; cbn.
  - assert (2 ^ (n - 1) <= 2 ^ 63) by (apply Z.pow_le_mono_r; lia). lia.
  - assert (2 ^ n <= 2 ^ 63) by (apply Z.pow_le_mono_r; lia). lia.
Qed.
Lemma sensible_lo t c : sensible t c -> least t <= lo c /\ lo c <= hi c /\ hi c <= most t.
Proof.
  intros [[v Hv] H]. rewrite matches_bounds in Hv.
  assert (matches c (lo c)) as A by (rewrite matches_bounds; lia).
  assert (matches c (hi c)) as B by (rewrite matches_bounds; lia).
  apply H in A. apply H in B. lia.
Qed.
Lemma sensible_fits t c : machine t -> sensible t c -> fits c.
Proof. intros M%machine_bounds S%sensible_lo. unfold fits. lia. Qed.

(** What the comparison says. *)
Lemma compare_zero a b : fits a -> fits b ->
  compareLiteralNode a b = 0 <-> lo a <= hi b /\ lo b <= hi a.
Proof.
  unfold fits. destruct a as [v|a a'], b as [w|b b']; cbn -[Z.pow]; intros Ha Hb; rewrite !i64_id by lia;
    unfold isIntegerInRange, isOverlappingRange;
    repeat match goal with |- context [?x <? ?y] => destruct (Z.ltb_spec x y) end; lia.
Qed.
Lemma compare_zero_common a b : fits a -> fits b ->
  compareLiteralNode a b = 0 <-> exists v, matches a v /\ matches b v.
Proof.
  intros Fa Fb. rewrite compare_zero by assumption. split.
  - intros [H1 H2]. exists (Z.max (lo a) (lo b)). rewrite !matches_bounds. unfold fits in *. lia.
  - intros (v & Ha & Hb). rewrite matches_bounds in Ha, Hb. lia.
Qed.
Definition same_kind (l : list scase) : Prop := Forall value l \/ Forall range l.
Lemma compare_less a b : fits a -> fits b -> (value a /\ value b \/ range a /\ range b) ->
  compareLiteralNode a b < 0 <-> hi a < lo b.
Proof.
  unfold fits. intros Ha Hb [[[v ->] [w ->]]|[(a1 & a2 & ->) (b1 & b2 & ->)]]; cbn -[Z.pow] in *; rewrite !i64_id by lia;
    unfold isOverlappingRange; repeat match goal with |- context [?x <? ?y] => destruct (Z.ltb_spec x y) end; lia.
Qed.
Lemma compare_anti a b : fits a -> fits b -> compareLiteralNode b a = - compareLiteralNode a b.
Proof.
  unfold fits. destruct a as [v|a a'], b as [w|b b']; cbn -[Z.pow]; intros Ha Hb; rewrite ?i64_id by lia;
    unfold isIntegerInRange, isOverlappingRange;
    repeat match goal with |- context [?x <? ?y] => destruct (Z.ltb_spec x y) end; lia.
Qed.

(** *** Pairs *)
Definition disjoint (a b : scase) : Prop := ~ exists v, matches a v /\ matches b v.
Definition pairwise (l : list scase) : Prop := ForallOrdPairs disjoint l.
Lemma disjoint_sym a b : disjoint a b -> disjoint b a.
Proof. intros H (v & A & B). apply H. eauto. Qed.
Lemma pairwise_perm l l' : Permutation l l' -> pairwise l -> pairwise l'.
Proof.
  induction 1 as [|x l l' P IH|x y l|l l' l'' P IH P' IH']; intros H; [constructor| | |auto].
  - inversion H; subst. constructor; [eapply Permutation_Forall; eassumption|by apply IH].
  - inversion H as [|? ? F T]; subst. inversion T as [|? ? F' T']; subst. inversion F; subst.
    constructor; [constructor; [by apply disjoint_sym|assumption]|]. constructor; assumption.
Qed.
Lemma pairwise_overlapping l : pairwise l -> ~ overlapping l.
Proof.
  induction 1 as [|a l F P IH]; intros (i & j & x & y & v & L & Hx & Hy & A & B).
  - destruct i; discriminate.
  - destruct j as [|j]; [lia|]. destruct i as [|i]; cbn in *.
    + injection Hx as ->. apply nth_error_In in Hy. rewrite Forall_forall in F. apply (F y Hy). eauto.
    + apply IH. exists i, j, x, y, v. repeat split; try assumption. lia.
Qed.
Lemma overlapping_pairwise l : ~ overlapping l -> pairwise l.
Proof.
  induction l as [|a l IH]; intros H; constructor.
  - rewrite Forall_forall. intros x Hx (v & A & B). apply In_nth_error in Hx as [j Hj]. apply H.
    exists 0%nat, (S j), a, x, v. repeat split; try assumption. lia.
  - apply IH. intros (i & j & x & y & v & L & Hx & Hy & A & B). apply H. exists (S i), (S j), x, y, v.
    repeat split; try assumption. lia.
Qed.

(** *** The check on the sorted list *)
Lemma dup_overlapping l : Forall fits l -> checkDuplicateCaseMatches l = true -> ~ pairwise l.
Proof.
  induction l as [|a l IH]; [discriminate|]. destruct l as [|b l]; [discriminate|].
  intros F. inversion F as [|? ? Fa F']; subst. inversion F' as [|? ? Fb F'']; subst.
  change (checkDuplicateCaseMatches (a :: b :: l)) with ((compareLiteralNode a b =? 0) || checkDuplicateCaseMatches (b :: l)).
  rewrite orb_true_iff. intros [H|H] P; inversion P as [|? ? D P']; subst.
  - apply Z.eqb_eq, compare_zero_common in H; [|assumption|assumption]. inversion D; subst. contradiction.
  - by apply IH.
Qed.
Lemma dup_none l : Forall fits l -> same_kind l -> in_order compareLiteralNode l -> checkDuplicateCaseMatches l = false -> pairwise l.
Proof.
  intros F K O H.
  enough (ForallOrdPairs (fun a b => hi a < lo b) l) as G.
  { clear -G F. induction G as [|a l G' G IH]; [constructor|]. inversion F; subst. constructor; [|by apply IH].
    eapply Forall_impl; [|exact G']. intros b Hb (v & A & B). rewrite matches_bounds in A, B. cbn in Hb. lia. }
  induction O as [|a|a b l C O IH]; [constructor|constructor; constructor|].
  inversion F as [|? ? Fa F']; subst. inversion F' as [|? ? Fb F'']; subst.
  change (checkDuplicateCaseMatches (a :: b :: l)) with ((compareLiteralNode a b =? 0) || checkDuplicateCaseMatches (b :: l)) in H.
  apply orb_false_iff in H as [H1 H2]. apply Z.eqb_neq in H1.
  assert (same_kind (b :: l)) as K' by (destruct K as [K|K]; [left|right]; inversion K; assumption).
  specialize (IH F' K' H2). constructor; [|assumption].
  assert (hi a < lo b) as L.
  { apply compare_less; [assumption|assumption| |lia]. destruct K as [K|K]; [left|right];
      inversion K as [|? ? Ka K2]; subst; inversion K2; subst; split; assumption. }
  inversion IH as [|? ? G _]; subst. constructor; [assumption|]. eapply Forall_impl; [|exact G]. intros c Hc. cbn in *. unfold fits in Fb. lia.
Qed.

(** *** Types *)
Lemma check_case t c : machine t -> sensible t c -> checkCase t c = Some true.
Proof.
  intros M S. pose proof (sensible_fits t c M S) as F. pose proof (sensible_lo t c S) as B. pose proof (machine_bounds t M) as MB.
  unfold fits in F.
  assert (checkCase t c = isIntegerTypeInRange t (lo c) (hi c)) as ->.
  { destruct c; cbn -[Z.pow] in *; rewrite ?i64_id by lia; reflexivity. }
  unfold isIntegerTypeInRange. destruct (Z.ltb_spec (hi c) (lo c)); [lia|].
  destruct M as [(n & Hn & ->)|(n & Hn & ->)]; cbn -[Z.pow] in *.
  - rewrite i64_id by lia. f_equal. lia.
  - unfold u64. rewrite Z.mod_small by lia. f_equal. lia.
Qed.
Lemma check_cases t l : machine t -> Forall (sensible t) l -> checkCases t l = Accepted.
Proof. intros M. induction 1 as [|c l S F IH]; [reflexivity|]. cbn. by rewrite check_case, IH. Qed.

(** *** The merge sort *)
Lemma merge_nil cmp l : merge cmp l [] = l.
Proof. by destruct l. Qed.
Lemma merge_cons cmp a l b r : merge cmp (a :: l) (b :: r) = if cmp a b <=? 0 then a :: merge cmp l (b :: r) else b :: merge cmp (a :: l) r.
Proof. reflexivity. Qed.
Lemma merge_perm cmp l : forall r, Permutation (l ++ r) (merge cmp l r).
Proof.
  induction l as [|a l IH]; intros r; [by destruct r|]. induction r as [|b r IHr].
  - rewrite merge_nil, app_nil_r. reflexivity.
  - rewrite merge_cons. destruct (cmp a b <=? 0).
    + cbn. constructor. apply IH.
    + rewrite <- IHr. symmetry. apply (Permutation_middle (a :: l) r b).
Qed.
Lemma half (n : nat) : (2 <= n)%nat -> (1 <= Nat.div n 2 < n)%nat.
Proof. intros. assert (Nat.div n 2 < n)%nat by (apply Nat.div_lt; lia). assert (1 <= Nat.div n 2)%nat by (apply Nat.div_le_lower_bound; lia). lia. Qed.
Lemma msort_perm cmp n : forall l, Permutation l (msort_ n cmp l).
Proof.
  induction n as [|n IH]; intros l; [reflexivity|]. cbn -[Nat.div length]. destruct l as [|a [|b l]]; [reflexivity|reflexivity|].
  set (k := Nat.div _ 2). rewrite <- merge_perm, <- !IH. by rewrite firstn_skipn.
Qed.
Definition anti (cmp : scase -> scase -> Z) (l : list scase) : Prop :=
  forall a b, In a l -> In b l -> 0 < cmp a b -> cmp b a <= 0.
Lemma in_order_tl cmp a l : in_order cmp (a :: l) -> in_order cmp l.
Proof. inversion 1; [constructor|assumption]. Qed.
(** The head of the result is one of the heads. *)
Lemma in_order_cons cmp a l : in_order cmp l -> (forall b t, l = b :: t -> cmp a b <= 0) -> in_order cmp (a :: l).
Proof. intros O H. destruct l as [|b t]; constructor; [by eapply H|assumption]. Qed.
Lemma merge_head cmp l r h t : merge cmp l r = h :: t -> (exists l', l = h :: l') \/ (exists r', r = h :: r').
Proof.
  destruct l as [|a l], r as [|b r]; cbn; try discriminate; [intros ->; right; eauto|intros ->; left; eauto|].
  destruct (cmp a b <=? 0); intros [= -> _]; eauto.
Qed.
Lemma merge_order cmp l : forall r, anti cmp (l ++ r) -> in_order cmp l -> in_order cmp r -> in_order cmp (merge cmp l r).
Proof.
  induction l as [|a l IH]; intros r A Ol Or; [by destruct r|]. induction r as [|b r IHr].
  - by rewrite merge_nil.
  - rewrite merge_cons. destruct (Z.leb_spec (cmp a b) 0) as [L|L].
    + apply in_order_cons.
      * apply IH; [|by eapply in_order_tl|assumption]. intros x y Hx Hy. apply A; by right.
      * intros c t [[l' ->]|[r' E]]%merge_head; [by inversion Ol|]. injection E as -> ->. assumption.
    + apply in_order_cons.
      * apply IHr; [|by eapply in_order_tl]. intros x y Hx Hy. apply A; apply in_app_iff; apply in_app_iff in Hx, Hy; cbn in *; tauto.
      * intros c t [[l' E]|[r' ->]]%merge_head.
        -- injection E as -> ->. apply A; [left; reflexivity|apply in_app_iff; right; left; reflexivity|assumption].
        -- by inversion Or.
Qed.
Lemma msort_order cmp n : forall l, (length l <= n)%nat -> anti cmp l -> in_order cmp (msort_ n cmp l).
Proof.
  induction n as [|n IH]; intros l Hn A; cbn -[Nat.div length].
  - destruct l; [constructor|cbn in Hn; lia].
  - destruct l as [|a [|b l]]; [constructor|constructor|]. set (k := Nat.div _ 2) in *. set (L := a :: b :: l) in *.
    pose proof (half (length L) ltac:(cbn; lia)) as Hk. fold k in Hk.
    assert (forall x, In x (firstn k L) -> In x L) as I1 by (intros x; rewrite <- (firstn_skipn k L) at 2; rewrite in_app_iff; tauto).
    assert (forall x, In x (skipn k L) -> In x L) as I2 by (intros x; rewrite <- (firstn_skipn k L) at 2; rewrite in_app_iff; tauto).
    apply merge_order.
    + intros x y Hx Hy. apply A.
      * apply in_app_iff in Hx as [Hx|Hx]; [apply I1|apply I2]; eapply Permutation_in; [symmetry; apply msort_perm|exact Hx|symmetry; apply msort_perm|exact Hx].
      * apply in_app_iff in Hy as [Hy|Hy]; [apply I1|apply I2]; eapply Permutation_in; [symmetry; apply msort_perm|exact Hy|symmetry; apply msort_perm|exact Hy].
    + apply IH; [rewrite firstn_length; lia|]. intros x y Hx Hy. apply A; auto.
    + apply IH; [rewrite skipn_length; lia|]. intros x y Hx Hy. apply A; auto.
Qed.
Lemma msort_qsort : is_qsort msort.
Proof.
  intros cmp l. split; [apply msort_perm|]. intros [T _]. apply msort_order; [reflexivity|].
  intros a b Ha Hb H. apply (T b a Hb Ha). lia.
Qed.
