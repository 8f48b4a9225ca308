From Coq Require Import ZifyBool ZifyNat ZifyN.
From stdpp Require Import numbers list.
From Verif Require Import SearchModel SearchSpec.
Local Open Scope Z_scope.
Ltac Zify.zify_post_hook ::= Z.div_mod_to_equations.

Lemma to_i32_small z : - 2 ^ 31 <= z < 2 ^ 31 -> to_i32 z = z.
Proof. unfold to_i32. change (2 ^ 31) with 2147483648. change (2 ^ 32) with 4294967296. lia. Qed.

Lemma strcmp_refl a : strcmp a a = 0.
Proof. induction a as [|x a IH]; [done|]. cbn. by rewrite N.eqb_refl. Qed.
Lemma strcmp_zero a b : c_name a -> c_name b -> strcmp a b = 0 -> a = b.
Proof.
  revert b. induction a as [|x a IH]; intros [|y b] Ha Hb H; cbn in H; try done.
  - apply Forall_cons_1 in Hb as [? _]. lia.
  - apply Forall_cons_1 in Ha as [? _]. lia.
  - apply Forall_cons_1 in Ha as [? Ha], Hb as [? Hb].
    destruct (N.eqb_spec x y) as [-> |]; [|lia]. f_equal. by apply IH.
Qed.
Lemma strcmp_lt a b : c_name a -> c_name b -> strcmp a b < 0 <-> name_lt a b.
Proof.
  revert b. induction a as [|x a IH]; intros [|y b] Ha Hb; cbn.
  - split; [lia|]. by inversion 1.
  - apply Forall_cons_1 in Hb as [? _]. split; [constructor|lia].
  - apply Forall_cons_1 in Ha as [? _]. split; [lia|]. by inversion 1.
  - apply Forall_cons_1 in Ha as [? Ha], Hb as [? Hb].
    destruct (N.eqb_spec x y) as [-> |].
    + rewrite (IH b Ha Hb). split; [by constructor|]. inversion 1; subst; [lia|done].
    + split; [intros; constructor; lia|]. inversion 1; subst; [lia|done].
Qed.
Lemma strcmp_gt a b : c_name a -> c_name b -> 0 < strcmp a b <-> name_lt b a.
Proof.
  revert b. induction a as [|x a IH]; intros [|y b] Ha Hb; cbn.
  - split; [lia|]. by inversion 1.
  - apply Forall_cons_1 in Hb as [? _]. split; [lia|]. by inversion 1.
  - apply Forall_cons_1 in Ha as [? _]. split; [constructor|lia].
  - apply Forall_cons_1 in Ha as [? Ha], Hb as [? Hb].
    destruct (N.eqb_spec x y) as [-> |].
    + rewrite (IH b Ha Hb). split; [by constructor|]. inversion 1; subst; [lia|done].
    + split; [intros; constructor; lia|]. inversion 1; subst; [lia|done].
Qed.
Lemma name_lt_trans a b c : name_lt a b -> name_lt b c -> name_lt a c.
Proof.
  intros H. revert c. induction H as [y b|x y a b Hxy|x a b H IH]; intros c Hc; inversion Hc; subst.
  - constructor. - constructor. - constructor; lia. - by constructor. - by constructor. - apply lt_tail. by apply IH.
Qed.
Lemma strcmp_le_trans_lt a b c : c_name a -> c_name b -> c_name c ->
  strcmp a b <= 0 -> strcmp b c < 0 -> strcmp a c < 0.
Proof.
  intros Ha Hb Hc H1 H2. apply strcmp_lt in H2; [|done..]. apply strcmp_lt; [done..|].
  destruct (decide (strcmp a b = 0)) as [E|]; [by apply strcmp_zero in E as ->|].
  eapply name_lt_trans; [|exact H2]. apply strcmp_lt; [done..|lia].
Qed.

(** The loop: everything left of [lower] compares below the key, everything
    right of [upper] above. *)
Lemma bsearch_ok {A} (cmp : A -> Z) (arr : list A) :
  Z.of_nat (length arr) < 2 ^ 31 ->
  (forall i j x y, (i < j)%nat -> arr !! i = Some x -> arr !! j = Some y -> cmp x < 0 -> cmp y < 0) ->
  (forall i j x y, (i < j)%nat -> arr !! i = Some x -> arr !! j = Some y -> 0 < cmp y -> 0 < cmp x) ->
  forall fuel lower upper,
  0 <= lower -> -1 <= upper < Z.of_nat (length arr) -> lower <= upper + 1 ->
  (upper - lower + 1 < Z.of_nat fuel) ->
  (forall i x, arr !! i = Some x -> Z.of_nat i < lower -> 0 < cmp x) ->
  (forall i x, arr !! i = Some x -> upper < Z.of_nat i -> cmp x < 0) ->
  (exists i x, bsearch_loop fuel cmp arr lower upper = Some (Z.of_nat i) /\ arr !! i = Some x /\ cmp x = 0) \/
  (bsearch_loop fuel cmp arr lower upper = Some (-1) /\ forall i x, arr !! i = Some x -> cmp x <> 0).
Proof.
  intros Hlen Hdn Hup. induction fuel as [|fuel IH]; intros lower upper Hl Hu Hlu Hf Hlo Hhi; [lia|].
  cbn [bsearch_loop]. destruct (lower <=? upper) eqn:E.
  - set (mid := to_i32 (lower + Z.quot (upper - lower) 2)).
    assert (Hm : mid = lower + (upper - lower) / 2).
    { unfold mid. rewrite Z.quot_div_nonneg by lia. apply to_i32_small. lia. }
    assert (Hmid : lower <= mid <= upper) by lia.
    rewrite (proj2 (Z.ltb_ge mid 0)) by lia.
    destruct (lookup_lt_is_Some_2 arr (Z.to_nat mid) ltac:(lia)) as [e He]. rewrite He.
    destruct (cmp e =? 0) eqn:E0.
    { left. exists (Z.to_nat mid), e. split; [f_equal; lia|]. split; [done|lia]. }
    destruct (0 <? cmp e) eqn:E1.
    + rewrite to_i32_small by lia. apply IH; try lia; try done.
      intros i x Hx Hi. destruct (decide (i = Z.to_nat mid)) as [-> |].
      { rewrite He in Hx. injection Hx as <-. lia. }
      eapply (Hup i (Z.to_nat mid)); [lia|done|done|lia].
    + rewrite to_i32_small by lia. apply IH; try lia; try done.
      intros i x Hx Hi. destruct (decide (i = Z.to_nat mid)) as [-> |].
      { rewrite He in Hx. injection Hx as <-. lia. }
      eapply (Hdn (Z.to_nat mid) i); [lia|done|done|lia].
  - right. split; [done|]. intros i x Hx Hc. destruct (decide (Z.of_nat i < lower)).
    + specialize (Hlo i x Hx). lia.
    + specialize (Hhi i x Hx). lia.
Qed.

Lemma binarySearch_ok {A} (cmp : A -> Z) (arr : list A) :
  Z.of_nat (length arr) < 2 ^ 31 ->
  (forall i j x y, (i < j)%nat -> arr !! i = Some x -> arr !! j = Some y -> cmp x < 0 -> cmp y < 0) ->
  (forall i j x y, (i < j)%nat -> arr !! i = Some x -> arr !! j = Some y -> 0 < cmp y -> 0 < cmp x) ->
  (exists i x, binarySearch cmp arr = Some (Z.of_nat i) /\ arr !! i = Some x /\ cmp x = 0) \/
  (binarySearch cmp arr = Some (-1) /\ forall i x, arr !! i = Some x -> cmp x <> 0).
Proof.
  intros Hlen Hdn Hup. unfold binarySearch. rewrite (to_i32_small (Z.of_nat _)) by lia.
  rewrite to_i32_small by lia. apply bsearch_ok; try done; try lia.
  intros i x Hx Hi. apply lookup_lt_Some in Hx. lia.
Qed.

Lemma find_ok {D} (members sorted : list (list N * D)) name :
  Z.of_nat (length members) < 2 ^ 31 ->
  Forall (fun m => c_name (fst m)) members -> c_name name ->
  qsort_result (fun a b => strcmp (fst a) (fst b)) members sorted ->
  (exists m, findNamedTypeMemberInContainer sorted name = Some (Some m) /\ m ∈ members /\ fst m = name) \/
  (findNamedTypeMemberInContainer sorted name = Some None /\ forall m, m ∈ members -> fst m <> name).
Proof.
  intros Hlen Hn Hname [Hp Hs].
  assert (Hns : forall i x, sorted !! i = Some x -> c_name (fst x)).
  { intros i x Hx. rewrite Forall_forall in Hn. apply Hn. rewrite <- Hp. eapply elem_of_list_lookup_2; done. }
  destruct (binarySearch_ok (search_compare name) sorted) as [(i & x & E & Hx & Hc)|[E Hc]].
  - by rewrite Hp.
  - intros i j x y Hij Hx Hy. unfold search_compare. intros H.
    apply strcmp_lt in H; [|by eauto..]. apply strcmp_lt; [by eauto..|].
    destruct (decide (strcmp (fst x) (fst y) = 0)) as [E0|E0].
    { apply strcmp_zero in E0; [|by eauto..]. by rewrite <- E0. }
    eapply name_lt_trans; [exact H|]. apply strcmp_lt; [by eauto..|]. specialize (Hs i j x y Hij Hx Hy). lia.
  - intros i j x y Hij Hx Hy. unfold search_compare. intros H.
    apply strcmp_gt in H; [|by eauto..]. apply strcmp_gt; [by eauto..|].
    destruct (decide (strcmp (fst x) (fst y) = 0)) as [E0|E0].
    { apply strcmp_zero in E0; [|by eauto..]. by rewrite E0. }
    eapply name_lt_trans; [|exact H]. apply strcmp_lt; [by eauto..|]. specialize (Hs i j x y Hij Hx Hy). lia.
  - left. exists x. unfold findNamedTypeMemberInContainer. rewrite E.
    replace (Z.of_nat i =? -1) with false by lia. rewrite Nat2Z.id, Hx. split; [done|].
    split; [rewrite <- Hp; eapply elem_of_list_lookup_2; done|].
    unfold search_compare in Hc. apply strcmp_zero in Hc; [done|done|by eauto].
  - right. unfold findNamedTypeMemberInContainer. rewrite E. split; [done|].
    intros m Hm <-. rewrite <- Hp in Hm. apply elem_of_list_lookup_1 in Hm as [i Hi].
    apply (Hc i m Hi). unfold search_compare. apply strcmp_refl.
Qed.

(** Enum options by value. *)
Lemma enum_sorted lo vals sorted :
  Forall (fun v => lo <= v < lo + 2 ^ 31) vals ->
  qsort_result compareEnumOptionsByValue vals sorted ->
  forall i j x y, (i < j)%nat -> sorted !! i = Some x -> sorted !! j = Some y -> x <= y.
Proof.
  intros Hv [Hp Hs] i j x y Hij Hx Hy. specialize (Hs i j x y Hij Hx Hy).
  rewrite <- Hp in Hv. rewrite Forall_forall in Hv.
  assert (H1 := Hv x (elem_of_list_lookup_2 _ _ _ Hx)). assert (H2 := Hv y (elem_of_list_lookup_2 _ _ _ Hy)).
  unfold compareEnumOptionsByValue in Hs. rewrite to_i32_small in Hs by lia. lia.
Qed.
