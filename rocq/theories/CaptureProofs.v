From stdpp Require Import list numbers.
From Coq Require Import ZifyBool ZifyNat ZifyN.
From Verif Require Import HTableModel KTableModel KTableProofs CaptureModel CaptureSpec.

(** * Lists without repetitions *)
Section nub.
Context {A : Type} (eqb : A → A → bool) (eqb_refl : ∀ a, eqb a a = true)
  (eqb_sym : ∀ a b, eqb a b = eqb b a)
  (eqb_trans : ∀ a b c, eqb a b = true → eqb b c = true → eqb a c = true).
Lemma nub_length l : length (nub eqb l) ≤ length l.
Proof using Type.
  clear eqb_refl eqb_sym eqb_trans. induction l as [|a l IH]; cbn; [lia|]. pose proof (filter_length (λ b, eqb a b = false) (nub eqb l)). lia.
Qed.
Lemma nub_elem l x : x ∈ nub eqb l → x ∈ l.
Proof.
  induction l as [|a l IH]; cbn; [done|]. rewrite !elem_of_cons, elem_of_list_filter. naive_solver.
Qed.
Lemma nub_has l x : x ∈ l → ∃ y, y ∈ nub eqb l ∧ eqb y x = true.
Proof.
  induction l as [|a l IH]; cbn; [by rewrite elem_of_nil|]. intros [->|Hx]%elem_of_cons.
  - exists a. split; [by left|done].
  - destruct (IH Hx) as (y & Hy & E). destruct (eqb a y) eqn:Eay.
    + exists a. split; [by left|]. by eapply eqb_trans.
    + exists y. split; [|done]. right. by apply elem_of_list_filter.
Qed.
Lemma nub_snoc l x :
  nub eqb (l ++ [x]) = if existsb (λ y, eqb y x) (nub eqb l) then nub eqb l else nub eqb l ++ [x].
Proof.
  induction l as [|a l IH]; cbn [nub app]; [done|]. rewrite IH. cbn [existsb].
  destruct (eqb a x) eqn:Eax; cbn [orb].
  - f_equal. destruct (existsb _ (nub eqb l)); [done|]. rewrite list.filter_app.
    rewrite filter_cons_False by (by rewrite Eax). by rewrite filter_nil, app_nil_r.
  - assert (existsb (λ y, eqb y x) (filter (λ b, eqb a b = false) (nub eqb l))
            = existsb (λ y, eqb y x) (nub eqb l)) as ->.
    { apply eq_iff_eq_true. rewrite !existsb_exists. split.
      - intros (y & Hy & E). exists y. split; [|done]. apply elem_of_list_In, elem_of_list_filter in Hy.
        by apply elem_of_list_In, Hy.
      - intros (y & Hy & E). exists y. split; [|done]. apply elem_of_list_In, elem_of_list_filter.
        split; [|by apply elem_of_list_In]. destruct (eqb a y) eqn:Eay; [|done].
        assert (eqb a x = true) by (by eapply eqb_trans). congruence. }
    destruct (existsb _ (nub eqb l)); [done|]. rewrite list.filter_app, filter_cons_True by done.
    by rewrite filter_nil.
Qed.
End nub.
Lemma nub_map {A B} (f : A → B) (ea : A → A → bool) (eb : B → B → bool) l :
  (∀ a b, ea a b = eb (f a) (f b)) → nub eb (map f l) = map f (nub ea l).
Proof.
  intros E. induction l as [|a l IH]; cbn; [done|]. f_equal. rewrite IH. clear IH.
  induction (nub ea l) as [|b m IHm]; [done|]. cbn [map]. rewrite !filter_cons, E.
  case_decide; cbn [map]; congruence.
Qed.
Lemma same_sym_refl a : same_sym a a = true.
Proof. unfold same_sym. by rewrite !N.eqb_refl. Qed.
Lemma same_sym_trans a b c : same_sym a b = true → same_sym b c = true → same_sym a c = true.
Proof. unfold same_sym. lia. Qed.

(** * Capture sets *)
Fixpoint slots (i : N) (L : list sym) (x : N) : option (sym * N) :=
  match L with [] => None | s :: L' => if (s_name s =? x)%N then Some (s, i) else slots (i + 1) L' x end.
Lemma slots_snoc L : ∀ i s x, slots i (L ++ [s]) x =
  match slots i L x with Some r => Some r | None =>
    if (s_name s =? x)%N then Some (s, (i + N.of_nat (length L))%N) else None end.
Proof.
  induction L as [|a L IH]; intros i s x; cbn.
  - by rewrite N.add_0_r.
  - destruct (s_name a =? x)%N; [done|]. rewrite IH. destruct (slots (i + 1) L x); [done|].
    destruct (s_name s =? x)%N; [|done]. do 2 f_equal. lia.
Qed.
Lemma slots_some L : ∀ i x s k, slots i L x = Some (s, k) →
  (i ≤ k)%N ∧ L !! N.to_nat (k - i) = Some s ∧ s_name s = x.
Proof.
  induction L as [|a L IH]; intros i x s k; cbn [slots]; [done|].
  destruct (s_name a =? x)%N eqn:E; [intros [= <- <-]; rewrite N.sub_diag; split; [lia|]; split; [done|lia]|].
  intros (H1 & H2 & H3)%IH. split; [lia|]. split; [|done].
  by replace (N.to_nat (k - i)) with (Datatypes.S (N.to_nat (k - (i + 1)))) by lia.
Qed.
Lemma slots_none L : ∀ i x, slots i L x = None → ∀ s, s ∈ L → s_name s ≠ x.
Proof.
  induction L as [|a L IH]; intros i x; cbn [slots]; [intros _ s Hs; by apply elem_of_nil in Hs|].
  destruct (s_name a =? x)%N eqn:E; [done|]. intros H s [->|Hs]%elem_of_cons; [lia|]. by eapply IH.
Qed.
Lemma slots_at L : ∀ i k s, List.NoDup (map s_name L) → L !! k = Some s →
  slots i L (s_name s) = Some (s, (i + N.of_nat k)%N).
Proof.
  induction L as [|a L IH]; intros i k s ND; [done|]. inversion ND as [|? ? Hn ND']; subst.
  destruct k as [|k]; cbn [lookup list_lookup slots].
  - intros [= ->]. rewrite N.eqb_refl. by rewrite N.add_0_r.
  - intros Hk. destruct (s_name a =? s_name s)%N eqn:E.
    + exfalso. apply Hn. apply N.eqb_eq in E. rewrite E. apply in_map. apply elem_of_list_In.
      by eapply elem_of_list_lookup_2.
    + rewrite (IH _ _ _ ND' Hk). do 2 f_equal. lia.
Qed.

Section sets.
Context (hashs : N → N).
Notation reps := (@reps N (sym * N) N.eqb hashs).

Definition setrep (set : cset) (L : list sym) : Prop :=
  c_index set = N.of_nat (length L) ∧ List.NoDup (map s_name L) ∧
  match c_table set with None => L = [] | Some t => reps t (slots 0 L) end.
Lemma new_setrep : setrep cset_new [].
Proof. split; [done|]. split; [constructor|done]. Qed.

Lemma add_ok set L s : setrep set L → (N.of_nat (length L) < 2 ^ 32)%N →
  match slots 0 L (s_name s) with
  | Some (s', k) =>
    if (s_id s' =? s_id s)%N
    then ∃ set', add_capture hashs set s = TOk (set', k) ∧ setrep set' L
    else add_capture hashs set s = TAssert
  | None => ∃ set', add_capture hashs set s = TOk (set', N.of_nat (length L)) ∧ setrep set' (L ++ [s])
  end.
Proof.
  intros (Hi & ND & Ht) Hlen.
  assert (R : reps (match c_table set with Some t => t | None => kt_new end) (slots 0 L)).
  { destruct (c_table set); [done|]. subst L. apply kt_new_reps. }
  unfold add_capture. cbv zeta. set (cap := (s, (c_index set mod 2 ^ 32)%N)).
  destruct (kt_insert_reps N.eqb hashs N.eqb_eq _ _ (s_name s) cap R) as (t' & -> & R').
  cbn [tbind fst snd].
  pose proof (kt_find_reps N.eqb hashs N.eqb_eq _ _ (s_name s) cap R') as F.
  destruct (slots 0 L (s_name s)) as [[s' k]|] eqn:E.
  - rewrite E in F. destruct F as (i & -> & _). cbn [tbind]. destruct (s_id s' =? s_id s)%N; [|done].
    eexists. split; [done|]. split; [done|]. split; [done|]. cbn. done.
  - rewrite upd_eq in F by apply N.eqb_eq. destruct F as (i & -> & _). cbn [tbind].
    unfold cap. rewrite N.eqb_refl. rewrite Hi.
    rewrite !N.mod_small by lia. eexists. split; [done|].
    split; [cbn [c_index]; rewrite app_length; cbn; lia|]. split.
    + rewrite map_app. cbn. apply NoDup_ListNoDup. apply NoDup_app. split; [by apply NoDup_ListNoDup|].
      split; [|apply NoDup_singleton]. intros x Hx ->%elem_of_list_singleton.
      apply elem_of_list_fmap in Hx as (s' & Es & Hs).
      by apply (slots_none _ _ _ E s' Hs).
    + cbn [c_table]. eapply reps_ext; [|exact R']. intros x. unfold upd. rewrite slots_snoc. cbn [N.add].
      unfold cap. rewrite Hi, N.mod_small by lia.
      destruct (s_name s =? x)%N eqn:Ex; [apply N.eqb_eq in Ex as <-; by rewrite E|].
      by destruct (slots 0 L x).
Qed.

Lemma populate_ok (L : list sym) c (es : list (sym * N)) :
  c = N.of_nat (length L) →
  (∀ s k, (s, k) ∈ es → L !! N.to_nat k = Some s) →
  ∀ arr, length arr = length L → (∀ i s, arr !! i = Some (Some s) → L !! i = Some s) →
  let arr' := foldl (populate c) arr es in
  length arr' = length L ∧ (∀ i s, arr' !! i = Some (Some s) → L !! i = Some s) ∧
  (∀ s k, (s, k) ∈ es → arr' !! N.to_nat k = Some (Some s)) ∧
  (∀ i s, arr !! i = Some (Some s) → arr' !! i = Some (Some s)).
Proof.
  intros Ec. induction es as [|[s k] es IH]; intros Hes arr Hl Ha; cbn [foldl].
  - split; [done|]. split; [done|]. split; [|done]. intros s k X. by apply elem_of_nil in X.
  - assert (Hk : L !! N.to_nat k = Some s) by (apply Hes; by left).
    pose proof (lookup_lt_Some _ _ _ Hk) as Hlt.
    assert (Ep : populate c arr (s, k) = <[N.to_nat k := Some s]> arr).
    { unfold populate. cbn [fst snd]. destruct (k <? c)%N eqn:E; [done|]. lia. }
    rewrite Ep. edestruct (IH ltac:(intros; apply Hes; by right) (<[N.to_nat k := Some s]> arr)) as (I1 & I2 & I3 & I4).
    + by rewrite insert_length.
    + intros i s'. destruct (decide (i = N.to_nat k)) as [->|Hne].
      * rewrite list_lookup_insert by lia. congruence.
      * rewrite list_lookup_insert_ne by done. apply Ha.
    + split; [done|]. split; [done|]. split.
      * intros s' k' [[= -> ->]|Hin]%elem_of_cons; [|by apply I3]. apply I4. by rewrite list_lookup_insert by lia.
      * intros i s' Hi. apply I4. destruct (decide (i = N.to_nat k)) as [->|Hne].
        -- rewrite list_lookup_insert by lia. apply Ha in Hi. congruence.
        -- by rewrite list_lookup_insert_ne.
Qed.
Lemma ordered_ok set L : setrep set L → get_ordered set = (map Some L, N.of_nat (length L)).
Proof.
  intros (Hi & ND & Ht). unfold get_ordered. destruct (c_table set) as [t|].
  2: { subst L. by rewrite Hi. }
  rewrite Hi. f_equal.
  destruct (kt_enumerate_reps N.eqb hashs N.eqb_eq t _ Ht) as [En _].
  assert (H1 : ∀ s k, (s, k) ∈ map snd (kt_enumerate t) → L !! N.to_nat k = Some s).
  { intros s k Hin. apply elem_of_list_fmap in Hin as ([x [s' k']] & [= <- <-] & Hin).
    apply En, slots_some in Hin as (_ & Hin & _). by rewrite N.sub_0_r in Hin. }
  assert (H2 : ∀ i s, L !! i = Some s → (s, N.of_nat i) ∈ map snd (kt_enumerate t)).
  { intros i s Hs. apply elem_of_list_fmap. exists (s_name s, (s, N.of_nat i)). split; [done|].
    apply En. by rewrite (slots_at _ _ _ _ ND Hs). }
  destruct (populate_ok L (N.of_nat (length L)) (map snd (kt_enumerate t)) eq_refl H1
              (repeat None (N.to_nat (N.of_nat (length L))))) as (I1 & I2 & I3 & _).
  { rewrite repeat_length. lia. }
  { intros i s X. apply elem_of_list_lookup_2, elem_of_list_In, repeat_spec in X. done. }
  apply list_eq. intros i. destruct (L !! i) as [s|] eqn:E.
  - assert (Hm : map Some L !! i = Some (Some s)) by (rewrite list_lookup_fmap; by rewrite E). rewrite Hm.
    rewrite <- (Nat2N.id i). apply I3, H2, E.
  - rewrite !lookup_ge_None_2; [done|rewrite map_length; by apply lookup_ge_None|rewrite I1; by apply lookup_ge_None].
Qed.
End sets.

(** * Sequences of captures *)
Section adds.
Context (hashs : N → N).
Lemma existsb_slots L s : existsb (λ y, same_sym y s) L = true →
  (∀ a, a ∈ L → s_name a = s_name s → a = s) → slots 0 L (s_name s) ≠ None.
Proof.
  intros (y & Hy & E)%existsb_exists _ X. apply elem_of_list_In in Hy.
  apply (slots_none _ _ _ X y Hy). unfold same_sym in E. lia.
Qed.
Lemma add_all_ok nodes : ∀ (set : cset) (done : list sym),
  setrep hashs set (nub same_sym done) →
  (∀ a b, a ∈ done ++ nodes → b ∈ done ++ nodes → s_name a = s_name b → s_id a = s_id b) →
  (N.of_nat (length (nub same_sym (done ++ nodes))) ≤ 2 ^ 32)%N →
  ∃ set' ids, add_all hashs set nodes = TOk (set', ids) ∧ setrep hashs set' (nub same_sym (done ++ nodes)) ∧
    length ids = length nodes ∧
    ∀ i n k, nodes !! i = Some n → ids !! i = Some k →
      ∃ n', nub same_sym (done ++ nodes) !! N.to_nat k = Some n' ∧ same_sym n' n = true.
Proof.
  induction nodes as [|n nodes IH]; intros set done HS HC HL.
  - exists set, []. rewrite app_nil_r in *. split; [done|]. split; [done|]. split; [done|]. intros i n k X. by rewrite lookup_nil in X.
  - cbn [add_all].
    replace (done ++ n :: nodes) with ((done ++ [n]) ++ nodes) in * by (by rewrite <- app_assoc).
    assert (Hpre : ∀ m l, ∃ r, nub same_sym (l ++ m) = nub same_sym l ++ r).
    { clear. intros m. induction m as [|a m IH] using rev_ind; intros l.
      - exists []. by rewrite !app_nil_r.
      - destruct (IH l) as [r Er]. rewrite app_assoc, nub_snoc by apply same_sym_trans. rewrite Er.
        destruct (existsb _ _); [by exists r|]. exists (r ++ [a]). by rewrite app_assoc. }
    assert (Hn : nub same_sym (done ++ [n]) = if existsb (λ y, same_sym y n) (nub same_sym done)
              then nub same_sym done else nub same_sym done ++ [n]) by (apply nub_snoc, same_sym_trans).
    assert (Hstep : ∃ set' k, add_capture hashs set n = TOk (set', k) ∧
       setrep hashs set' (nub same_sym (done ++ [n])) ∧
       ∃ n', nub same_sym (done ++ [n]) !! N.to_nat k = Some n' ∧ same_sym n' n = true).
    { destruct (slots 0 (nub same_sym done) (s_name n)) as [[s' k]|] eqn:E.
      - pose proof (slots_some _ _ _ _ _ E) as (_ & Hk & Hname). rewrite N.sub_0_r in Hk.
        pose proof (nub_elem _ _ _ (elem_of_list_lookup_2 _ _ _ Hk)) as Hin.
        assert (Hid : s_id s' = s_id n).
        { apply HC; [..|done]; rewrite <- app_assoc; apply elem_of_app; [by left|]. right. by left. }
        assert (existsb (λ y, same_sym y n) (nub same_sym done) = true) as Hex.
        { apply existsb_exists. exists s'. split; [apply elem_of_list_In; by eapply elem_of_list_lookup_2|].
          unfold same_sym. rewrite Hname, Hid, !N.eqb_refl. done. }
        rewrite Hex in Hn. rewrite Hn in *. destruct (Hpre nodes (done ++ [n])) as [r Er]. rewrite Hn in Er.
        destruct (N.eq_dec (N.of_nat (length (nub same_sym done))) (2 ^ 32)) as [Hfull|].
        + (* a full set: the insertion finds the name *)
          destruct HS as (Hi & ND & Ht).
          destruct (c_table set) as [t|] eqn:Et; [|by rewrite Ht in E].
          pose proof (kt_insert_reps N.eqb hashs N.eqb_eq t _ (s_name n) (n, (c_index set mod 2 ^ 32)%N) Ht) as X.
          rewrite E in X. destruct X as (t' & Ei & R').
          pose proof (kt_find_reps N.eqb hashs N.eqb_eq _ _ (s_name n) (n, (c_index set mod 2 ^ 32)%N) R') as F.
          rewrite E in F. destruct F as (i & Ef & _).
          exists (CSet (Some t') (c_index set)), k. split.
          { unfold add_capture. cbv zeta. rewrite Et, Ei. cbn [tbind fst snd]. rewrite Ef. cbn [tbind].
            by rewrite Hid, N.eqb_refl. }
          split; [split; [done|split; done]|]. exists s'. split; [done|]. unfold same_sym. lia.
        + pose proof (add_ok hashs set _ n HS) as A. rewrite E in A. rewrite Hid, N.eqb_refl in A.
          destruct A as (set' & Ea & Sr); [rewrite Er, app_length in HL; lia|].
          exists set', k. split; [done|]. split; [done|]. exists s'. split; [done|]. unfold same_sym. lia.
      - assert (existsb (λ y, same_sym y n) (nub same_sym done) = false) as Hex.
        { apply not_true_is_false. intros (y & Hy & Ey)%existsb_exists. apply elem_of_list_In in Hy.
          apply (slots_none _ _ _ E y Hy). unfold same_sym in Ey. lia. }
        rewrite Hex in Hn. rewrite Hn in *. destruct (Hpre nodes (done ++ [n])) as [r Er]. rewrite Hn in Er.
        pose proof (add_ok hashs set _ n HS) as A. rewrite E in A. 
        destruct A as (set' & Ea & Sr); [rewrite Er, !app_length in HL; cbn in HL; lia|].
        exists set', (N.of_nat (length (nub same_sym done))). split; [done|]. split; [done|].
        exists n. split; [|apply same_sym_refl]. rewrite Nat2N.id. by apply list_lookup_middle. }
    destruct Hstep as (set' & k & -> & HS' & n' & Hk & En). cbn [tbind fst snd].
    destruct (IH set' (done ++ [n]) HS' HC HL) as (set2 & ids & -> & HS2 & Hlen & Hids). cbn [tbind fst snd].
    exists set2, (k :: ids). split; [done|]. split; [done|]. split; [cbn; lia|].
    intros [|i] m j; cbn [lookup list_lookup].
    + intros [= <-] [= <-]. exists n'. split; [|done]. destruct (Hpre nodes (done ++ [n])) as [r ->].
      by apply lookup_app_l_Some.
    + apply Hids.
Qed.
End adds.
