From Coq Require Import ZArith ZifyBool ZifyNat ZifyN.
From stdpp Require Import numbers list.
From Verif Require Import StrModel StrSpec.
Local Open Scope nat_scope.
Ltac Zify.zify_post_hook ::= Z.div_mod_to_equations.

(** ** Occurrences *)
Lemma occurs_iff s part i :
  occurs s part i <-> i + length part <= length s /\ take (length part) (drop i s) = part.
Proof.
  split.
  - intros (a & b & -> & <-). rewrite !app_length. split; [lia|].
    by rewrite drop_app, take_app.
  - intros [Hl He]. exists (take i s), (drop (length part) (drop i s)).
    split; [|rewrite take_length; lia].
    rewrite <- He at 1. by rewrite take_drop, take_drop.
Qed.
Lemma memcmp_at_spec s j part :
  j + length part <= length s ->
  exists b, memcmp_at s j part = SOk b /\ (b = true <-> occurs s part j).
Proof.
  intros H. unfold memcmp_at. rewrite (proj2 (Nat.leb_le _ _)) by lia.
  eexists. split; [done|]. rewrite bool_decide_eq_true, occurs_iff. tauto.
Qed.
Lemma occurs_bound s part j : occurs s part j -> j + length part <= length s.
Proof. by intros [? _]%occurs_iff. Qed.

Lemma find_loop_ok s part : length part <> 0 -> forall i j,
  i + j = length s -> (forall k, occurs s part k -> j <= k) ->
  exists r, find_loop s part i j = SOk r /\ first_occurrence s part r.
Proof.
  intros Hp. induction i as [|i IH]; intros j Hij Hlow; cbn [find_loop].
  - exists None. split; [done|]. intros k Hk. specialize (Hlow k Hk). apply occurs_bound in Hk. lia.
  - destruct (length part <=? S i) eqn:E.
    + destruct (memcmp_at_spec s j part) as (b & -> & Hb); [lia|].
      destruct b.
      * exists (Some j). split; [done|]. split; [tauto|done].
      * apply IH; [lia|]. intros k Hk. specialize (Hlow k Hk).
        destruct (decide (k = j)) as [-> |]; [|lia]. exfalso. apply Hb in Hk. done.
    + exists None. split; [done|]. intros k Hk. specialize (Hlow k Hk). apply occurs_bound in Hk. lia.
Qed.
Lemma find_ok s part : part <> [] -> exists r, find s part = SOk r /\ first_occurrence s part r.
Proof.
  intros Hp. unfold find. destruct part as [|p part]; [done|]. cbn [length Nat.eqb].
  apply find_loop_ok; [done|lia|intros; lia].
Qed.
Lemma rfind_loop_ok s part : length part <= length s -> forall n,
  n + length part <= S (length s) -> (forall k, occurs s part k -> k < n) ->
  exists r, rfind_loop s part n = SOk r /\ last_occurrence s part r.
Proof.
  intros Hl. induction n as [|n IH]; intros Hn Hup; cbn [rfind_loop].
  - exists None. split; [done|]. intros k Hk. specialize (Hup k Hk). lia.
  - destruct (memcmp_at_spec s n part) as (b & -> & Hb); [lia|]. destruct b.
    + exists (Some n). split; [done|]. split; [tauto|]. intros k Hk. specialize (Hup k Hk). lia.
    + apply IH; [lia|]. intros k Hk. specialize (Hup k Hk).
      destruct (decide (k = n)) as [-> |]; [|lia]. exfalso. apply Hb in Hk. done.
Qed.
Lemma rfind_ok s part : part <> [] -> exists r, rfind s part = SOk r /\ last_occurrence s part r.
Proof.
  intros Hp. unfold rfind. destruct (length part <=? length s) eqn:E.
  - replace (length part =? 0) with false by (destruct part; [done|reflexivity]).
    apply rfind_loop_ok; [lia|lia|]. intros k Hk%occurs_bound. lia.
  - exists None. split; [done|]. intros k Hk%occurs_bound. lia.
Qed.

Lemma occurs_char s c i : occurs s [c] i <-> s !! i = Some c.
Proof.
  split.
  - intros (a & b & -> & <-). cbn. by rewrite list_lookup_middle.
  - intros H. exists (take i s), (drop (S i) s). split.
    + cbn. symmetry. by apply take_drop_middle.
    + apply take_length_le. apply lookup_lt_Some in H. lia.
Qed.
Lemma indexOf_loop_ok s ch : forall k,
  match indexOf_loop s ch k with
  | Some i => exists j, i = k + j /\ s !! j = Some ch /\ forall j', s !! j' = Some ch -> j <= j'
  | None => forall j, s !! j <> Some ch
  end.
Proof.
  induction s as [|c s IH]; intros k; cbn [indexOf_loop]; [done|].
  destruct (N.eqb_spec c ch) as [-> |Hne].
  - exists 0. split; [lia|]. split; [done|]. intros; lia.
  - specialize (IH (S k)). destruct (indexOf_loop s ch (S k)) as [i|].
    + destruct IH as (j & -> & Hj & Hm). exists (S j). split; [lia|]. split; [done|].
      intros [|j'] H; [cbn in H; congruence|]. specialize (Hm j' H). lia.
    + intros [|j] H; [cbn in H; congruence|]. by apply (IH j).
Qed.
Lemma indexOf_ok s ch : first_occurrence s [ch] (indexOf s ch).
Proof.
  unfold indexOf. assert (H := indexOf_loop_ok s ch 0). destruct (indexOf_loop s ch 0) as [i|]; cbn.
  - destruct H as (j & -> & Hj & Hm). rewrite occurs_char. split; [done|]. intros k Hk%occurs_char. by apply Hm.
  - intros j Hj%occurs_char. by apply (H j).
Qed.
Lemma rIndexOf_loop_ok s ch n :
  (forall j, s !! j = Some ch -> j <= n) ->
  match rIndexOf_loop s ch n with
  | Some i => 0 < i /\ s !! i = Some ch /\ forall j, s !! j = Some ch -> j <= i
  | None => forall j, s !! j = Some ch -> j = 0
  end.
Proof.
  induction n as [|n IH]; intros H; cbn [rIndexOf_loop].
  - intros j Hj. specialize (H j Hj). lia.
  - case_bool_decide as E.
    + split; [lia|]. done.
    + apply IH. intros j Hj. specialize (H j Hj). destruct (decide (j = S n)) as [-> |]; [done|lia].
Qed.
(** The exact behaviour of rIndexOf: index 0 is never reported. *)
Lemma rIndexOf_exact s ch :
  last_occurrence s [ch] (rIndexOf s ch) <-> ~ (s !! 0 = Some ch /\ forall j, 0 < j -> s !! j <> Some ch).
Proof.
  assert (H : match rIndexOf s ch with
              | Some i => 0 < i /\ s !! i = Some ch /\ forall j, s !! j = Some ch -> j <= i
              | None => forall j, s !! j = Some ch -> j = 0 end).
  { unfold rIndexOf. destruct s as [|c s]; [done|]. cbn [length Nat.eqb].
    apply rIndexOf_loop_ok. intros j Hj%lookup_lt_Some. cbn in Hj. lia. }
  destruct (rIndexOf s ch) as [i|]; cbn.
  - destruct H as (Hi & Hs & Hm). split; [|intros _].
    + intros _ [_ Hno]. by apply (Hno i).
    + rewrite occurs_char. split; [done|]. intros j Hj%occurs_char. auto.
  - split.
    + intros Hno [H0 _]. apply (Hno 0). by apply occurs_char.
    + intros Hn j Hj%occurs_char. apply Hn. assert (j = 0) by auto. subst. split; [done|].
      intros k Hk Hs. specialize (H k Hs). lia.
Qed.

(** ** Comparison *)
Lemma strncmp_eq a b : length a = length b -> nul_free a ->
  exists z, strncmp (length a) a b = SOk z /\ (z = 0%Z <-> a = b).
Proof.
  revert b. induction a as [|x a IH]; intros [|y b] Hl Hn; cbn in Hl; try lia.
  - exists 0%Z. by cbn.
  - apply Forall_cons_1 in Hn as [Hx Hn]. cbn. destruct (N.eqb_spec x y) as [-> |Hne]; cbn.
    + rewrite (proj2 (N.eqb_neq y 0) Hx). destruct (IH b ltac:(lia) Hn) as (z & -> & Hz).
      exists z. split; [done|]. rewrite Hz. split; [by intros -> |]. by injection 1.
    + eexists. split; [done|]. split; [lia|]. injection 1. congruence.
Qed.
Lemma str_compare_eq a b : nul_free a -> exists z, str_compare a b = SOk z /\ (z = 0%Z <-> a = b).
Proof.
  intros Hn. unfold str_compare. destruct (length a =? length b) eqn:E.
  - apply strncmp_eq; [lia|done].
  - destruct (length a <? length b); eexists; (split; [done|]); (split; [lia|]); intros ->; lia.
Qed.
(** Always: it never fails, is antisymmetric and transitive. *)
Lemma strncmp_total n : forall a b, n <= length a -> n <= length b -> exists z, strncmp n a b = SOk z.
Proof.
  induction n as [|n IH]; intros a b Ha Hb; [by eexists|].
  destruct a as [|x a], b as [|y b]; cbn in *; try lia.
  destruct (x =? y)%N; cbn; [|by eexists]. destruct (x =? 0)%N; [by eexists|]. apply IH; lia.
Qed.
Lemma strncmp_anti n : forall a b z w, strncmp n a b = SOk z -> strncmp n b a = SOk w -> w = (- z)%Z.
Proof.
  induction n as [|n IH]; intros a b z w Hz Hw; cbn in *; [by simplify_eq|].
  destruct a as [|x a], b as [|y b]; try done.
  rewrite (N.eqb_sym y x) in Hw.
  destruct (N.eqb_spec x y) as [-> |]; cbn in *; [|simplify_eq; lia].
  destruct (y =? 0)%N; [by simplify_eq|]. by eapply IH.
Qed.
Lemma strncmp_trans n : forall a b c x y z,
  strncmp n a b = SOk x -> strncmp n b c = SOk y -> strncmp n a c = SOk z ->
  (x <= 0 -> y <= 0 -> z <= 0)%Z /\ (x < 0 -> y <= 0 -> z < 0)%Z /\ (x <= 0 -> y < 0 -> z < 0)%Z.
Proof.
  induction n as [|n IH]; intros a b c x y z Hx Hy Hz; cbn in *; [simplify_eq; lia|].
  destruct a as [|p a], b as [|q b], c as [|r c]; try done.
  destruct (N.eqb_spec p q) as [-> |]; cbn in *.
  - destruct (N.eqb_spec q r) as [-> |]; cbn in *.
    + destruct (r =? 0)%N; [simplify_eq; lia|]. by eapply IH.
    + destruct (q =? 0)%N eqn:E; cbn in *; simplify_eq; [lia|].
      assert (q <> 0%N) by lia. lia.
  - destruct (N.eqb_spec q r) as [-> |]; cbn in *.
    + destruct (N.eqb_spec p r); [done|]. cbn in *. destruct (r =? 0)%N; simplify_eq; lia.
    + destruct (N.eqb_spec p r); cbn in *; simplify_eq; lia.
Qed.
Lemma str_compare_total a b : exists z, str_compare a b = SOk z.
Proof.
  unfold str_compare. destruct (length a =? length b) eqn:E; [apply strncmp_total; lia|].
  destruct (_ <? _); by eexists.
Qed.
Lemma str_compare_anti a b z w : str_compare a b = SOk z -> str_compare b a = SOk w -> w = (- z)%Z.
Proof.
  unfold str_compare. rewrite (Nat.eqb_sym (length b)). destruct (length a =? length b) eqn:E.
  - replace (length b) with (length a) by lia. apply strncmp_anti.
  - destruct (length a <? length b) eqn:E1, (length b <? length a) eqn:E2; intros; simplify_eq; lia.
Qed.
Lemma str_compare_trans a b c x y z :
  str_compare a b = SOk x -> str_compare b c = SOk y -> str_compare a c = SOk z ->
  (x <= 0)%Z -> (y <= 0)%Z -> (z <= 0)%Z.
Proof.
  unfold str_compare. intros Hx Hy Hz.
  destruct (length a =? length b) eqn:E1, (length b =? length c) eqn:E2, (length a =? length c) eqn:E3;
    try (exfalso; lia).
  - replace (length b) with (length a) in Hy by lia.
    assert (H := strncmp_trans _ _ _ _ _ _ _ Hx Hy Hz). lia.
  - destruct (length b <? length c) eqn:E4, (length a <? length c) eqn:E5; simplify_eq; lia.
  - destruct (length a <? length b) eqn:E4, (length a <? length c) eqn:E5; simplify_eq; lia.
  - destruct (length a <? length b) eqn:E4, (length b <? length c) eqn:E5; simplify_eq; lia.
  - destruct (length a <? length b) eqn:E4, (length b <? length c) eqn:E5, (length a <? length c) eqn:E6; simplify_eq; lia.
Qed.

(** [String.compare] *)
Lemma schar_inj x y : (x < 256 -> y < 256 -> schar x = schar y -> x = y)%N.
Proof. unfold schar. intros Hx Hy. destruct (x <? 128)%N eqn:E1, (y <? 128)%N eqn:E2; lia. Qed.
Notation is_bytes s := (Forall (fun c : N => (c < 256)%N) s).
Lemma bytes_compare_eq a b : length a = length b -> is_bytes a -> is_bytes b ->
  bytes_compare a b = 0%Z <-> a = b.
Proof.
  revert b. induction a as [|x a IH]; intros [|y b] Hl Ha Hb; cbn in Hl; try lia; [done|].
  apply Forall_cons_1 in Ha as [Hx Ha], Hb as [Hy Hb]. cbn. destruct (N.eqb_spec x y) as [-> |Hne].
  - rewrite IH by (done || lia). split; [by intros -> |]. by injection 1.
  - split; [|by injection 1]. intros H. exfalso. apply Hne, schar_inj; [done|done|lia].
Qed.
Lemma bytes_compare_anti a b : bytes_compare b a = (- bytes_compare a b)%Z.
Proof.
  revert b. induction a as [|x a IH]; intros [|y b]; try done. cbn. rewrite (N.eqb_sym y x).
  destruct (N.eqb_spec x y); [done|]. lia.
Qed.
Lemma bytes_compare_trans a b c : is_bytes a -> is_bytes b -> is_bytes c ->
  length a = length b -> length b = length c ->
  ((bytes_compare a b <= 0 -> bytes_compare b c <= 0 -> bytes_compare a c <= 0) /\
  (bytes_compare a b < 0 -> bytes_compare b c <= 0 -> bytes_compare a c < 0) /\
  (bytes_compare a b <= 0 -> bytes_compare b c < 0 -> bytes_compare a c < 0))%Z.
Proof.
  revert b c. induction a as [|x a IH]; intros [|y b] [|z c] Ha Hb Hc H1 H2; cbn in *; try lia.
  apply Forall_cons_1 in Ha as [Hx Ha], Hb as [Hy Hb], Hc as [Hz Hc].
  destruct (N.eqb_spec x y) as [-> |N1].
  - destruct (N.eqb_spec y z) as [-> |N2]; [apply IH; done || lia|].
    assert (schar y <> schar z) by (intros E; apply N2; by apply schar_inj). lia.
  - assert (schar x <> schar y) by (intros E; apply N1; by apply schar_inj).
    destruct (N.eqb_spec y z) as [-> |N2].
    + destruct (N.eqb_spec x z); [done|]. lia.
    + assert (schar y <> schar z) by (intros E; apply N2; by apply schar_inj).
      destruct (N.eqb_spec x z) as [-> |N3]; [|lia]. lia.
Qed.
Lemma size_compare_small n m :
  (0 <= n < 2 ^ 31)%Z -> (0 <= m < 2 ^ 31)%Z -> size_compare n m = (n - m)%Z.
Proof. unfold size_compare, to_i32. change (2 ^ 31)%Z with 2147483648%Z. change (2 ^ 32)%Z with 4294967296%Z. lia. Qed.
Lemma String_compare_eq a b : is_bytes a -> is_bytes b ->
  (Z.of_nat (length a) < 2 ^ 31)%Z -> (Z.of_nat (length b) < 2 ^ 31)%Z ->
  String_compare a b = 0%Z <-> a = b.
Proof.
  intros Ha Hb H1 H2. unfold String_compare. destruct (length a =? length b) eqn:E.
  - apply bytes_compare_eq; [lia|done..].
  - rewrite size_compare_small by lia. split; [lia|]. intros ->. lia.
Qed.
Lemma String_compare_anti a b :
  (Z.of_nat (length a) < 2 ^ 31)%Z -> (Z.of_nat (length b) < 2 ^ 31)%Z ->
  String_compare b a = (- String_compare a b)%Z.
Proof.
  intros H1 H2. unfold String_compare. rewrite (Nat.eqb_sym (length b)).
  destruct (length a =? length b) eqn:E; [apply bytes_compare_anti|].
  rewrite !size_compare_small by lia. lia.
Qed.
Lemma String_compare_trans a b c : is_bytes a -> is_bytes b -> is_bytes c ->
  (Z.of_nat (length a) < 2 ^ 31)%Z -> (Z.of_nat (length b) < 2 ^ 31)%Z -> (Z.of_nat (length c) < 2 ^ 31)%Z ->
  (String_compare a b <= 0)%Z -> (String_compare b c <= 0)%Z -> (String_compare a c <= 0)%Z.
Proof.
  intros Ha Hb Hc H1 H2 H3. unfold String_compare.
  destruct (length a =? length b) eqn:E1, (length b =? length c) eqn:E2, (length a =? length c) eqn:E3;
    try (exfalso; lia); rewrite ?size_compare_small by lia; try lia.
  apply bytes_compare_trans; done || lia.
Qed.

(** ** Prefixes, suffixes, trimming *)
Lemma str_eq_ok a b : nul_free a -> str_eq a b = SOk (bool_decide (a = b)).
Proof.
  intros Hn. unfold str_eq. destruct (str_compare_eq a b Hn) as (z & -> & Hz). f_equal.
  destruct (Z.eqb_spec z 0) as [E|E]; case_bool_decide; tauto.
Qed.
Lemma nul_free_sub n m s : nul_free s -> nul_free (take n (drop m s)).
Proof. intros H. by apply Forall_take, Forall_drop. Qed.
Lemma startswith_ok s p : nul_free s ->
  exists b, startswith s p = SOk b /\ (b = true <-> exists t, s = p ++ t).
Proof.
  intros Hn. unfold startswith. destruct (length s <? length p) eqn:E.
  - eexists. split; [done|]. split; [done|]. intros [t ->]. rewrite app_length in E. lia.
  - unfold substr. cbn [Nat.leb]. rewrite (proj2 (Nat.leb_le _ _)) by lia.
    rewrite str_eq_ok by by apply nul_free_sub. eexists. split; [done|].
    rewrite bool_decide_eq_true. rewrite drop_0. split.
    + intros H. exists (drop (length p) s). rewrite <- H at 1. by rewrite take_drop.
    + intros [t ->]. by rewrite take_app.
Qed.
Lemma endswith_ok s p : nul_free s ->
  exists b, endswith s p = SOk b /\ (b = true <-> exists t, s = t ++ p).
Proof.
  intros Hn. unfold endswith. destruct (length s <? length p) eqn:E.
  - eexists. split; [done|]. split; [done|]. intros [t ->]. rewrite app_length in E. lia.
  - unfold substr. rewrite (proj2 (Nat.leb_le _ _)) by lia.
    rewrite str_eq_ok by by apply nul_free_sub. eexists. split; [done|].
    rewrite bool_decide_eq_true.
    rewrite take_ge by (rewrite drop_length; lia). split.
    + intros H. exists (take (length s - length p) s). rewrite <- (take_drop (length s - length p) s) at 1. by rewrite H.
    + intros [t ->]. rewrite app_length. replace (length t + length p - length p) with (length t) by lia.
      by rewrite drop_app.
Qed.

Lemma trimLeft_ok s : exists a, s = a ++ trimLeft s /\ Forall (fun c => isSpace c = true) a /\
  forall c, head (trimLeft s) = Some c -> isSpace c = false.
Proof.
  induction s as [|c s (a & E & Ha & Hh)]; cbn.
  - exists []. by repeat split.
  - destruct (isSpace c) eqn:Ec.
    + exists (c :: a). split; [cbn; by f_equal|]. split; [by constructor|done].
    + exists []. split; [done|]. split; [constructor|]. cbn. intros x. by injection 1 as <-.
Qed.
Lemma trimRight_loop_ok s i : i <= length s ->
  let k := trimRight_loop s i in
  k <= i /\ (forall j c, k <= j < i -> s !! j = Some c -> isSpace c = true) /\
  (forall c, 0 < k -> s !! (k - 1) = Some c -> isSpace c = false).
Proof.
  induction i as [|i IH]; intros Hi; cbn.
  - split; [lia|]. split; [intros; lia|]. intros; lia.
  - destruct (s !! i) as [c|] eqn:E.
    + destruct (isSpace c) eqn:Ec.
      * destruct (IH ltac:(lia)) as (H1 & H2 & H3). split; [lia|]. split; [|done].
        intros j d Hj Hd. destruct (decide (j = i)) as [-> |]; [congruence|]. apply (H2 j); [lia|done].
      * split; [lia|]. split; [intros; lia|]. intros d _ Hd. replace (S i - 1) with i in Hd by lia. congruence.
    + apply lookup_ge_None in E. lia.
Qed.
Lemma trimRight_ok s : exists b, s = trimRight s ++ b /\ Forall (fun c => isSpace c = true) b /\
  forall c, last (trimRight s) = Some c -> isSpace c = false.
Proof.
  unfold trimRight. destruct (trimRight_loop_ok s (length s) ltac:(lia)) as (H1 & H2 & H3).
  set (k := trimRight_loop s (length s)) in *. exists (drop k s). split; [by rewrite take_drop|]. split.
  - apply Forall_lookup. intros j c Hj. rewrite lookup_drop in Hj. apply (H2 (k + j) c); [|done].
    apply lookup_lt_Some in Hj. lia.
  - intros c Hc. rewrite last_lookup, take_length in Hc. replace (min k (length s)) with k in Hc by lia.
    destruct k as [|k]; [cbn in Hc; rewrite take_0 in Hc; done|]. cbn in Hc.
    apply (H3 c); [lia|]. replace (S k - 1) with k by lia. rewrite lookup_take in Hc by lia. done.
Qed.
Lemma trim_ok s : stripped isSpace s (trim s).
Proof.
  unfold trim. destruct (trimLeft_ok s) as (a & E & Ha & Hh).
  destruct (trimRight_ok (trimLeft s)) as (b & E2 & Hb & Hl).
  exists a, b. split; [by rewrite <- E2|]. split; [done|]. split; [done|]. split; [|done].
  intros c Hc. apply Hh. rewrite E2. destruct (trimRight (trimLeft s)); [done|]. done.
Qed.

(** ** What happens in the remaining cases *)
Lemma strncmp_zero_iff n : forall a b, length a = n -> length b = n ->
  strncmp n a b = SOk 0%Z <-> before_nul a = before_nul b.
Proof.
  induction n as [|n IH]; intros [|x a] [|y b] Ha Hb; cbn in *; try lia; [done|].
  destruct (N.eqb_spec x y) as [-> |Hne]; cbn.
  - destruct (N.eqb_spec y 0) as [-> |Hy].
    + by destruct (decide (0 = 0)%N).
    + destruct (decide (y = 0%N)); [done|]. rewrite IH by lia. split; [by intros -> |]. by injection 1.
  - split.
    + injection 1. lia.
    + destruct (decide (x = 0%N)), (decide (y = 0%N)); try done; [congruence|]. by injection 1.
Qed.
Lemma str_compare_exact a b :
  str_compare a b = SOk 0%Z <-> length a = length b /\ before_nul a = before_nul b.
Proof.
  unfold str_compare. destruct (length a =? length b) eqn:E.
  - rewrite strncmp_zero_iff by lia. assert (length a = length b) by lia. tauto.
  - destruct (_ <? _); (split; [done|]); lia.
Qed.
Lemma occurs_nil s i : occurs s [] i <-> i <= length s.
Proof. rewrite occurs_iff. cbn. rewrite take_0. split; [lia|]. split; [lia|done]. Qed.
Lemma find_exact s part :
  (exists r, find s part = SOk r /\ first_occurrence s part r) <-> part <> [] \/ length s = 1.
Proof.
  split.
  - intros (r & Hf & Hr). destruct part as [|p part]; [|by left]. right.
    unfold find in Hf. cbn in Hf. simplify_eq. destruct s as [|c s]; cbn in *.
    + exfalso. apply (Hr 0). by apply occurs_nil.
    + destruct Hr as [_ Hr]. specialize (Hr 0). rewrite occurs_nil in Hr. lia.
  - intros [H|H].
    + by apply find_ok.
    + destruct part as [|p part]; [|by apply find_ok]. exists (Some 0). unfold find. rewrite H. cbn. split; [done|].
      rewrite occurs_nil. split; [lia|]. intros; lia.
Qed.
Lemma rfind_exact s part :
  (exists r, rfind s part = SOk r /\ last_occurrence s part r) <-> part <> [].
Proof.
  split; [|apply rfind_ok].
  intros (r & Hf & Hr) ->. unfold rfind in Hf. cbn in Hf. simplify_eq.
  destruct s as [|c s]; cbn in *.
  - apply (Hr 0). by apply occurs_nil.
  - destruct Hr as [_ Hr]. specialize (Hr (S (length s))). rewrite occurs_nil in Hr. cbn in Hr. lia.
Qed.
Lemma size_wrap a b : (Z.of_nat (length a) = Z.of_nat (length b) + 2 ^ 32)%Z -> String_compare a b = 0%Z.
Proof.
  intros H. unfold String_compare. rewrite (proj2 (Nat.eqb_neq _ _)) by lia.
  unfold size_compare. rewrite H.
  replace (Z.of_nat (length b) + 2 ^ 32 - Z.of_nat (length b))%Z with (2 ^ 32)%Z by lia. reflexivity.
Qed.
Lemma size_wrap_witness (n : nat) : Z.of_nat n = (2 ^ 32)%Z ->
  exists a : list N, String_compare a [] = 0%Z /\ a <> [].
Proof.
  intros Hn. exists (repeat 1%N n). split.
  - apply size_wrap. rewrite repeat_length, Hn. done.
  - intros H. apply (f_equal length) in H. rewrite repeat_length in H. cbn [length] in H. subst n. done.
Qed.
Lemma isSpace_white c : isSpace c = white c.
Proof.
  unfold isSpace, white. apply eq_bool_prop_intro. rewrite bool_decide_spec.
  rewrite !elem_of_cons, elem_of_nil. split; intros H; [apply Is_true_true in H|apply Is_true_true]; lia.
Qed.
Lemma stripped_ext f g s m : (forall c, f c = g c) -> stripped f s m -> stripped g s m.
Proof.
  intros E (a & b & -> & Ha & Hb & H1 & H2). exists a, b. split_and!; try done.
  - eapply Forall_impl; [exact Ha|]. intros c. cbn. by rewrite E.
  - eapply Forall_impl; [exact Hb|]. intros c. cbn. by rewrite E.
  - intros c Hc. rewrite <- E. by apply H1.
  - intros c Hc. rewrite <- E. by apply H2.
Qed.
