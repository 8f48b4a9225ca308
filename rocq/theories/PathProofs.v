From Coq Require Import NArith Lia.
From stdpp Require Import numbers list.
From Verif Require Import StrModel StrSpec StrProofs PathModel PathSpec.
From Coq Require Import ZifyBool ZifyNat ZifyN.

Lemma occurs_sep p i : occurs p [sep] i <-> p !! i = Some sep.
Proof.
  unfold occurs. split.
  - intros (a & b & -> & <-). by rewrite lookup_app_r, Nat.sub_diag by lia.
  - intros E. exists (take i p), (drop (S i) p). split; [by rewrite <- (take_drop_middle p i sep E) at 1|].
    apply take_length_le. apply lookup_lt_Some in E. lia.
Qed.
(** The two parts around the last separator. *)
Lemma parts p :
  (exists d b, p = d ++ sep :: b /\ sep ∉ b /\ dirname p = SOk d /\ basename p = SOk b) \/
  (sep ∉ p /\ dirname p = SOk p /\ basename p = SOk p).
Proof.
  unfold dirname, basename. destruct (rfind_ok p DIR_SEPARATOR ltac:(done)) as (r & E & L). rewrite E.
  destruct r as [i|]; cbn in L.
  - left. destruct L as [O M]. apply occurs_sep in O. assert (Lt := lookup_lt_Some _ _ _ O).
    exists (take i p), (drop (S i) p). split; [by rewrite take_drop_middle|]. split.
    + intros X. apply elem_of_list_lookup in X as [j X]. rewrite lookup_drop in X.
      assert (H : occurs p [sep] (S i + j)) by by apply occurs_sep. apply M in H. lia.
    + unfold substr. rewrite drop_0, Nat.sub_0_r. replace (0 <=? length p) with true by lia.
      replace (i <=? length p) with true by lia. split; [done|].
      replace (i + 1) with (S i) by lia. replace (S i <=? length p) with true by lia.
      rewrite take_ge by (rewrite drop_length; lia). done.
  - right. split; [|done]. intros X. apply elem_of_list_lookup in X as [j X]. apply (L j). by apply occurs_sep.
Qed.
Lemma join_ok p s : nul_free p ->
  (exists q, p = q ++ [sep] /\ join p s = SOk (p ++ s)) \/
  ((forall q, p <> q ++ [sep]) /\ join p s = SOk (p ++ sep :: s)).
Proof.
  intros Hn. unfold join. destruct (endswith_ok p DIR_SEPARATOR Hn) as (b & E & B). rewrite E. destruct b.
  - left. destruct (proj1 B eq_refl) as [q ->]. by exists q.
  - right. split; [|done]. intros q ->. assert (false = true) by (apply B; by exists q). done.
Qed.
Lemma collapse_cons c d r : collapse (c :: d :: r) = if decide (c = sep /\ d = sep) then collapse (d :: r) else c :: collapse (d :: r).
Proof. done. Qed.
Lemma collapse_double a b : collapse (a ++ sep :: sep :: b) = collapse (a ++ sep :: b).
Proof.
  induction a as [|c a IH]; [done|].
  destruct a as [|d a]; cbn [app].
  - cbn [app] in IH. rewrite !(collapse_cons c), IH. done.
  - cbn [app] in IH. rewrite !(collapse_cons c), IH. done.
Qed.
Lemma nul_free_app a b : nul_free (a ++ b) <-> nul_free a /\ nul_free b.
Proof. apply Forall_app. Qed.
Lemma round_trip p : nul_free p -> sep ∈ p -> exists d b, dirname p = SOk d /\ basename p = SOk b /\
  exists q, join d b = SOk q /\ same_path q p /\ (q = p <-> forall d', d <> d' ++ [sep]).
Proof.
  intros Hn Hs. destruct (parts p) as [(d & b & -> & Hb & E1 & E2)|(H & _)]; [|done].
  exists d, b. split; [done|]. split; [done|]. apply nul_free_app in Hn as [Hd _].
  destruct (join_ok d b Hd) as [(q & -> & E)|[Hq E]].
  - exists ((q ++ [sep]) ++ b). split; [done|]. unfold same_path. rewrite <- !app_assoc. cbn [app].
    rewrite collapse_double. split; [done|]. split.
    + intros X. apply (f_equal length) in X. rewrite !app_length in X. cbn in X. lia.
    + intros X. by destruct (X q).
  - exists (d ++ sep :: b). split; [done|]. split; [done|]. split; [|done]. intros _. done.
Qed.
Lemma no_sep_join p : nul_free p -> sep ∉ p ->
  dirname p = SOk p /\ basename p = SOk p /\ join p p = SOk (p ++ sep :: p).
Proof.
  intros Hn Hs. destruct (parts p) as [(d & b & -> & _)|(_ & E1 & E2)].
  { exfalso. apply Hs. apply elem_of_app. right. left. }
  split; [done|]. split; [done|]. destruct (join_ok p p Hn) as [(q & -> & _)|[_ E]]; [|done].
  exfalso. apply Hs. apply elem_of_app. right. left.
Qed.
Lemma lat {A} (a l : list A) i k : i = length a + k -> (a ++ l) !! i = l !! k.
Proof. intros ->. rewrite lookup_app_r by lia. f_equal. lia. Qed.
Lemma doubled_at p : doubled p <-> exists i, p !! i = Some sep /\ p !! S i = Some sep.
Proof.
  split.
  - intros (a & b & ->). exists (length a). split; [by rewrite (lat _ _ _ 0) by lia|by rewrite (lat _ _ _ 1) by lia].
  - intros (i & E1 & E2). exists (take i p), (drop (S (S i)) p).
    rewrite <- (take_drop_middle p i sep E1) at 1. f_equal. cbn. f_equal.
    by rewrite (drop_S p sep (S i) E2).
Qed.
Lemma join_doubled p s : nul_free p -> exists q, join p s = SOk q /\
  (doubled q <-> doubled p \/ doubled s \/ exists t, s = sep :: t).
Proof.
  intros Hn. destruct (join_ok p s Hn) as [(q & Hq & E)|[Hq E]]; eexists; (split; [exact E|]).
  - rewrite !doubled_at. split.
    + intros (i & E1 & E2). destruct (decide (S i < length p)).
      * rewrite lookup_app_l in E1 by lia. rewrite lookup_app_l in E2 by lia. left. by exists i.
      * rewrite lookup_app_r in E2 by lia. destruct (decide (i < length p)).
        { replace (S i - length p) with 0 in E2 by lia. right. right. destruct s as [|c s]; [done|]. injection E2 as ->. by exists s. }
        { rewrite lookup_app_r in E1 by lia. right. left. exists (i - length p). by replace (S (i - length p)) with (S i - length p) by lia. }
    + intros [(i & E1 & E2)|[(i & E1 & E2)|[t ->]]].
      * exists i. split; by apply lookup_app_l_Some.
      * exists (length p + i). split; [by rewrite (lat _ _ _ i) by lia|by rewrite (lat _ _ _ (S i)) by lia].
      * exists (length q). rewrite Hq, <- app_assoc. split; [by rewrite (lat _ _ _ 0) by lia|by rewrite (lat _ _ _ 1) by lia].
  - rewrite !doubled_at. split.
    + intros (i & E1 & E2). destruct (decide (S i < length p)).
      * rewrite lookup_app_l in E1 by lia. rewrite lookup_app_l in E2 by lia. left. by exists i.
      * rewrite lookup_app_r in E2 by lia. destruct (decide (i < length p)).
        { exfalso. rewrite lookup_app_l in E1 by lia. apply (Hq (take i p)).
          rewrite <- (take_drop_middle p i sep E1) at 1. f_equal. f_equal. apply drop_ge. lia. }
        { rewrite lookup_app_r in E1 by lia. replace (S i - length p) with (S (i - length p)) in E2 by lia. cbn in E2.
          destruct (i - length p) as [|k]; [right; right; destruct s as [|c s]; [done|]; injection E2 as ->; by exists s|].
          right. left. by exists k. }
    + intros [(i & E1 & E2)|[(i & E1 & E2)|[t ->]]].
      * exists i. split; by apply lookup_app_l_Some.
      * exists (length p + S i). split; [by rewrite (lat _ _ _ (S i)) by lia|by rewrite (lat _ _ _ (S (S i))) by lia].
      * exists (length p). split; [by rewrite (lat _ _ _ 0) by lia|by rewrite (lat _ _ _ 1) by lia].
Qed.
