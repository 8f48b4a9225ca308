From Coq Require Import NArith Lia.
From stdpp Require Import numbers list.
From Verif Require Import TrieModel TrieSpec.

Section p.
Context {V : Type}.
Implicit Types n : node V.
(** The data stored at the end of the path [k]. *)
Fixpoint at_path n (k : list N) : option V :=
  match k with
  | [] => data n
  | c :: k => match get n c with Some sub => at_path sub k | None => None end
  end.
Lemma child_put (cs : list (N * node V)) c x d : child (put cs c x) d = if decide (d = c) then Some x else child cs d.
Proof.
  induction cs as [|[e m] cs IH]; cbn.
  - done.
  - destruct (decide (c = e)) as [-> |Hce]; cbn.
    + destruct (decide (d = e)); done.
    + rewrite IH. destruct (decide (d = e)) as [-> |]; [|done]. by rewrite decide_False by done.
Qed.
Lemma at_new k : at_path new_node k = None.
Proof. destruct k; done. Qed.
Lemma add_path k v : forall n,
  match add n k v with
  | Some n' => at_path n k = None /\ forall k', at_path n' k' = if decide (k' = k) then Some v else at_path n k'
  | None => is_Some (at_path n k)
  end.
Proof.
  induction k as [|c k IH]; intros [d cs]; cbn [add].
  - destruct d as [w|]; [by exists w|]. split; [done|]. intros [|c k']; done.
  - set (sub := match child cs c with Some sub => sub | None => new_node end).
    assert (Hs : forall k', at_path (Node d cs) (c :: k') = at_path sub k').
    { intros k'. cbn. unfold sub. destruct (child cs c); [done|]. by rewrite at_new. }
    specialize (IH sub). destruct (add sub k v) as [sub'|].
    + destruct IH as [IH1 IH2]. split; [by rewrite Hs|]. intros [|e k']; [done|].
      destruct (decide (e = c)) as [-> |Hec].
      * rewrite Hs. cbn. rewrite child_put, decide_True by done. rewrite IH2.
        destruct (decide (k' = k)) as [-> |]; [by rewrite decide_True|]. rewrite decide_False by congruence. done.
      * cbn. rewrite child_put, decide_False by done. by rewrite decide_False by congruence.
    + by rewrite Hs.
Qed.
Lemma add_all_path ks : forall n,
  (exists n', add_all n ks = Some n' /\ forall k v, at_path n' k = Some v <-> at_path n k = Some v \/ registered ks k v)
  <-> NoDup (ks.*1) /\ forall k, k ∈ ks.*1 -> at_path n k = None.
Proof.
  induction ks as [|[k v] ks IH]; intros n; cbn [add_all fmap list_fmap fst].
  - split; [|intros _; exists n; split; [done|]].
    + intros _. split; [apply NoDup_nil_2|]. intros k X. by apply elem_of_nil in X.
    + intros k v. split; [by left|]. intros [|X]; [done|]. by apply elem_of_nil in X.
  - assert (G := add_path k v n). destruct (add n k v) as [n1|].
    + destruct G as [G1 G2]. split.
      * intros (n' & E & P). assert (Q : exists n', add_all n1 ks = Some n') by by exists n'.
        rewrite NoDup_cons.
        (* each later key must be free in n1 *)
        assert (R : forall n2, (exists n', add_all n2 ks = Some n') -> NoDup (ks.*1) /\ forall k, k ∈ ks.*1 -> at_path n2 k = None).
        { clear. induction ks as [|[k v] ks IH]; intros n2 [n' E]; cbn [fmap list_fmap fst].
          - split; [apply NoDup_nil_2|]. intros k X. by apply elem_of_nil in X.
          - cbn [add_all] in E. assert (G := add_path k v n2). destruct (add n2 k v) as [n3|]; [|done].
            destruct G as [G1 G2]. destruct (IH n3 ltac:(by exists n')) as [ND F].
            assert (Hk : k ∉ ks.*1).
            { intros X. apply F in X. rewrite G2, decide_True in X by done. done. }
            rewrite NoDup_cons. split; [done|]. intros k' X. apply elem_of_cons in X as [-> |X]; [done|].
            specialize (F k' X). rewrite G2 in F. destruct (decide _); [done|done]. }
        destruct (R n1 Q) as [ND F]. assert (Hk : k ∉ ks.*1).
        { intros X. apply F in X. rewrite G2, decide_True in X by done. done. }
        split; [done|]. intros k' X. apply elem_of_cons in X as [-> |X]; [done|].
        specialize (F k' X). rewrite G2 in F. destruct (decide _); [done|done].
      * intros [ND F]. apply NoDup_cons in ND as [Hk ND].
        destruct (proj2 (IH n1)) as (n' & E & P).
        { split; [done|]. intros k' X. rewrite G2. rewrite decide_False by (intros ->; done). apply F. by right. }
        exists n'. split; [done|]. intros k' w. rewrite P, G2. unfold registered. rewrite elem_of_cons.
        destruct (decide (k' = k)) as [-> |Hne].
        { split.
          - intros [X|X]; [injection X as ->; by right; left|by right; right].
          - intros [X|[X|X]]; [congruence|injection X as ->; by left|by right]. }
        { split; [intros [X|X]; [by left|by right; right]|].
          intros [X|[X|X]]; [by left|congruence|by right]. }
    + split; [by intros (n' & E & _)|]. intros [_ F]. rewrite F in G by left. by destruct G.
Qed.
Lemma add_all_free ks : forall n, (exists n', add_all n ks = Some n') -> NoDup (ks.*1) /\ forall k, k ∈ ks.*1 -> at_path n k = None.
Proof.
  induction ks as [|[k v] ks IH]; intros n2 [n' E]; cbn [fmap list_fmap fst].
  - split; [apply NoDup_nil_2|]. intros k X. by apply elem_of_nil in X.
  - cbn [add_all] in E. assert (G := add_path k v n2). destruct (add n2 k v) as [n3|]; [|done].
    destruct G as [G1 G2]. destruct (IH n3 ltac:(by exists n')) as [ND F].
    assert (Hk : k ∉ ks.*1).
    { intros X. apply F in X. rewrite G2, decide_True in X by done. done. }
    rewrite NoDup_cons. split; [done|]. intros k' X. apply elem_of_cons in X as [-> |X]; [done|].
    specialize (F k' X). rewrite G2 in F. destruct (decide _); [done|done].
Qed.
Lemma add_all_distinct ks : (exists n', add_all new_node ks = Some n') -> NoDup (ks.*1).
Proof. intros H. by apply add_all_free in H as [? _]. Qed.
(** The search loop. *)
Lemma find_loop_ok s : forall n i found,
  (exists m v, find_loop n s i found = Some (i + m, v) /\ 0 < m <= length s /\ at_path n (take m s) = Some v /\
     forall m', m < m' <= length s -> at_path n (take m' s) = None) \/
  (find_loop n s i found = found /\ forall m', 0 < m' <= length s -> at_path n (take m' s) = None).
Proof.
  induction s as [|c s IH]; intros n i found; cbn [find_loop].
  - right. split; [done|]. cbn. lia.
  - destruct (get n c) as [sub|] eqn:Eg.
    + assert (AP : forall m, at_path n (take (S m) (c :: s)) = at_path sub (take m s)) by (intros m; cbn; by rewrite Eg).
      destruct (IH sub (S i) (match data sub with Some v => Some (S i, v) | None => found end)) as [(m & v & E & Hm & P & Q)|[E Q]].
      * left. exists (S m), v. rewrite E, AP. repeat split; [f_equal; f_equal; lia|lia|cbn; lia|done|].
        intros [|m'] Hm'; [lia|]. rewrite AP. apply Q. cbn in Hm'. lia.
      * rewrite E. destruct (data sub) as [v|] eqn:Ed.
        { left. exists 1, v. rewrite AP. repeat split; [f_equal; f_equal; lia|lia|cbn; lia|done|].
          intros [|m'] Hm'; [lia|]. rewrite AP. apply Q. cbn in Hm'. lia. }
        { right. split; [done|]. intros [|m'] Hm'; [lia|]. rewrite AP. destruct m' as [|m']; [done|].
          apply Q. cbn in Hm'. lia. }
    + right. split; [done|]. intros [|m'] Hm'; [lia|]. cbn. by rewrite Eg.
Qed.
Lemma find_ok (ks : list (list N * V)) : NoDup (ks.*1) -> exists root, add_all new_node ks = Some root /\
  (forall s, longest_prefix ks s (find_prefix root s) <->
     ([] ∈ ks.*1 -> exists k w t, registered ks k w /\ k <> [] /\ s = k ++ t)) /\
  (forall s v, s <> [] -> find root s = Some v <-> registered ks s v).
Proof.
  intros ND. destruct (proj2 (add_all_path ks new_node)) as (root & E & P).
  { split; [done|]. intros k _. apply at_new. }
  exists root. split; [done|].
  assert (P' : forall k v, at_path root k = Some v <-> registered ks k v).
  { intros k v. rewrite P, at_new. split; [by intros [|]|by right]. } clear P.
  assert (Key : forall k v, registered ks k v -> k ∈ ks.*1).
  { intros k v X. apply elem_of_list_fmap. by exists (k, v). }
  split.
  - intros s. unfold find_prefix.
    destruct (find_loop_ok s root 0 None) as [(m & v & Ef & Hm & Q & R)|[Ef R]]; rewrite Ef; cbn [longest_prefix Nat.add].
    + split.
      * intros _ _. exists (take m s), v, (drop m s). split; [by apply P'|]. split.
        { intros X. apply (f_equal length) in X. rewrite take_length in X. cbn in X. lia. }
        by rewrite take_drop.
      * intros _. split; [lia|]. split; [by apply P'|]. intros k w t Hk ->.
        destruct (decide (length k <= m)); [done|]. exfalso.
        specialize (R (length k)). rewrite take_app in R. apply P' in Hk. rewrite R in Hk; [done|].
        rewrite app_length. lia.
    + assert (NoNE : forall k w t, registered ks k w -> k <> [] -> s <> k ++ t).
      { intros k w t Hk Hne ->. specialize (R (length k)). rewrite take_app in R. apply P' in Hk.
        rewrite R in Hk; [done|]. rewrite app_length. destruct k; [done|cbn; lia]. }
      split.
      * intros L X. exfalso. apply elem_of_list_fmap in X as ((k & w) & Ek & Hk). cbn in Ek. subst k.
        by apply (L [] w s Hk).
      * intros L k w t Hk Es. destruct k as [|c k]; [|by eapply NoNE].
        destruct (L (Key _ _ Hk)) as (k & w' & t' & Hk' & Hne & Es'). by eapply NoNE.
  - intros s v Hs. rewrite <- P'. unfold find, find_prefix.
    destruct (find_loop_ok s root 0 None) as [(m & w & Ef & Hm & Q & R)|[Ef R]]; rewrite Ef.
    + cbn [Nat.add]. destruct (decide (m = length s)) as [-> |Hne].
      * rewrite take_ge in Q by done. rewrite Q. done.
      * split; [done|]. specialize (R (length s)). rewrite take_ge in R by done. rewrite R by lia. done.
    + specialize (R (length s)). rewrite take_ge in R by done. rewrite R; [done|]. destruct s; [done|cbn; lia].
Qed.
End p.
