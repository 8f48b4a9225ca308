From Coq Require Import NArith Lia.
From stdpp Require Import numbers gmap list.
From Verif Require Import ListModel ListSpec.
From Coq Require Import ZifyBool ZifyNat ZifyN.
Ltac Zify.zify_post_hook ::= Z.div_mod_to_equations.

(** [chain h q nxt]: following the links from [nxt] gives [q], the last link is null. *)
Fixpoint chain (h : links) (st : option nat) (q : list nat) : Prop :=
  match q with
  | [] => st = None
  | a :: q => st = Some a /\ exists nxt, h !! a = Some nxt /\ chain h nxt q
  end.
Record rep (h : links) (l : lst) (q : list nat) : Prop := {
  r_chain : chain h (l_head l) q;
  r_tail : l_tail l = last q;
  r_count : l_count l = w64 (N.of_nat (length q));
  r_nodup : NoDup q }.
Record inv (items : gset nat) (s : state) (q : queues) : Prop := {
  i_rep : forall i, rep s.1 (s.2 i) (q i);
  i_disj : forall i j a, a ∈ q i -> a ∈ q j -> i = j;
  i_in : forall i a, a ∈ q i -> a ∈ items;
  i_items : forall a, is_Some (s.1 !! a) <-> a ∈ items;
  i_free : forall a, a ∈ items -> (forall j, a ∉ q j) -> s.1 !! a = Some None }.

Lemma chain_other h a x st q : a ∉ q -> chain h st q -> chain (<[a := x]> h) st q.
Proof.
  revert st. induction q as [|b q IH]; intros st Ha; [done|]. cbn. intros (-> & nxt & E & C).
  split; [done|]. exists nxt. apply not_elem_of_cons in Ha as [Hn Ha]. rewrite lookup_insert_ne by done.
  split; [done|]. by apply IH.
Qed.
Lemma chain_last_null h st q a : chain h st q -> last q = Some a -> h !! a = Some None.
Proof.
  revert st. induction q as [|b q IH]; intros st; [done|]. cbn [chain]. intros (-> & nxt & E & C) L.
  destruct q as [|c q]; [|by eapply IH].
  cbn in *. congruence.
Qed.
Lemma chain_snoc h st q t a : chain h st q -> last q = Some t -> NoDup q -> a ∉ q -> h !! a = Some None ->
  chain (<[t := Some a]> h) st (q ++ [a]).
Proof.
  revert st. induction q as [|b q IH]; intros st C L ND Ha Hn; [done|].
  cbn [app chain] in *. destruct C as (-> & nxt & E & C). split; [done|].
  apply not_elem_of_cons in Ha as [Hab Ha]. apply NoDup_cons in ND as [Hb ND].
  destruct q as [|c q].
  - cbn in L. injection L as ->. exists (Some a). rewrite lookup_insert. split; [done|].
    cbn. split; [done|]. exists None. by rewrite lookup_insert_ne.
  - change (last (c :: q) = Some t) in L. exists nxt.
    assert (t ∈ c :: q) by (apply elem_of_list_lookup; rewrite last_lookup in L; eauto).
    rewrite lookup_insert_ne by (intros ->; done). split; [done|]. by apply IH.
Qed.
Lemma rep_head h l q : rep h l q -> l_head l = head q.
Proof. intros [C _ _ _]. destruct q; cbn in *; [done|]. by destruct C. Qed.
Lemma upd_same {A} (f : nat -> A) i x : upd f i x i = x.
Proof. unfold upd. by rewrite decide_True. Qed.
Lemma upd_other {A} (f : nat -> A) i j x : j <> i -> upd f i x j = f j.
Proof. intros. unfold upd. by rewrite decide_False. Qed.

Lemma step_ok items s q o : inv items s q ->
  (match o with Push _ a => a ∈ items /\ (forall j, a ∉ q j) | _ => True end) ->
  (forall i, N.of_nat (length (q i)) < 2 ^ 64)%N ->
  exists s' , step s o = LOk (s', (spec_step q o).2) /\ inv items s' (spec_step q o).1.
Proof.
  intros [R D I It Fr] P B. destruct s as [h ls]. cbn [fst snd] in *.
  destruct o as [i a|i|i|i|i|i]; cbn [step spec_step].
  - destruct P as [Pa Pq]. unfold push. rewrite (Fr a Pa Pq).
    destruct (R i) as [C T Cn ND]. destruct (q i) as [|b r] eqn:Eq.
    + cbn in C. rewrite C. eexists. split; [done|]. cbn [fst snd]. split; cbn [fst snd]; [|..|done|].
      * intros j. destruct (decide (j = i)) as [-> |].
        { rewrite !upd_same. split; cbn; [split; [done|]; exists None; split; [by apply Fr|done]|done|by rewrite Cn|].
          apply NoDup_singleton. }
        by rewrite !upd_other.
      * intros j k x. destruct (decide (j = i)) as [-> |], (decide (k = i)) as [-> |]; rewrite ?upd_same, ?upd_other by done; intros X Y; [done|..].
        { apply elem_of_list_singleton in X as ->. by apply Pq in Y. }
        { apply elem_of_list_singleton in Y as ->. by apply Pq in X. }
        by eapply D.
      * intros j x. destruct (decide (j = i)) as [-> |]; rewrite ?upd_same, ?upd_other by done; intros X; [|by eapply I].
        by apply elem_of_list_singleton in X as ->.
      * intros x Hx Hj. apply Fr; [done|]. intros j. specialize (Hj j). destruct (decide (j = i)) as [-> |]; [rewrite Eq; apply not_elem_of_nil|].
        by rewrite upd_other in Hj.
    + assert (Hh : l_head (ls i) = Some b) by by destruct C. rewrite Hh.
      destruct (last (b :: r)) as [t|] eqn:El; [|by apply last_None in El]. rewrite T.
      assert (Ht : h !! t = Some None) by by eapply chain_last_null.
      rewrite decide_True by by rewrite Ht.
      assert (Htq : t ∈ q i) by (rewrite Eq; apply elem_of_list_lookup; rewrite last_lookup in El; eauto).
      eexists. split; [done|]. split; cbn [fst snd].
      * intros j. destruct (decide (j = i)) as [-> |].
        { rewrite !upd_same. split; cbn [l_head l_tail l_count].
          - change (b :: r ++ [a]) with ((b :: r) ++ [a]). rewrite <- Hh. apply chain_snoc; [done|done|done| |by apply Fr].
            rewrite <- Eq. apply Pq.
          - by rewrite last_snoc.
          - rewrite Cn, app_length. cbn [length]. unfold w64. change (2 ^ 64)%N with 18446744073709551616%N. lia.
          - apply NoDup_app. split; [done|]. split; [|apply NoDup_singleton].
            intros x Hx Hx2. apply elem_of_list_singleton in Hx2 as ->. rewrite <- Eq in Hx. by apply Pq in Hx. }
        rewrite !upd_other by done. destruct (R j) as [C' T' Cn' ND']. split; [|done..].
        apply chain_other; [|done]. intros X. by apply (D i j t Htq) in X.
      * intros j k x. destruct (decide (j = i)) as [-> |], (decide (k = i)) as [-> |]; rewrite ?upd_same, ?upd_other by done; intros X Y; [done|..].
        { apply elem_of_app in X as [X|X]; [rewrite <- Eq in X; by eapply D|].
          apply elem_of_list_singleton in X as ->. by apply Pq in Y. }
        { apply elem_of_app in Y as [Y|Y]; [rewrite <- Eq in Y; by eapply D|].
          apply elem_of_list_singleton in Y as ->. by apply Pq in X. }
        by eapply D.
      * intros j x. destruct (decide (j = i)) as [-> |]; rewrite ?upd_same, ?upd_other by done; intros X; [|by eapply I].
        apply elem_of_app in X as [X|X]; [rewrite <- Eq in X; by eapply I|]. by apply elem_of_list_singleton in X as ->.
      * intros x. destruct (decide (x = t)) as [-> |]; [|by rewrite lookup_insert_ne].
        rewrite lookup_insert. split; [|by eexists]. intros _. by eapply I.
      * intros x Hx Hj. destruct (decide (x = t)) as [-> |].
        { exfalso. apply (Hj i). rewrite upd_same, <- Eq. apply elem_of_app. by left. }
        rewrite lookup_insert_ne by done. apply Fr; [done|]. intros j. specialize (Hj j).
        destruct (decide (j = i)) as [-> |]; [|by rewrite upd_other in Hj].
        rewrite upd_same, <- Eq in Hj. intros X. apply Hj, elem_of_app. by left.
  - unfold pop. destruct (R i) as [C T Cn ND]. destruct (q i) as [|b r] eqn:Eq.
    + cbn in C. rewrite C. eexists. split; [done|]. cbn [fst]. split; cbn [fst snd]; try done.
      intros j. destruct (decide (j = i)) as [-> |]; rewrite ?upd_same, ?upd_other by done; [by rewrite Eq|done].
    + cbn in C. destruct C as (Hh & nxt & E & C). rewrite Hh, E. eexists. split; [done|]. cbn [fst].
      apply NoDup_cons in ND as [Hb ND]. assert (Hbi : b ∈ q i) by (rewrite Eq; left).
      split; cbn [fst snd].
      * intros j. destruct (decide (j = i)) as [-> |].
        { rewrite !upd_same. split; cbn [l_head l_tail l_count]; [by apply chain_other| | |done].
          - destruct r as [|c r]; [by rewrite C|]. cbn in C. destruct C as [-> _]. by rewrite T.
          - rewrite Cn. cbn [length]. specialize (B i). rewrite Eq in B. cbn [length] in B.
            unfold w64 in *. change (2 ^ 64)%N with 18446744073709551616%N in *. lia. }
        rewrite !upd_other by done. destruct (R j) as [C' T' Cn' ND']. split; [|done..].
        apply chain_other; [|done]. intros X. by apply (D i j b Hbi) in X.
      * intros j k x X Y.
        assert (X' : x ∈ q j) by (destruct (decide (j = i)) as [-> |]; rewrite ?upd_same, ?upd_other in X by done; [rewrite Eq; by right|done]).
        assert (Y' : x ∈ q k) by (destruct (decide (k = i)) as [-> |]; rewrite ?upd_same, ?upd_other in Y by done; [rewrite Eq; by right|done]).
        by eapply D.
      * intros j x X.
        assert (X' : x ∈ q j) by (destruct (decide (j = i)) as [-> |]; rewrite ?upd_same, ?upd_other in X by done; [rewrite Eq; by right|done]).
        by eapply I.
      * intros x. destruct (decide (x = b)) as [-> |]; [|by rewrite lookup_insert_ne].
        rewrite lookup_insert. split; [|by eexists]. intros _. by eapply I.
      * intros x Hx Hj. destruct (decide (x = b)) as [-> |]; [by rewrite lookup_insert|].
        rewrite lookup_insert_ne by done. apply Fr; [done|]. intros j. specialize (Hj j).
        destruct (decide (j = i)) as [-> |]; [|by rewrite upd_other in Hj].
        rewrite upd_same in Hj. rewrite Eq. by apply not_elem_of_cons.
  - exists (h, ls). split; [|by constructor]. unfold front. by rewrite (rep_head _ _ _ (R i)).
  - exists (h, ls). split; [|by constructor]. unfold back. by rewrite (r_tail _ _ _ (R i)).
  - exists (h, ls). split; [|by constructor]. unfold size. rewrite (r_count _ _ _ (R i)). unfold w64.
    by rewrite N.mod_small by apply B.
  - exists (h, ls). split; [|by constructor]. unfold empty. rewrite (rep_head _ _ _ (R i)). by destruct (q i).
Qed.
Lemma queue_len items s q i : inv items s q -> (length (q i) <= stdpp.base.size items)%nat.
Proof.
  intros [R _ I _ _]. assert (ND := r_nodup _ _ _ (R i)).
  rewrite <- (size_list_to_set (C := gset nat)) by done. apply subseteq_size.
  intros x Hx. apply elem_of_list_to_set in Hx. by eapply I.
Qed.
Lemma run_ok items os : (N.of_nat (stdpp.base.size items) < 2 ^ 64)%N -> forall s q, inv items s q -> proper items q os ->
  exists s', run s os = LOk (s', (spec_run q os).2) /\ inv items s' (spec_run q os).1.
Proof.
  intros B. induction os as [|o os IH]; intros s q I P; [by exists s|].
  cbn [proper] in P. destruct P as [P1 P2].
  destruct (step_ok items s q o I P1) as (s' & E & I').
  { intros i. assert (L := queue_len _ _ _ i I). lia. }
  destruct (spec_step q o) as [q' r] eqn:Es. cbn [fst snd] in *.
  destruct (IH s' q' I' P2) as (s'' & E' & I''). cbn [run spec_run]. rewrite E, E', Es.
  destruct (spec_run q' os). by exists s''.
Qed.
Definition fresh_links (items : gset nat) : links := gset_to_gmap None items.
Lemma init_inv items : inv items (fresh_links items, fun _ => empty_list) (fun _ => []).
Proof.
  unfold fresh_links. split; cbn [fst snd].
  - intros i. split; cbn; try done. apply NoDup_nil_2.
  - intros i j a X. by apply elem_of_nil in X.
  - intros i a X. by apply elem_of_nil in X.
  - intros a. rewrite lookup_gset_to_gmap. destruct (decide (a ∈ items)) as [Ha|Ha]; [rewrite option_guard_True by done|rewrite option_guard_False by done]; split; try done; by intros [].
  - intros a Ha _. rewrite lookup_gset_to_gmap. by rewrite option_guard_True.
Qed.
Lemma chain_walk h st q : chain h st q -> forall fuel, length q <= fuel -> walk h fuel st = Some q.
Proof.
  revert st. induction q as [|a q IH]; intros st C fuel Hf; cbn in C.
  - rewrite C. by destruct fuel.
  - destruct C as (-> & nxt & E & C). destruct fuel as [|fuel]; [cbn in Hf; lia|].
    cbn. rewrite E, (IH nxt C); [done|cbn in Hf; lia].
Qed.
Lemma walk_ok items s q i : inv items s q -> walk s.1 (length (q i)) (l_head (s.2 i)) = Some (q i).
Proof. intros [R _ _ _ _]. by apply chain_walk; [apply R|]. Qed.
Lemma queue_ok items os : (N.of_nat (stdpp.base.size items) < 2 ^ 64)%N -> proper items (fun _ => []) os ->
  exists s', run (fresh_links items, fun _ => empty_list) os = LOk (s', (spec_run (fun _ => []) os).2) /\
    forall i, walk s'.1 (length ((spec_run (fun _ => []) os).1 i)) (l_head (s'.2 i)) = Some ((spec_run (fun _ => []) os).1 i).
Proof.
  intros B P. destruct (run_ok items os B _ _ (init_inv items) P) as (s' & E & I). exists s'. split; [done|].
  intros i. by eapply walk_ok.
Qed.
