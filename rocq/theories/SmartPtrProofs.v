From Coq Require Import NArith ZifyBool ZifyNat ZifyN.
From stdpp Require Import numbers list.
From Verif Require Import SmartPtrModel SmartPtrSpec.
Ltac Zify.zify_post_hook ::= Z.div_mod_to_equations.
Local Open Scope N_scope.

(** ** Counting *)
Fixpoint cnt (i : nat) (l : list ptr) : N :=
  match l with
  | [] => 0
  | p :: l => (if decide (p = Some i) then 1 else 0) + cnt i l
  end.
Fixpoint total (f : cell -> N) (l : list cell) : N :=
  match l with [] => 0 | c :: l => f c + total f l end.
Definition owned_by (i : nat) (c : cell) : N := if c_refs c =? 0 then 0 else cnt i (c_kids c).
Definition owners (h : heap) (i : nat) : N := total (owned_by i) (h_cells h).
Definition active (h : heap) : N := total (fun c => if c_refs c =? 0 then 0 else 1) (h_cells h).

Local Arguments owners : simpl never.
Local Arguments active : simpl never.
Local Arguments N.sub : simpl never.
Local Arguments N.add : simpl never.

Lemma cnt_app i l k : cnt i (l ++ k) = cnt i l + cnt i k.
Proof. induction l as [|p l IH]; cbn; [lia|]. rewrite IH. lia. Qed.
Lemma cnt_in i l : In (Some i) l -> 0 < cnt i l.
Proof.
  induction l as [|p l IH]; cbn; [done|]. intros [-> |H].
  - rewrite decide_True by done. lia.
  - specialize (IH H). lia.
Qed.
Lemma cnt_0 i l : cnt i l = 0 -> ~ In (Some i) l.
Proof. intros H Hi%cnt_in. lia. Qed.
Lemma total_insert f l i c c' : l !! i = Some c -> total f (<[i := c']> l) + f c = total f l + f c'.
Proof.
  revert i. induction l as [|x l IH]; intros [|i] H; try done.
  - cbn in *. simplify_eq. lia.
  - change (<[S i := c']> (x :: l)) with (x :: <[i := c']> l). cbn [total].
    specialize (IH i H). lia.
Qed.
Lemma total_app f l k : total f (l ++ k) = total f l + total f k.
Proof. induction l as [|x l IH]; cbn; [lia|]. rewrite IH. lia. Qed.
Lemma total_ge f l i c : l !! i = Some c -> f c <= total f l.
Proof.
  revert i. induction l as [|x l IH]; intros [|i] H; cbn in *; try done.
  - simplify_eq. lia.
  - specialize (IH i H). lia.
Qed.
Lemma total_0 f l : (forall c, In c l -> f c = 0) -> total f l = 0.
Proof. induction l as [|x l IH]; cbn; intros H; [done|]. rewrite IH, (H x) by auto. done. Qed.

(** ** The invariant, [R] being the references owned from outside the heap *)
Record inv (h : heap) (R : list ptr) : Prop := {
  inv_count : forall i c, h_cells h !! i = Some c -> c_refs c = cnt i R + owners h i;
  inv_known : forall i, (length (h_cells h) <= i)%nat -> cnt i R + owners h i = 0;
  inv_live : forall i c, h_cells h !! i = Some c -> c_refs c <> 0 -> c_live c = true /\ c_magic c = true;
  inv_small : forall i c, h_cells h !! i = Some c -> c_refs c < 2 ^ 32 - 1;
  inv_log : forall i, In i (h_log h) <-> exists c, h_cells h !! i = Some c /\ c_refs c = 0;
  inv_once : List.NoDup (h_log h)
}.
Lemma inv_owned h i R : inv h (Some i :: R) -> exists c, h_cells h !! i = Some c /\ c_refs c <> 0 /\ access h i = POk c.
Proof.
  intros I. destruct (h_cells h !! i) as [c|] eqn:E.
  - exists c. split; [done|]. assert (Hc := inv_count _ _ I i c E). cbn in Hc. rewrite decide_True in Hc by done.
    assert (H0 : c_refs c <> 0) by lia. split; [done|].
    destruct (inv_live _ _ I i c E H0) as [Hl Hm]. unfold access. by rewrite E, Hl, Hm.
  - apply lookup_ge_None in E. assert (H := inv_known _ _ I i E). cbn in H. rewrite decide_True in H by done. lia.
Qed.
Lemma inv_perm h R R' : (forall i, cnt i R = cnt i R') -> inv h R -> inv h R'.
Proof.
  intros H [I1 I2 I3 I4 I5 I6]. split; try done.
  - intros. rewrite <- H. auto.
  - intros. rewrite <- H. auto.
Qed.

(** What a finished drop does to the cells. *)
Record freed (h h' : heap) : Prop := {
  fr_len : length (h_cells h') = length (h_cells h);
  fr_dead : forall j c, h_cells h !! j = Some c -> c_refs c = 0 -> h_cells h' !! j = Some c;
  fr_new : forall j c', h_cells h' !! j = Some c' -> c_refs c' = 0 ->
             (exists c, h_cells h !! j = Some c /\ c_refs c = 0) \/ c_live c' = false;
  fr_active : active h' <= active h;
  fr_mono : forall j c c', h_cells h !! j = Some c -> h_cells h' !! j = Some c' ->
     c_refs c' <= c_refs c /\ c_kids c' = c_kids c;
  fr_log : exists l, h_log h' = l ++ h_log h
}.
Lemma freed_refl h : freed h h.
Proof.
  split; try done.
  - intros j c' H1 H2. left. by exists c'.
  - intros j c c' H1 H2. rewrite H1 in H2. injection H2 as <-. done.
  - by exists [].
Qed.
Lemma freed_trans a b c : freed a b -> freed b c -> freed a c.
Proof.
  intros [L1 D1 N1 A1 M1 G1] [L2 D2 N2 A2 M2 G2]. split.
  - congruence.
  - intros j x H1 H2. apply D2; [|done]. by apply D1.
  - intros j x H1 H2. destruct (N2 j x H1 H2) as [(y & Hy & Hz)|]; [|by right].
    destruct (N1 j y Hy Hz) as [?|Hl]; [by left|]. right.
    rewrite (D2 j y Hy Hz) in H1. by injection H1 as <-.
  - lia.
  - intros j x z Hx Hz. destruct (h_cells b !! j) as [y|] eqn:E.
    + destruct (M1 j x y Hx E), (M2 j y z E Hz). split; [lia|congruence].
    + apply lookup_ge_None in E. apply lookup_lt_Some in Hx. lia.
  - destruct G1 as [l1 E1], G2 as [l2 E2]. exists (l2 ++ l1). rewrite E2, E1. apply app_assoc.
Qed.

Lemma insert_cases {A} (l : list A) i j x y :
  <[i := x]> l !! j = Some y -> (j = i /\ y = x /\ (i < length l)%nat) \/ (j <> i /\ l !! j = Some y).
Proof.
  intros H. destruct (decide (j = i)) as [-> |Hn].
  - left. assert (Hl := lookup_lt_Some _ _ _ H). rewrite insert_length in Hl.
    rewrite list_lookup_insert in H by done. by injection H as <-.
  - right. rewrite list_lookup_insert_ne in H by done. done.
Qed.

Lemma u32_dec x : 0 < x -> x < 2 ^ 32 - 1 -> u32 (x + (2 ^ 32 - 1)) = x - 1.
Proof. unfold u32. change (2 ^ 32) with 4294967296. lia. Qed.
Lemma u32_inc x : x < 2 ^ 32 - 1 -> u32 (x + 1) = x + 1.
Proof. unfold u32. change (2 ^ 32) with 4294967296. lia. Qed.

Lemma drop_ok fuel : forall h p R, inv h (p :: R) -> active h < N.of_nat fuel ->
  exists h', ptr_drop fuel h p = POk h' /\ inv h' R /\ freed h h'.
Proof.
  induction fuel as [|fuel IH]; intros h p R I Hf; [lia|]. cbn [ptr_drop].
  destruct p as [i|].
  2: { exists h. split; [done|]. split; [|apply freed_refl]. revert I. apply inv_perm. intros i. cbn. by rewrite decide_False. }
  destruct (inv_owned h i R I) as (c & Ec & H0 & ->).
  assert (Hs := inv_small _ _ I i c Ec).
  rewrite u32_dec by lia.
  assert (Each : forall ps h R, inv h (ps ++ R) -> active h < N.of_nat fuel ->
    exists h', each (ptr_drop fuel) h ps = POk h' /\ inv h' R /\ freed h h').
  { clear -IH. induction ps as [|p ps IHp]; intros h R I Hf; cbn.
    - exists h. split; [done|]. split; [done|apply freed_refl].
    - destruct (IH h p (ps ++ R) I Hf) as (h1 & -> & I1 & F1).
      destruct (IHp h1 R I1) as (h2 & -> & I2 & F2); [assert (A := fr_active _ _ F1); lia|].
      exists h2. split; [done|]. split; [done|]. by eapply freed_trans. }
  assert (Hlt : (i < length (h_cells h))%nat) by by eapply lookup_lt_Some.
  assert (HR : c_refs c = 1 + cnt i R + owners h i).
  { assert (Hc := inv_count _ _ I i c Ec). cbn in Hc. rewrite decide_True in Hc by done. lia. }
  destruct (N.eqb_spec (c_refs c - 1) 0) as [Hz|Hz].
  - assert (Hone : c_refs c = 1) by lia.
    set (c0 := Cell (c_refs c - 1) (c_magic c) (c_live c) (c_kids c)).
    set (h0 := Heap (<[i := c0]> (h_cells h)) (i :: h_log h)).
    assert (Hown : forall k, owners h0 k + cnt k (c_kids c) = owners h k).
    { intros k. unfold owners, h0. cbn [h_cells].
      assert (T := total_insert (owned_by k) (h_cells h) i c c0 Ec).
      replace (owned_by k c0) with 0 in T by (unfold owned_by; cbn; by rewrite Hz).
      replace (owned_by k c) with (cnt k (c_kids c)) in T; [lia|].
      unfold owned_by. by rewrite (proj2 (N.eqb_neq _ _) H0). }
    assert (I0 : inv h0 (c_kids c ++ R)).
    { split.
      - intros j d Hd. rewrite cnt_app. cbn [h_cells h0] in Hd. apply insert_cases in Hd as [(-> & -> & _)|[Hn Hd]].
        + cbn. specialize (Hown i). lia.
        + rewrite (inv_count _ _ I j d Hd). cbn. rewrite decide_False by congruence. specialize (Hown j). lia.
      - intros j Hj. cbn in Hj. rewrite insert_length in Hj. rewrite cnt_app.
        assert (K := inv_known _ _ I j Hj). cbn in K. specialize (Hown j). destruct (decide _); lia.
      - intros j d Hd Hd0. cbn [h_cells h0] in Hd. apply insert_cases in Hd as [(-> & -> & _)|[Hn Hd]]; [done|].
        by apply (inv_live _ _ I j).
      - intros j d Hd. cbn [h_cells h0] in Hd. apply insert_cases in Hd as [(-> & -> & _)|[Hn Hd]]; [cbn; lia|].
        by apply (inv_small _ _ I j).
      - intros j. cbn [h_log h0 h_cells]. split.
        + intros [<- |Hj].
          * exists c0. split; [by apply list_lookup_insert|done].
          * apply (inv_log _ _ I) in Hj as (d & Hd & Hd0). exists d. split; [|done].
            rewrite list_lookup_insert_ne; [done|]. intros ->. rewrite Ec in Hd. injection Hd as <-. done.
        + intros (d & Hd & Hd0). apply insert_cases in Hd as [(-> & -> & _)|[Hn Hd]]; [by left|].
          right. apply (inv_log _ _ I). by exists d.
      - cbn. constructor; [|apply I]. intros Hi. apply (inv_log _ _ I) in Hi as (d & Hd & Hd0). congruence. }
    assert (Hact : active h0 + 1 = active h).
    { unfold active, h0. cbn [h_cells].
      assert (T := total_insert (fun c => if c_refs c =? 0 then 0 else 1) (h_cells h) i c c0 Ec).
      cbn [c0 c_refs] in T. rewrite Hz in T. rewrite (proj2 (N.eqb_neq _ _) H0) in T. cbn in T. lia. }
    destruct (Each (c_kids c) h0 R I0) as (h1 & E1 & I1 & F1); [lia|].
    change (each (ptr_drop fuel) (Heap (h_cells (set_cell h i c0)) (i :: h_log (set_cell h i c0))) (c_kids c))
      with (each (ptr_drop fuel) h0 (c_kids c)). rewrite E1.
    assert (Ei : h_cells h1 !! i = Some c0).
    { apply (fr_dead _ _ F1); [by apply list_lookup_insert|done]. }
    destruct (inv_live _ _ I i c Ec H0) as [Hl Hm].
    unfold access. rewrite Ei. cbn [c0 c_live c_magic]. rewrite Hl, Hm. cbn [negb].
    eexists. split; [done|].
    set (c1 := Cell (c_refs c0) false false (c_kids c0)).
    assert (Hown1 : forall k, owners (set_cell h1 i c1) k = owners h1 k).
    { intros k. unfold owners. cbn. assert (T := total_insert (owned_by k) (h_cells h1) i c0 c1 Ei).
      assert (owned_by k c0 = 0) by (unfold owned_by; cbn; by rewrite Hz).
      assert (owned_by k c1 = 0) by (unfold owned_by; cbn; by rewrite Hz). lia. }
    assert (Hi1 : (i < length (h_cells h1))%nat) by by eapply lookup_lt_Some.
    split.
    + split.
      * intros j d Hd. rewrite Hown1. cbn in Hd. apply insert_cases in Hd as [(-> & -> & _)|[Hn Hd]].
        -- cbn. by apply (inv_count _ _ I1 i c0).
        -- by apply (inv_count _ _ I1).
      * intros j Hj. rewrite Hown1. apply (inv_known _ _ I1). cbn in Hj. by rewrite insert_length in Hj.
      * intros j d Hd Hd0. cbn in Hd. apply insert_cases in Hd as [(-> & -> & _)|[Hn Hd]]; [done|].
        by apply (inv_live _ _ I1 j).
      * intros j d Hd. cbn in Hd. apply insert_cases in Hd as [(-> & -> & _)|[Hn Hd]]; [cbn; lia|].
        by apply (inv_small _ _ I1 j).
      * intros j. cbn [set_cell h_log h_cells]. rewrite (inv_log _ _ I1). split; intros (d & Hd & Hd0).
        -- destruct (decide (j = i)) as [-> |Hn].
           ++ exists c1. split; [by apply list_lookup_insert|done].
           ++ exists d. by rewrite list_lookup_insert_ne.
        -- apply insert_cases in Hd as [(-> & -> & _)|[Hn Hd]]; [by exists c0|by exists d].
      * cbn. apply I1.
    + split.
      * cbn. rewrite insert_length, (fr_len _ _ F1). cbn. apply insert_length.
      * intros j d Hd Hd0. assert (j <> i) by (intros ->; congruence). cbn.
        rewrite list_lookup_insert_ne by done. apply (fr_dead _ _ F1); [|done]. cbn. by rewrite list_lookup_insert_ne.
      * intros j d Hd Hd0. cbn in Hd. apply insert_cases in Hd as [(-> & -> & _)|[Hn Hd]]; [by right|].
        destruct (fr_new _ _ F1 j d Hd Hd0) as [(e & He & He0)|]; [|by right].
        left. exists e. split; [|done]. cbn in He. by rewrite list_lookup_insert_ne in He.
      * assert (T := total_insert (fun c => if c_refs c =? 0 then 0 else 1) (h_cells h1) i c0 c1 Ei).
        cbn [c0 c1 c_refs] in T. assert (A := fr_active _ _ F1). unfold active in *. cbn [set_cell h_cells]. fold c1. lia.
      * intros j d e Hd He. cbn in He. apply insert_cases in He as [(-> & -> & _)|[Hn He]].
        -- cbn. rewrite Ec in Hd. injection Hd as <-. split; [lia|done].
        -- apply (fr_mono _ _ F1 j); [|done]. cbn. by rewrite list_lookup_insert_ne.
      * destruct (fr_log _ _ F1) as [l Hlog]. exists (l ++ [i]). cbn. rewrite Hlog. cbn. by rewrite <- app_assoc.
  - set (c0 := Cell (c_refs c - 1) (c_magic c) (c_live c) (c_kids c)).
    assert (Hown : forall k, owners (set_cell h i c0) k = owners h k).
    { intros k. unfold owners. cbn. assert (T := total_insert (owned_by k) (h_cells h) i c c0 Ec).
      assert (owned_by k c0 = owned_by k c); [|lia].
      unfold owned_by. cbn. by rewrite (proj2 (N.eqb_neq _ _) Hz), (proj2 (N.eqb_neq _ _) H0). }
    exists (set_cell h i c0). split; [done|]. split.
    + split.
      * intros j d Hd. rewrite Hown. cbn in Hd. apply insert_cases in Hd as [(-> & -> & _)|[Hn Hd]].
        -- cbn. lia.
        -- rewrite (inv_count _ _ I j d Hd). cbn. rewrite decide_False by congruence. lia.
      * intros j Hj. rewrite Hown. cbn in Hj. rewrite insert_length in Hj.
        assert (K := inv_known _ _ I j Hj). cbn in K. lia.
      * intros j d Hd Hd0. cbn in Hd. apply insert_cases in Hd as [(-> & -> & _)|[Hn Hd]].
        -- cbn. by apply (inv_live _ _ I i).
        -- by apply (inv_live _ _ I j).
      * intros j d Hd. cbn in Hd. apply insert_cases in Hd as [(-> & -> & _)|[Hn Hd]]; [cbn; lia|].
        by apply (inv_small _ _ I j).
      * intros j. cbn [set_cell h_log h_cells]. rewrite (inv_log _ _ I). split; intros (d & Hd & Hd0).
        -- exists d. rewrite list_lookup_insert_ne; [done|]. intros ->. congruence.
        -- apply insert_cases in Hd as [(-> & -> & _)|[Hn Hd]]; [done|by exists d].
      * apply I.
    + split.
      * cbn. apply insert_length.
      * intros j d Hd Hd0. cbn. rewrite list_lookup_insert_ne; [done|]. intros ->. congruence.
      * intros j d Hd Hd0. cbn in Hd. apply insert_cases in Hd as [(-> & -> & _)|[Hn Hd]]; [done|].
        left. by exists d.
      * assert (T := total_insert (fun c => if c_refs c =? 0 then 0 else 1) (h_cells h) i c c0 Ec).
        unfold active. cbn [set_cell h_cells]. cbn [c0 c_refs] in T.
        rewrite (proj2 (N.eqb_neq _ _) Hz), (proj2 (N.eqb_neq _ _) H0) in T. lia.
      * intros j d e Hd He. cbn in He. apply insert_cases in He as [(-> & -> & _)|[Hn He]].
        -- cbn. rewrite Ec in Hd. injection Hd as <-. split; [lia|done].
        -- rewrite Hd in He. by injection He as <-.
      * by exists [].
Qed.

(** ** Whole programs *)
Lemma cnt_len i l : cnt i l <= N.of_nat (length l).
Proof. induction l as [|p l IH]; cbn; [lia|]. destruct (decide _); lia. Qed.
Lemma cnt_give i p own own' : give p own = Some own' -> cnt i own = cnt i (p :: own').
Proof.
  revert own'. induction own as [|q own IH]; intros own' H; cbn in *; [done|].
  destruct (decide (q = p)) as [-> |]; [by simplify_eq|].
  destruct (give p own) as [r|]; [|done]. simplify_eq. cbn in *. rewrite (IH r) by done. lia.
Qed.
Lemma len_give p own own' : give p own = Some own' -> length own = S (length own').
Proof.
  revert own'. induction own as [|q own IH]; intros own' H; cbn in *; [done|].
  destruct (decide (q = p)) as [-> |]; [by simplify_eq|].
  destruct (give p own) as [r|]; [|done]. simplify_eq. cbn in *. by rewrite (IH r).
Qed.
Lemma cnt_give_all i ps : forall own own', give_all ps own = Some own' -> cnt i own = cnt i (ps ++ own').
Proof.
  induction ps as [|p ps IH]; intros own own' H; cbn in *; [by simplify_eq|].
  destruct (give p own) as [r|] eqn:E; [|done]. rewrite (cnt_give i p own r E). cbn. by rewrite (IH r own').
Qed.
Lemma len_give_all ps : forall own own', give_all ps own = Some own' -> length own = (length ps + length own')%nat.
Proof.
  induction ps as [|p ps IH]; intros own own' H; cbn in *; [by simplify_eq|].
  destruct (give p own) as [r|] eqn:E; [|done]. rewrite (len_give p own r E). by rewrite (IH r own').
Qed.
Lemma cnt_pos i l : 0 < cnt i l -> In (Some i) l.
Proof.
  induction l as [|p l IH]; cbn; [lia|]. destruct (decide (p = Some i)); [by left|]. intros H. right. apply IH. lia.
Qed.

Definition weight (h : heap) : N := total (fun c => N.of_nat (length (c_kids c))) (h_cells h).
Local Arguments weight : simpl never.
Lemma total_le f g l : (forall c, f c <= g c) -> total f l <= total g l.
Proof. intros H. induction l as [|c l IH]; cbn; [lia|]. specialize (H c). lia. Qed.
Lemma owners_weight h i : owners h i <= weight h.
Proof.
  apply total_le. intros c. unfold owned_by. assert (H := cnt_len i (c_kids c)). destruct (_ =? _); lia.
Qed.
(** Between the actions of a program. *)
Record good (k : N) (h : heap) (own : list ptr) : Prop := {
  g_inv : inv h own;
  g_dead : forall i c, h_cells h !! i = Some c -> c_refs c = 0 -> c_live c = false;
  g_weight : N.of_nat (length own) + weight h <= k
}.
Lemma inv_get h own i c : inv h own -> h_cells h !! i = Some c -> c_refs c <> 0 -> c_refs c + 1 < 2 ^ 32 - 1 ->
  inv (set_cell h i (Cell (u32 (c_refs c + 1)) (c_magic c) (c_live c) (c_kids c))) (Some i :: own) /\
  c_refs (Cell (u32 (c_refs c + 1)) (c_magic c) (c_live c) (c_kids c)) <> 0.
Proof.
  intros I Ec H0 Hs. rewrite u32_inc by lia.
  set (c0 := Cell (c_refs c + 1) (c_magic c) (c_live c) (c_kids c)).
  assert (Hown : forall k, owners (set_cell h i c0) k = owners h k).
  { intros k. unfold owners. cbn. assert (T := total_insert (owned_by k) (h_cells h) i c c0 Ec).
    assert (owned_by k c0 = owned_by k c); [|lia].
    unfold owned_by. cbn. rewrite (proj2 (N.eqb_neq _ _) H0), (proj2 (N.eqb_neq (c_refs c + 1) 0)) by lia. done. }
  assert (Hi : (i < length (h_cells h))%nat) by by eapply lookup_lt_Some.
  split; [|cbn; lia]. split.
  - intros j d Hd. rewrite Hown. cbn in Hd. apply insert_cases in Hd as [(-> & -> & _)|[Hn Hd]].
    + cbn. rewrite decide_True by done. assert (K := inv_count _ _ I i c Ec). lia.
    + rewrite (inv_count _ _ I j d Hd). cbn. rewrite decide_False by congruence. lia.
  - intros j Hj. rewrite Hown. cbn in Hj. rewrite insert_length in Hj.
    assert (K := inv_known _ _ I j Hj). cbn. rewrite decide_False; [lia|]. intros [=]. lia.
  - intros j d Hd Hd0. cbn in Hd. apply insert_cases in Hd as [(-> & -> & _)|[Hn Hd]].
    + cbn. by apply (inv_live _ _ I i).
    + by apply (inv_live _ _ I j).
  - intros j d Hd. cbn in Hd. apply insert_cases in Hd as [(-> & -> & _)|[Hn Hd]]; [cbn; lia|].
    by apply (inv_small _ _ I j).
  - intros j. cbn [set_cell h_log h_cells]. rewrite (inv_log _ _ I). split; intros (d & Hd & Hd0).
    + exists d. rewrite list_lookup_insert_ne; [done|]. intros ->. congruence.
    + apply insert_cases in Hd as [(-> & -> & _)|[Hn Hd]]; [cbn in Hd0; lia|by exists d].
  - apply I.
Qed.
Lemma good_get k h own p : good k h own -> 0 < (match p with Some i => cnt i own + owners h i | None => 1 end) ->
  k + 1 < 2 ^ 32 - 1 ->
  exists h', ptr_get h p = POk h' /\ good (k + 1) h' (p :: own) /\
    (forall j, option_map c_kids (h_cells h' !! j) = option_map c_kids (h_cells h !! j)).
Proof.
  intros [I D W] Hp Hk. destruct p as [i|]; cbn.
  - destruct (h_cells h !! i) as [c|] eqn:Ec.
    2: { apply lookup_ge_None in Ec. assert (K := inv_known _ _ I i Ec). lia. }
    assert (Hc := inv_count _ _ I i c Ec). assert (H0 : c_refs c <> 0) by lia.
    destruct (inv_live _ _ I i c Ec H0) as [Hl Hm]. unfold access. rewrite Ec, Hl, Hm. cbn [negb].
    assert (Hs : c_refs c + 1 < 2 ^ 32 - 1).
    { assert (cnt i own <= N.of_nat (length own)) by apply cnt_len. assert (owners h i <= weight h) by apply owners_weight. lia. }
    destruct (inv_get h own i c I Ec H0 Hs) as [I' H0']. rewrite Hl, Hm in *.
    eexists. split; [done|]. split; [split; [done| |]|].
    + intros j d Hd Hd0. cbn in Hd. apply insert_cases in Hd as [(-> & -> & _)|[Hn Hd]]; [done|]. by apply (D j).
    + unfold weight. cbn [set_cell h_cells length].
      assert (T := total_insert (fun c => N.of_nat (length (c_kids c))) (h_cells h) i c (Cell (u32 (c_refs c + 1)) true true (c_kids c)) Ec).
      cbn [c_kids] in T. unfold weight in W. lia.
    + intros j. cbn. destruct (decide (j = i)) as [-> |Hn].
      * rewrite list_lookup_insert by by eapply lookup_lt_Some. by rewrite Ec.
      * by rewrite list_lookup_insert_ne.
  - exists h. split; [done|]. split; [|done]. split; [|done|cbn [length]; lia].
    revert I. apply inv_perm. intros i. cbn. by rewrite decide_False.
Qed.
Lemma total_map f l l' : (forall j, option_map f (l !! j) = option_map f (l' !! j)) -> total f l = total f l'.
Proof.
  revert l'. induction l as [|c l IH]; intros [|c' l'] H; [done|specialize (H O); done|specialize (H O); done|].
  cbn. assert (H0 := H O). cbn in H0. injection H0 as ->. f_equal. apply IH. intros j. exact (H (S j)).
Qed.
Lemma freed_kids h h' : freed h h' -> forall j, option_map c_kids (h_cells h' !! j) = option_map c_kids (h_cells h !! j).
Proof.
  intros F j. destruct (h_cells h !! j) as [c|] eqn:E, (h_cells h' !! j) as [c'|] eqn:E'; cbn; try done.
  - f_equal. by apply (fr_mono _ _ F j).
  - apply lookup_lt_Some in E. apply lookup_ge_None in E'. rewrite (fr_len _ _ F) in E'. lia.
  - apply lookup_lt_Some in E'. apply lookup_ge_None in E. rewrite (fr_len _ _ F) in E'. lia.
Qed.
Lemma weight_kids h h' : (forall j, option_map c_kids (h_cells h' !! j) = option_map c_kids (h_cells h !! j)) ->
  weight h' = weight h.
Proof.
  intros H. apply total_map. intros j. specialize (H j).
  destruct (h_cells h !! j), (h_cells h' !! j); cbn in *; try done. by injection H as ->.
Qed.
Lemma active_len h : active h <= N.of_nat (length (h_cells h)).
Proof. unfold active. induction (h_cells h) as [|c l IH]; cbn; [lia|]. destruct (_ =? _); lia. Qed.
Lemma good_release k h own own' p : good k h own -> give p own = Some own' ->
  exists h', drop_ptr h p = POk h' /\ good k h' own' /\
    (forall j, option_map c_kids (h_cells h' !! j) = option_map c_kids (h_cells h !! j)).
Proof.
  intros [I D W] Hg. assert (I' : inv h (p :: own')).
  { revert I. apply inv_perm. intros i. by apply cnt_give. }
  unfold drop_ptr. destruct (drop_ok (S (S (length (h_cells h)))) h p own' I') as (h' & E & I2 & F).
  { assert (A := active_len h). lia. }
  exists h'. split; [done|]. split; [|by apply freed_kids]. split; [done| |].
  - intros i c Hc H0. destruct (fr_new _ _ F i c Hc H0) as [(d & Hd & Hd0)|]; [|done].
    assert (Hl := D i d Hd Hd0). rewrite (fr_dead _ _ F i d Hd Hd0) in Hc. by injection Hc as <-.
  - rewrite (weight_kids h h') by by apply freed_kids. apply len_give in Hg. lia.
Qed.
Lemma good_new k h own own' kids : good k h own -> give_all kids own = Some own' -> k + 1 < 2 ^ 32 - 1 ->
  good (k + 1) (fst (ptr_alloc h kids)) (snd (ptr_alloc h kids) :: own').
Proof.
  intros [I D W] Hg Hk. cbn.
  assert (Hcnt : forall i, cnt i own = cnt i kids + cnt i own').
  { intros i. rewrite (cnt_give_all i kids own own' Hg). apply cnt_app. }
  set (n := length (h_cells h)). set (c0 := Cell 1 true true kids).
  set (h' := Heap (h_cells h ++ [c0]) (h_log h)).
  assert (Hown : forall i, owners h' i = owners h i + cnt i kids).
  { intros i. unfold owners, h'. cbn [h_cells]. rewrite total_app. cbn. lia. }
  assert (Hnew : forall j d, h_cells h' !! j = Some d -> (h_cells h !! j = Some d /\ j <> n) \/ (j = n /\ d = c0)).
  { intros j d Hd. cbn in Hd. apply lookup_app_Some in Hd as [Hd|[Hge Hd]].
    - left. split; [done|]. apply lookup_lt_Some in Hd. lia.
    - right. destruct (j - length (h_cells h))%nat as [|m] eqn:Em; [|by destruct m]. cbn in Hd. split; [lia|congruence]. }
  split; [split| |].
  - intros j d Hd. rewrite Hown. destruct (Hnew j d Hd) as [[Hd' Hn]|[-> ->]].
    + cbn. rewrite decide_False by congruence. rewrite (inv_count _ _ I j d Hd'), Hcnt. lia.
    + cbn. rewrite decide_True by done. assert (K := inv_known _ _ I n ltac:(lia)). rewrite Hcnt in K. lia.
  - intros j Hj. rewrite Hown. cbn in Hj. rewrite app_length in Hj. cbn in Hj. fold n in Hj.
    cbn. rewrite decide_False by (intros [=]; lia). assert (K := inv_known _ _ I j ltac:(lia)). rewrite Hcnt in K. lia.
  - intros j d Hd Hd0. destruct (Hnew j d Hd) as [[Hd' Hn]|[-> ->]]; [|done]. by apply (inv_live _ _ I j).
  - intros j d Hd. destruct (Hnew j d Hd) as [[Hd' Hn]|[-> ->]]; [by apply (inv_small _ _ I j)|done].
  - intros j. cbn [h' h_log]. rewrite (inv_log _ _ I). split; intros (d & Hd & Hd0).
    + exists d. split; [|done]. cbn. by apply lookup_app_l_Some.
    + destruct (Hnew j d Hd) as [[Hd' Hn]|[-> ->]]; [by exists d|done].
  - apply I.
  - intros j d Hd Hd0. destruct (Hnew j d Hd) as [[Hd' Hn]|[-> ->]]; [by apply (D j)|done].
  - unfold weight, h'. cbn [h_cells]. rewrite total_app. cbn [total c0 c_kids length].
    apply len_give_all in Hg. unfold weight in W. lia.
Qed.
Lemma good_store k h own own' o p : good k h own -> give p own = Some own' -> In (Some o) own' ->
  exists h', store_field h o p = POk h' /\ good k h' own'.
Proof.
  intros [I D W] Hg Ho. assert (Hc0 := cnt_in _ _ Ho). assert (Ho1 := cnt_give o p own own' Hg). cbn in Ho1.
  destruct (h_cells h !! o) as [c|] eqn:Ec.
  2: { apply lookup_ge_None in Ec. assert (K := inv_known _ _ I o Ec). lia. }
  assert (Hc := inv_count _ _ I o c Ec). assert (H0 : c_refs c <> 0) by lia.
  destruct (inv_live _ _ I o c Ec H0) as [Hl Hm]. unfold store_field, access. rewrite Ec, Hl, Hm. cbn [negb].
  eexists. split; [done|]. rewrite Hl, Hm. set (c0 := Cell (c_refs c) true true (p :: c_kids c)).
  assert (Hown : forall i, owners (set_cell h o c0) i = (if decide (p = Some i) then 1 else 0) + owners h i).
  { intros i. unfold owners. cbn [set_cell h_cells]. assert (T := total_insert (owned_by i) (h_cells h) o c c0 Ec).
    unfold owned_by in T at 2 4. cbn [c0 c_refs c_kids cnt] in T. rewrite (proj2 (N.eqb_neq _ _) H0) in T. lia. }
  assert (Hcnt : forall i, cnt i own = (if decide (p = Some i) then 1 else 0) + cnt i own').
  { intros i. by rewrite (cnt_give i p own own' Hg). }
  split; [split| |].
  - intros j d Hd. rewrite Hown. cbn in Hd. apply insert_cases in Hd as [(-> & -> & _)|[Hn Hd]].
    + cbn. rewrite Hcnt in Hc. lia.
    + rewrite (inv_count _ _ I j d Hd), Hcnt. lia.
  - intros j Hj. rewrite Hown. cbn in Hj. rewrite insert_length in Hj. assert (K := inv_known _ _ I j Hj). rewrite Hcnt in K. lia.
  - intros j d Hd Hd0. cbn in Hd. apply insert_cases in Hd as [(-> & -> & _)|[Hn Hd]]; [done|]. by apply (inv_live _ _ I j).
  - intros j d Hd. cbn in Hd. apply insert_cases in Hd as [(-> & -> & _)|[Hn Hd]].
    + by apply (inv_small _ _ I o c).
    + by apply (inv_small _ _ I j).
  - intros j. cbn [set_cell h_log h_cells]. rewrite (inv_log _ _ I). split; intros (d & Hd & Hd0).
    + exists d. rewrite list_lookup_insert_ne; [done|]. intros ->. congruence.
    + apply insert_cases in Hd as [(-> & -> & _)|[Hn Hd]]; [done|by exists d].
  - apply I.
  - intros j d Hd Hd0. cbn in Hd. apply insert_cases in Hd as [(-> & -> & _)|[Hn Hd]]; [done|]. by apply (D j).
  - unfold weight. cbn [set_cell h_cells].
    assert (T := total_insert (fun c => N.of_nat (length (c_kids c))) (h_cells h) o c c0 Ec).
    cbn [c0 c_kids length] in T. unfold weight in W. apply len_give in Hg. lia.
Qed.

Lemma elem_In {A} (x : A) l : x ∈ l <-> In x l.
Proof. apply elem_of_list_In. Qed.
Lemma act_ok a k h own r : good k h own -> act a h own = Some r -> k + 1 < 2 ^ 32 - 1 ->
  exists h' own', r = POk (h', own') /\ good (k + 1) h' own'.
Proof.
  intros G Ha Hk.
  assert (Weak : forall h own, good k h own -> good (k + 1) h own) by (intros ? ? [? ? ?]; split; try done; lia).
  destruct a as [kids|p|p|o p|o p]; cbn [act] in Ha.
  - destruct (give_all kids own) as [own'|] eqn:E; [|done]. injection Ha as <-. eexists _, _. split; [done|].
    by apply (good_new k h own own' kids).
  - destruct (decide (p ∈ own)) as [Hp|]; [|done]. injection Ha as <-.
    destruct (good_get k h own p G) as (h' & -> & G' & _); [|done|by eexists _, _].
    destruct p as [i|]; [|done]. apply elem_In, cnt_in in Hp. lia.
  - destruct (give p own) as [own'|] eqn:E; [|done]. injection Ha as <-.
    destruct (good_release k h own own' p G E) as (h' & -> & G' & _). eexists _, _. split; [done|]. by apply Weak.
  - destruct (give p own) as [own'|] eqn:E; [|done]. destruct (decide (Some o ∈ own')) as [Ho|]; [|done]. injection Ha as <-.
    destruct (good_store k h own own' o p G E) as (h' & -> & G'); [by apply elem_In|]. eexists _, _. split; [done|]. by apply Weak.
  - destruct (decide (Some o ∈ own)) as [Ho|]; [|done]. destruct (decide _) as [Hp|]; [|done]. injection Ha as <-.
    destruct (h_cells h !! o) as [c|] eqn:Ec; [|by apply elem_of_nil in Hp].
    destruct (good_get k h own p G) as (h' & -> & G' & _); [|done|by eexists _, _].
    destruct p as [i|]; [|done]. apply elem_In, cnt_in in Hp. apply elem_In, cnt_in in Ho.
    assert (owned_by i c <= owners h i) by by eapply total_ge.
    assert (Hc := inv_count _ _ (g_inv _ _ _ G) o c Ec).
    unfold owned_by in H. rewrite (proj2 (N.eqb_neq (c_refs c) 0)) in H by lia. lia.
Qed.
Lemma history_ok acts : forall k h own r, good k h own -> history acts h own = Some r ->
  k + N.of_nat (length acts) < 2 ^ 32 - 1 ->
  exists h' own', r = POk (h', own') /\ good (k + N.of_nat (length acts)) h' own'.
Proof.
  induction acts as [|a acts IH]; intros k h own r G Hr Hk; cbn in Hr.
  - injection Hr as <-. eexists _, _. split; [done|]. cbn. by rewrite N.add_0_r.
  - cbn [length] in *. destruct (act a h own) as [r0|] eqn:Ea; [|done].
    destruct (act_ok a k h own r0 G Ea) as (h1 & own1 & -> & G1); [lia|].
    destruct (IH (k + 1) h1 own1 r G1 Hr) as (h2 & own2 & -> & G2); [lia|].
    eexists _, _. split; [done|]. replace (k + N.of_nat (S (length acts))) with (k + 1 + N.of_nat (length acts)) by lia. done.
Qed.
Lemma good_start : good 1 (Heap [] []) [None].
Proof.
  split; [split|done|done]; try done.
  - intros. cbn. split; [done|]. by intros (c & ? & _).
  - constructor.
Qed.
(** What [good] means in terms of references. *)
Lemma good_meaning k h own i : good k h own -> (i < length (h_cells h))%nat ->
  (In i (h_log h) <-> unreferenced h own i).
Proof.
  intros [I D W] Hi. destruct (lookup_lt_is_Some_2 _ _ Hi) as [c Hc].
  assert (Hn := inv_count _ _ I i c Hc). rewrite (inv_log _ _ I). split.
  - intros (d & Hd & Hd0). rewrite Hc in Hd. injection Hd as <-. split.
    + apply cnt_0. lia.
    + intros j e He Hj. apply cnt_0. assert (owned_by i e <= owners h i) by by eapply total_ge.
      destruct (N.eqb_spec (c_refs e) 0) as [E|E].
      * exfalso. apply Hj, (inv_log _ _ I). by exists e.
      * unfold owned_by in H. rewrite (proj2 (N.eqb_neq _ _) E) in H. lia.
  - intros [H1 H2]. exists c. split; [done|].
    assert (cnt i own = 0) by (destruct (N.eq_0_gt_0_cases (cnt i own)) as [?|?%cnt_pos]; done).
    assert (owners h i = 0); [|lia].
    apply total_0. intros e He. apply elem_of_list_In, elem_of_list_lookup in He as [j Hj].
    unfold owned_by. destruct (N.eqb_spec (c_refs e) 0) as [E|E]; [done|].
    destruct (N.eq_0_gt_0_cases (cnt i (c_kids e))) as [?|Hp%cnt_pos]; [done|]. exfalso.
    apply (H2 j e Hj); [|done]. intros Hl. apply (inv_log _ _ I) in Hl as (e' & He' & ?). congruence.
Qed.

(** ** No leak without cycles *)
Definition ordered (h : heap) (own : list ptr) : Prop :=
  (forall i, In (Some i) own -> (i < length (h_cells h))%nat) /\
  forall j c i, h_cells h !! j = Some c -> In (Some i) (c_kids c) -> (i < j)%nat.
Definition no_store (a : action) : Prop := match a with Store _ _ => False | _ => True end.
Lemma in_give x p own own' : give p own = Some own' -> In x own' -> In x own.
Proof.
  revert own'. induction own as [|q own IH]; intros own' H Hx; cbn in *; [done|].
  destruct (decide (q = p)); [simplify_eq; by right|]. destruct (give p own); [|done]. simplify_eq.
  destruct Hx as [? |?]; [by left|]. right. eauto.
Qed.
Lemma in_give_p p own own' : give p own = Some own' -> In p own.
Proof.
  revert own'. induction own as [|q own IH]; intros own' H; cbn in *; [done|].
  destruct (decide (q = p)); [by left|]. destruct (give p own); [|done]. right. eauto.
Qed.
Lemma in_give_all x ps : forall own own', give_all ps own = Some own' -> In x (ps ++ own') -> In x own.
Proof.
  induction ps as [|p ps IH]; intros own own' H Hx; cbn in *; [by simplify_eq|].
  destruct (give p own) as [r|] eqn:E; [|done]. destruct Hx as [-> |Hx]; [by eapply in_give_p|].
  eapply in_give; [done|]. eauto.
Qed.
Lemma ordered_kids h h' own own' : length (h_cells h') = length (h_cells h) ->
  (forall j, option_map c_kids (h_cells h' !! j) = option_map c_kids (h_cells h !! j)) ->
  ordered h own -> (forall i, In (Some i) own' -> (i < length (h_cells h))%nat) -> ordered h' own'.
Proof.
  intros Hl Hk [O1 O2] Ho. split.
  - intros i Hi. rewrite Hl. auto.
  - intros j c i Hj Hi. specialize (Hk j). rewrite Hj in Hk. destruct (h_cells h !! j) as [d|] eqn:Ed; [|done].
    cbn in Hk. injection Hk as Hk. rewrite Hk in Hi. by apply (O2 j d).
Qed.
Lemma kids_len h h' : (forall j, option_map c_kids (h_cells h' !! j) = option_map c_kids (h_cells h !! j)) ->
  length (h_cells h') = length (h_cells h).
Proof.
  intros H. destruct (lt_eq_lt_dec (length (h_cells h')) (length (h_cells h))) as [[Hl|Hl]|Hl]; [|done|].
  - specialize (H (length (h_cells h'))). rewrite (lookup_ge_None_2 (h_cells h')) in H by lia.
    destruct (lookup_lt_is_Some_2 _ _ Hl) as [c Hc]. by rewrite Hc in H.
  - specialize (H (length (h_cells h))). rewrite (lookup_ge_None_2 (h_cells h)) in H by lia.
    destruct (lookup_lt_is_Some_2 _ _ Hl) as [c Hc]. by rewrite Hc in H.
Qed.
Lemma act_ordered a k h own h' own' : good k h own -> k + 1 < 2 ^ 32 - 1 -> no_store a -> ordered h own ->
  act a h own = Some (POk (h', own')) -> ordered h' own'.
Proof.
  intros G Hk Hns O Ha. destruct a as [kids|p|p|o p|o p]; cbn [act] in Ha; [| | |done|].
  - destruct (give_all kids own) as [own1|] eqn:E; [|done]. injection Ha as <- <-. destruct O as [O1 O2]. split.
    + intros i [[=] |Hi]; cbn; rewrite app_length; cbn; [lia|].
      assert (i < length (h_cells h))%nat; [|lia]. apply O1. eapply in_give_all; [done|]. apply in_or_app. by right.
    + intros j c i Hj Hi. cbn in Hj. apply lookup_app_Some in Hj as [Hj|[Hge Hj]]; [by apply (O2 j c)|].
      destruct (j - length (h_cells h))%nat as [|m] eqn:Em; [|by destruct m]. cbn in Hj. injection Hj as <-. cbn in Hi.
      assert (i < length (h_cells h))%nat; [|lia]. apply O1. eapply in_give_all; [done|]. apply in_or_app. by left.
  - destruct (decide (p ∈ own)) as [Hp|]; [|done]. injection Ha as Ha.
    destruct (good_get k h own p G) as (h1 & E & G' & Hkk); [|done|].
    { destruct p as [i|]; [|done]. apply elem_In, cnt_in in Hp. lia. }
    rewrite E in Ha. injection Ha as <- <-. apply (ordered_kids h h1 own); try done; [by apply kids_len|].
    intros i [-> |Hi]; apply O; [by apply elem_In|done].
  - destruct (give p own) as [own1|] eqn:E; [|done]. injection Ha as Ha.
    destruct (good_release k h own own1 p G E) as (h1 & E1 & G' & Hkk). rewrite E1 in Ha. injection Ha as <- <-.
    apply (ordered_kids h h1 own); try done; [by apply kids_len|]. intros i Hi. apply O. by eapply in_give.
  - destruct (decide (Some o ∈ own)) as [Ho|]; [|done]. destruct (decide _) as [Hp|]; [|done]. injection Ha as Ha.
    destruct (h_cells h !! o) as [c|] eqn:Ec; [|by apply elem_of_nil in Hp].
    assert (Ho' := lookup_lt_Some _ _ _ Ec).
    destruct (good_get k h own p G) as (h1 & E & G' & Hkk); [|done|].
    { destruct p as [i|]; [|done]. apply elem_In, cnt_in in Hp. apply elem_In, cnt_in in Ho.
      assert (owned_by i c <= owners h i) by by eapply total_ge.
      assert (Hc := inv_count _ _ (g_inv _ _ _ G) o c Ec).
      unfold owned_by in H. rewrite (proj2 (N.eqb_neq (c_refs c) 0)) in H by lia. lia. }
    rewrite E in Ha. injection Ha as <- <-. apply (ordered_kids h h1 own); try done; [by apply kids_len|].
    intros i [-> |Hi]; [|by apply O]. apply elem_In in Hp. destruct O as [_ O2]. specialize (O2 o c i Ec Hp). lia.
Qed.
Lemma history_ordered acts : forall k h own h' own', good k h own -> k + N.of_nat (length acts) < 2 ^ 32 - 1 ->
  Forall no_store acts -> ordered h own -> history acts h own = Some (POk (h', own')) -> ordered h' own'.
Proof.
  induction acts as [|a acts IH]; intros k h own h' own' G Hk Hns O Hh; cbn in Hh; [by simplify_eq|].
  apply Forall_cons_1 in Hns as [Ha Hns]. cbn [length] in Hk.
  destruct (act a h own) as [r0|] eqn:Ea; [|done].
  destruct (act_ok a k h own r0 G Ea) as (h1 & own1 & -> & G1); [lia|].
  apply (IH (k + 1) h1 own1 h' own' G1); [lia|done| |done]. by apply (act_ordered a k h own h1 own1 G); [lia|..].
Qed.
Lemma no_leak k h own : good k h own -> ordered h own -> (forall i, ~ In (Some i) own) ->
  forall i, (i < length (h_cells h))%nat -> In i (h_log h).
Proof.
  intros G O Hown.
  assert (W : forall m i, (length (h_cells h) - i <= m)%nat -> (i < length (h_cells h))%nat -> In i (h_log h)).
  { induction m as [|m IH]; intros i Hm Hi; [lia|].
    apply (good_meaning k h own i G Hi). split; [done|].
    intros j c Hj Hlog Hk. destruct O as [_ O2]. assert (Hji := O2 j c i Hj Hk).
    apply Hlog. apply IH; [lia|]. by eapply lookup_lt_Some. }
  intros i Hi. by eapply W.
Qed.

(** ** Too many references *)
Lemma copies n : forall refs own, refs < 2 ^ 32 -> Some O ∈ own ->
  history (repeat (Copy (Some O)) n) (Heap [Cell refs true true []] []) own =
    Some (POk (Heap [Cell (u32 (refs + N.of_nat n)) true true []] [], repeat (Some O) n ++ own)).
Proof.
  induction n as [|n IH]; intros refs own Hr Ho.
  - cbn. unfold u32. rewrite N.add_0_r, N.mod_small by done. done.
  - cbn [repeat history act]. rewrite decide_True by done. cbn [ptr_get access h_cells list_lookup lookup negb c_live c_magic c_refs c_kids and_own set_cell].
    unfold set_cell. cbn [h_cells h_log]. change (<[0%nat := ?c]> [?d]) with [c].
    rewrite IH; [|unfold u32; apply N.mod_lt; done|by right].
    assert (E : repeat (Some 0%nat) n ++ Some 0%nat :: own = (Some 0%nat :: repeat (Some 0%nat) n) ++ own).
    { clear. induction n as [|n IH]; cbn; [done|]. by rewrite IH. }
    assert (U : u32 (u32 (refs + 1) + N.of_nat n) = u32 (refs + N.of_nat (S n))).
    { unfold u32. change (2 ^ 32) with 4294967296. lia. }
    by rewrite E, U.
Qed.
Lemma history_app a b h own h' own' : history a h own = Some (POk (h', own')) ->
  history (a ++ b) h own = history b h' own'.
Proof.
  revert h own. induction a as [|x a IH]; intros h own H; cbn in *; [by simplify_eq|].
  destruct (act x h own) as [[[h1 own1]| | | |]|]; try done. by apply IH.
Qed.
Lemma too_many n : N.of_nat n = 2 ^ 32 ->
  exists acts h own, start acts = Some (POk (h, own)) /\ In O (h_log h) /\ In (Some O) own.
Proof.
  intros Hn. exists ((New [] :: repeat (Copy (Some O)) n) ++ [Release (Some O)]).
  assert (E : start (New [] :: repeat (Copy (Some O)) n) =
    Some (POk (Heap [Cell 1 true true []] [], repeat (Some O) n ++ [Some O; None]))).
  { unfold start. cbn [history act give_all ptr_alloc h_cells h_log app length].
    rewrite copies by (done || by left). rewrite Hn. done. }
  destruct n as [|n]; [done|]. clear Hn. revert E. generalize (New [] :: repeat (Copy (Some O)) (S n)).
  intros acts E. eexists _, _. unfold start in *. rewrite (history_app _ _ _ _ _ _ E).
  cbn [history act repeat app give]. rewrite decide_True by done. split; [reflexivity|]. cbn.
  split; [by left|]. apply in_or_app. right. by left.
Qed.
