From Coq Require Import ZifyBool ZifyNat ZifyN.
From stdpp Require Import numbers list.
From Verif Require Import MemPoolModel MemPoolSpec.
Ltac Zify.zify_post_hook ::= Z.div_mod_to_equations.
Local Open Scope N_scope.
Local Arguments N.modulo : simpl never.
Local Arguments N.add : simpl never.
Local Arguments N.sub : simpl never.
Local Arguments N.pow : simpl never.
Local Arguments N.ltb : simpl never.
Local Arguments N.leb : simpl never.
Local Arguments N.eqb : simpl never.
Local Arguments alignTo : simpl never.
Local Arguments overlap : simpl never.

Notation apart := (fun a b => ~ overlap a b).

Lemma overlap_sym a b : overlap a b -> overlap b a.
Proof.
  destruct a as [[ka oa] na], b as [[kb ob] nb]. unfold overlap.
  intros [-> [i [? ?]]]. split; [done|]. exists i. done.
Qed.

Lemma fop_perm l l' :
  l ≡ₚ l' -> ForallOrdPairs apart l -> ForallOrdPairs apart l'.
Proof.
  induction 1 as [|x l l' HP IH|x y l|l1 l2 l3 _ IH1 _ IH2]; intros H; [done| | |].
  - inversion H; subst. constructor; [|by apply IH].
    by rewrite <- HP.
  - inversion H as [|? ? Hy H']; subst. inversion H' as [|? ? Hx H'']; subst.
    inversion Hy as [|? ? Hyx Hyl]; subst.
    constructor; [constructor; [|done]|].
    + intros Ho. by apply Hyx, overlap_sym.
    + by constructor.
  - auto.
Qed.

Lemma fop_lookup l : ForallOrdPairs apart l -> pairwise_disjoint l.
Proof.
  intros H i j a b Hij Ha Hb.
  assert (L : forall i j a b, (i < j)%nat -> l !! i = Some a -> l !! j = Some b -> ~ overlap a b).
  { clear -H. induction H as [|x l Hx Hl IH]; intros i j a b Hij Ha Hb; [done|].
    destruct i as [|i], j as [|j]; try lia; cbn in Ha, Hb.
    - injection Ha as ->. rewrite Forall_lookup in Hx. by eapply Hx.
    - eapply (IH i j); [lia|done..]. }
  destruct (decide (i < j)%nat) as [?|?]; [by eapply L|].
  intros Ho%overlap_sym. revert Ho. eapply (L j i); [lia|done..].
Qed.
Lemma fop_app_inv l k :
  ForallOrdPairs apart (l ++ k) -> ForallOrdPairs apart l /\ ForallOrdPairs apart k.
Proof.
  induction l as [|x l IH]; cbn; intros H; [split; [constructor|done]|].
  inversion H as [|? ? Hx Hl]; subst. apply IH in Hl as [? ?]. split; [|done].
  constructor; [|done]. by apply Forall_app in Hx as [? _].
Qed.

Definition used (blocks : list block) (a : ptr * N) : Prop :=
  let '((k, off), n) := a in exists b, blocks !! k = Some b /\ off + n <= b_size b.
Definition block_ok (b : block) : Prop :=
  b_size b <= b_cap b /\ b_size b mod 32 = 0 /\ b_cap b < 2 ^ 64.
Definition chain_ok (blocks : list block) (cur : option nat) : Prop :=
  Forall block_ok blocks /\
  match cur with
  | None => blocks = []
  | Some c => (c < length blocks)%nat /\
      forall k b, (c < k)%nat -> blocks !! k = Some b -> b_size b = 0
  end.
Definition extents (w : world) : list (ptr * N) := snd w ++ map snd (mp_caches (fst w)).
Definition inv (w : world) : Prop :=
  chain_ok (mp_blocks (fst w)) (mp_cur (fst w)) /\
  Forall (used (mp_blocks (fst w))) (extents w) /\
  Forall aligned (extents w) /\
  ForallOrdPairs apart (extents w).

Lemma new_block_ok cap : cap < 2 ^ 64 -> block_ok (Block 0 cap).
Proof. intros. unfold block_ok. cbn. split_and!; [lia|done|done]. Qed.

Lemma alignTo_spec size : 0 < size -> size < 2 ^ 63 ->
  size <= alignTo size 32 < size + 32 /\ alignTo size 32 mod 32 = 0.
Proof.
  intros H0 H. unfold alignTo, wrap64. destruct (N.eqb_spec (size mod 32) 0) as [E|E]; cbn [negb].
  - lia.
  - rewrite N.mod_small by (clear -H; lia). lia.
Qed.

Lemma allocMemBlock_spec ok size :
  size < 2 ^ 63 + 64 ->
  (allocMemBlock ok size = MDie) \/
  (exists cap, allocMemBlock ok size = MOk (Block 0 cap) /\ size <= cap /\ cap < 2 ^ 64).
Proof.
  intros H. unfold allocMemBlock, wrap64, sizeof_MemBlock.
  set (cap := if size <? 1024 then 1024 else size).
  assert (Hc : size <= cap /\ cap < 2 ^ 63 + 1024) by (unfold cap; destruct (N.ltb_spec size 1024); lia).
  rewrite N.mod_small by lia.
  rewrite (proj2 (N.ltb_ge _ _)) by lia.
  destruct (ok _); [right|by left]. exists cap. split; [done|]. lia.
Qed.

Lemma find_block_spec ok rest n size :
  size < 2 ^ 63 + 64 -> rest <> [] -> Forall block_ok rest ->
  (forall k b, (0 < k)%nat -> rest !! k = Some b -> b_size b = 0) ->
  find_block ok rest n size = MDie \/
  (exists bs j b, find_block ok rest n size = MOk (bs, (n + j)%nat) /\
     (bs = rest \/ exists cap, cap < 2 ^ 64 /\ bs = rest ++ [Block 0 cap]) /\
     bs !! j = Some b /\ b_size b + size <= b_cap b /\
     (forall k b', (j < k)%nat -> bs !! k = Some b' -> b_size b' = 0)).
Proof.
  intros Hs. revert n. induction rest as [|b rest IH]; intros n Hne Hok Hz; [done|].
  apply Forall_cons_1 in Hok as [Hb Hok]. cbn [find_block].
  unfold remainingMem. destruct Hb as (Hb1 & Hb2 & Hb3).
  rewrite (proj2 (N.leb_le _ _)) by done.
  destruct (N.ltb_spec (b_cap b - b_size b) size) as [Hr|Hr].
  - destruct rest as [|b' rest'].
    + destruct (allocMemBlock_spec ok size Hs) as [->|(cap & -> & Hc1 & Hc2)]; [by left|right].
      exists [b; Block 0 cap], 1%nat, (Block 0 cap). split_and!.
      * do 2 f_equal. lia.
      * right. by exists cap.
      * done.
      * cbn [b_size b_cap]. lia.
      * intros k b'' Hk Hl. destruct k as [|[|k]]; [lia|lia|done].
    + assert (Hb' : b_size b' = 0) by (apply (Hz 1%nat); [lia|done]).
      rewrite (proj2 (N.eqb_eq _ _)) by done.
      destruct (IH (S n)) as [->|(bs & j & b0 & -> & Hbs & Hj & Hroom & Hafter)];
        [done|done| |by left|right].
      { intros k b0 Hk Hl. apply (Hz (S k)); [lia|done]. }
      exists (b :: bs), (S j), b0. split_and!.
      * do 2 f_equal. lia.
      * destruct Hbs as [->|(cap & ? & ->)]; [by left|right]. by exists cap.
      * done.
      * done.
      * intros k b'' Hk Hl. destruct k as [|k]; [lia|]. apply (Hafter k); [lia|done].
  - right. exists (b :: rest), 0%nat, b. split_and!.
    + do 2 f_equal. lia.
    + by left.
    + done.
    + lia.
    + done.
Qed.

Lemma alloc_spec ok m size :
  0 < size -> size < 2 ^ 63 -> chain_ok (mp_blocks m) (mp_cur m) ->
  let size' := alignTo size 32 in
  allocFromMemPool ok m size = MDie \/
  (exists bs c b, 
     allocFromMemPool ok m size =
       MOk (MemPool (<[c := Block (b_size b + size') (b_cap b)]> bs) (Some c) (mp_caches m),
            Some (c, b_size b)) /\
     (bs = mp_blocks m \/ exists cap, cap < 2 ^ 64 /\ bs = mp_blocks m ++ [Block 0 cap]) /\
     bs !! c = Some b /\ b_size b + size' <= b_cap b /\
     (forall k b', (c < k)%nat -> bs !! k = Some b' -> b_size b' = 0)).
Proof.
  intros H0 Hs [Hok Hcur] size'.
  assert (Hal := alignTo_spec size H0 Hs).
  unfold allocFromMemPool, sizeof_max_align. fold size' in Hal |- *.
  rewrite (proj2 (N.eqb_neq _ _)) by lia.
  assert (Hbig : size' < 2 ^ 63 + 64) by lia.
  assert (Hfin : forall bs c b,
    (bs = mp_blocks m \/ exists cap, cap < 2 ^ 64 /\ bs = mp_blocks m ++ [Block 0 cap]) ->
    bs !! c = Some b -> b_size b + size' <= b_cap b ->
    match bs !! c with
    | Some b => match remainingMem b with
      | MOk r => if r <? size' then MAssert else MOk (MemPool (<[c := Block (wrap64 (b_size b + size')) (b_cap b)]> bs)
                    (Some c) (mp_caches m), Some (c, b_size b))
      | MDie => MDie | MAssert => MAssert | MUndef => MUndef end
    | None => MUndef end =
    MOk (MemPool (<[c := Block (b_size b + size') (b_cap b)]> bs) (Some c) (mp_caches m),
            Some (c, b_size b))).
  { intros bs c b Hbs Hc Hroom. rewrite Hc. unfold remainingMem.
    assert (Hbok : block_ok b).
    { destruct Hbs as [->|(cap & Hcap & ->)].
      - rewrite Forall_lookup in Hok. by eapply Hok.
      - apply lookup_app_Some in Hc as [Hc|[_ Hc]].
        + rewrite Forall_lookup in Hok. by eapply Hok.
        + apply list_lookup_singleton_Some in Hc as [_ <-]. by apply new_block_ok. }
    destruct Hbok as (? & ? & ?).
    rewrite (proj2 (N.leb_le _ _)) by done.
    rewrite (proj2 (N.ltb_ge _ _)) by lia.
    unfold wrap64. rewrite N.mod_small by lia. done. }
  destruct (mp_cur m) as [c|].
  - destruct Hcur as [Hc Hz].
    destruct (find_block_spec ok (drop c (mp_blocks m)) c size') as
      [->|(bs & j & b & -> & Hbs & Hj & Hroom & Hafter)].
    + done.
    + intros E. apply (f_equal length) in E. rewrite drop_length in E. cbn in E. lia.
    + by apply Forall_drop.
    + intros k b Hk Hl. rewrite lookup_drop in Hl. apply (Hz (c + k)%nat); [lia|done].
    + by left.
    + right.
      assert (Hlt : length (take c (mp_blocks m)) = c) by (rewrite take_length; lia).
      assert (Hbs' : take c (mp_blocks m) ++ bs = mp_blocks m \/
        exists cap, cap < 2 ^ 64 /\ take c (mp_blocks m) ++ bs = mp_blocks m ++ [Block 0 cap]).
      { destruct Hbs as [->|(cap & ? & ->)]; [left; apply take_drop|right].
        exists cap. split; [done|]. by rewrite app_assoc, take_drop. }
      assert (Hl : forall k, (take c (mp_blocks m) ++ bs) !! (c + k)%nat = bs !! k).
      { intros k. rewrite lookup_app_r by lia. f_equal. lia. }
      exists (take c (mp_blocks m) ++ bs), (c + j)%nat, b. split_and!.
      * apply Hfin; [done|by rewrite Hl|done].
      * done.
      * by rewrite Hl.
      * done.
      * intros k b' Hk Hlk. replace k with (c + (k - c))%nat in Hlk by lia.
        rewrite Hl in Hlk. apply (Hafter (k - c)%nat); [lia|done].
  - destruct (allocMemBlock_spec ok size' Hbig) as [->|(cap & -> & Hc1 & Hc2)]; [by left|right].
    exists [Block 0 cap], 0%nat, (Block 0 cap). split_and!.
    + apply Hfin; [|done|cbn; lia]. right. exists cap. by rewrite Hcur.
    + right. exists cap. by rewrite Hcur.
    + done.
    + cbn [b_size b_cap]. lia.
    + intros k b' Hk Hl. destruct k; [lia|done].
Qed.

Lemma used_aligned_alloc blocks bs c b size' E :
  Forall (used blocks) E ->
  (bs = blocks \/ exists cap, cap < 2 ^ 64 /\ bs = blocks ++ [Block 0 cap]) ->
  bs !! c = Some b ->
  Forall (used (<[c := Block (b_size b + size') (b_cap b)]> bs)) E /\
  Forall (fun a => fst (fst a) = c -> snd (fst a) + snd a <= b_size b) E.
Proof.
  intros HE Hbs Hc.
  assert (Hk : forall k b0, blocks !! k = Some b0 -> bs !! k = Some b0).
  { intros k b0 Hk. destruct Hbs as [->|(cap & _ & ->)]; [done|].
    rewrite lookup_app_l; [done|]. by eapply lookup_lt_Some. }
  split; (eapply list.Forall_impl; [exact HE|]; intros [[k off] n] (b0 & Hb0 & Hle); cbn).
  - destruct (decide (k = c)) as [->|Hne].
    + exists (Block (b_size b + size') (b_cap b)). split.
      * apply list_lookup_insert. by eapply lookup_lt_Some.
      * cbn. apply Hk in Hb0. rewrite Hb0 in Hc. injection Hc as ->. lia.
    + exists b0. rewrite list_lookup_insert_ne by done. split; [by apply Hk|done].
  - intros ->. apply Hk in Hb0. rewrite Hb0 in Hc. injection Hc as ->. done.
Qed.

Lemma chain_ok_alloc blocks cur bs c b size' :
  chain_ok blocks cur ->
  (bs = blocks \/ exists cap, cap < 2 ^ 64 /\ bs = blocks ++ [Block 0 cap]) ->
  bs !! c = Some b -> b_size b + size' <= b_cap b -> size' mod 32 = 0 ->
  (forall k b', (c < k)%nat -> bs !! k = Some b' -> b_size b' = 0) ->
  chain_ok (<[c := Block (b_size b + size') (b_cap b)]> bs) (Some c).
Proof.
  intros [Hok _] Hbs Hc Hroom Hal Hafter.
  assert (Hok' : Forall block_ok bs).
  { destruct Hbs as [->|(cap & Hcap & ->)]; [done|]. apply Forall_app. split; [done|].
    constructor; [|done]. by apply new_block_ok. }
  assert (Hb : block_ok b) by (rewrite Forall_lookup in Hok'; by eapply Hok').
  destruct Hb as (Hb1 & Hb2 & Hb3). split.
  - apply Forall_insert; [done|]. unfold block_ok. cbn. split_and!; [lia| |lia].
    rewrite N.add_mod by done. by rewrite Hb2, Hal.
  - split.
    + rewrite insert_length. by eapply lookup_lt_Some.
    + intros k b' Hk Hl. rewrite list_lookup_insert_ne in Hl by lia. eauto.
Qed.

Lemma alloc_inv ok m live size :
  size < 2 ^ 63 -> inv (m, live) ->
  note_alloc (allocFromMemPool ok m size) live size = MDie \/
  exists w', note_alloc (allocFromMemPool ok m size) live size = MOk w' /\ inv w'.
Proof.
  intros Hs (Hch & Hus & Hal & Hd).
  destruct (decide (size = 0)) as [->|Hn0].
  { right. cbn. eexists. split; [done|]. done. }
  destruct (alloc_spec ok m size) as [->|(bs & c & b & -> & Hbs & Hc & Hroom & Hafter)];
    [lia|done|done|by left|right].
  assert (HA := alignTo_spec size ltac:(lia) Hs).
  cbn [fst snd] in *.
  destruct (used_aligned_alloc _ bs c b (alignTo size 32) _ Hus Hbs Hc) as [Hus' Hbelow].
  assert (Hbok : b_size b mod 32 = 0).
  { destruct Hch as [Hok _]. destruct Hbs as [->|(cap & ? & ->)].
    - rewrite Forall_lookup in Hok. by eapply Hok.
    - apply lookup_app_Some in Hc as [Hc|[_ Hc]].
      + rewrite Forall_lookup in Hok. by eapply Hok.
      + apply list_lookup_singleton_Some in Hc as [_ <-]. done. }
  eexists. split; [done|]. unfold inv, extents. cbn [fst snd mp_blocks mp_cur mp_caches].
  split_and!.
  - eapply chain_ok_alloc; [done|done|done|done|lia|done].
  - cbn [app]. constructor; [|done]. cbn.
    eexists. split; [apply list_lookup_insert; by eapply lookup_lt_Some|]. cbn. lia.
  - cbn [app]. constructor; [|done]. unfold aligned. cbn [fst snd]. lia.
  - cbn [app]. constructor; [|done].
    eapply list.Forall_impl; [exact Hbelow|]. intros [[k off] n] Hb. cbn in Hb.
    unfold overlap. intros [-> [i [Hi1 Hi2]]]. specialize (Hb eq_refl). lia.
Qed.

Lemma cache_pop_perm c l e r :
  cache_pop c l = Some (e, r) -> l ≡ₚ (c, e) :: r.
Proof.
  revert r. induction l as [|[c' e'] l IH]; intros r H; [done|]. cbn in H.
  destruct (Nat.eqb_spec c' c) as [->|Hne].
  - by injection H as -> ->.
  - destruct (cache_pop c l) as [[x r']|]; [|done]. injection H as -> <-.
    rewrite (IH r') by done. apply Permutation_swap.
Qed.

Lemma used_shrink blocks p n m : n <= m -> used blocks (p, m) -> used blocks (p, n).
Proof. destruct p as [k off]. intros H (b & Hb & Hle). exists b. split; [done|lia]. Qed.
Lemma overlap_shrink p n m a : n <= m -> overlap (p, n) a -> overlap (p, m) a.
Proof.
  destruct p as [k off], a as [[ka oa] na]. intros H [-> [i [H1 H2]]]. split; [done|].
  exists i. split; [lia|done].
Qed.

Lemma cache_alloc_inv ok m live c size :
  client_ok (m, live) (PCacheAlloc c size) = true -> inv (m, live) ->
  note_alloc (allocFromCacheOrPool ok m c size) live size = MDie \/
  exists w', note_alloc (allocFromCacheOrPool ok m c size) live size = MOk w' /\ inv w'.
Proof.
  intros Hok Hinv. cbn in Hok. apply andb_true_iff in Hok as [Hs Hn].
  unfold allocFromCacheOrPool.
  destruct (cache_pop c (mp_caches m)) as [[[p n] l]|] eqn:E; [|apply alloc_inv; [lia|done]].
  right. cbn [note_alloc]. eexists. split; [done|].
  apply cache_pop_perm in E. destruct Hinv as (Hch & Hus & Hal & Hd).
  assert (HP : extents (m, live) ≡ₚ (p, n) :: live ++ map snd l).
  { unfold extents. cbn [fst snd]. rewrite E. cbn [map snd]. by rewrite Permutation_middle. }
  rewrite HP in Hus, Hal. apply (fop_perm _ _ HP) in Hd.
  apply Forall_cons_1 in Hus as [Hu Hus]. apply Forall_cons_1 in Hal as [Ha Hal].
  inversion Hd as [|? ? Hp Hd']; subst.
  unfold inv, extents. cbn [fst snd mp_blocks mp_cur mp_caches app]. split_and!.
  - done.
  - constructor; [|done]. eapply used_shrink; [|done]. lia.
  - by constructor.
  - constructor; [|done]. eapply list.Forall_impl; [done|]. intros a Hno Ho. apply Hno.
    eapply overlap_shrink; [|done]. lia.
Qed.

Lemma forget_submseteq p m live : (p, m) ∈ live -> (p, m) :: forget p live ⊆+ live.
Proof.
  intros H. apply elem_of_list_split in H as (l1 & l2 & ->). unfold forget.
  rewrite list.filter_app. rewrite (filter_cons_False (fun a : nat * N * N => fst a <> p)) by (cbn; tauto).
  rewrite <- Permutation_middle. apply submseteq_skip.
  assert (S : forall l : list (nat * N * N), filter (fun a => fst a <> p) l ⊆+ l).
  { intros l. apply sublist_submseteq. induction l as [|a l IH]; [done|]. rewrite filter_cons.
    destruct (decide _); by constructor. }
  by apply submseteq_app.
Qed.

Lemma fop_submseteq l k : l ⊆+ k -> ForallOrdPairs apart k -> ForallOrdPairs apart l.
Proof.
  intros [k' HP]%submseteq_Permutation H. apply (fop_perm _ _ HP) in H.
  by apply fop_app_inv in H as [? _].
Qed.

Lemma free_inv m live c p size :
  client_ok (m, live) (PCacheFree c p size) = true -> inv (m, live) ->
  exists m', freeMemToPoolCache m c p size = MOk m' /\ inv (m', forget p live).
Proof.
  intros Hok (Hch & Hus & Hal & Hd). cbn in Hok. apply andb_true_iff in Hok as [Hs Hex].
  apply existsb_exists in Hex as ([p' n] & Hin & Hpn). cbn in Hpn.
  apply andb_true_iff in Hpn as [->%bool_decide_eq_true Hn].
  apply elem_of_list_In in Hin.
  unfold freeMemToPoolCache, sizeof_CacheItem. rewrite (proj2 (N.ltb_ge _ _)) by lia.
  eexists. split; [done|].
  set (R := forget p live ++ map snd (mp_caches m)).
  assert (HS : (p, n) :: R ⊆+ extents (m, live)).
  { unfold R, extents. cbn [fst snd]. rewrite app_comm_cons.
    apply submseteq_app; [|done]. by apply forget_submseteq. }
  apply (fop_submseteq _ _ HS) in Hd.
  assert (Hus' : Forall (used (mp_blocks m)) ((p, n) :: R)).
  { apply Forall_forall. intros x Hx. rewrite Forall_forall in Hus. apply Hus.
    by eapply elem_of_submseteq. }
  assert (Hal' : Forall aligned ((p, n) :: R)).
  { apply Forall_forall. intros x Hx. rewrite Forall_forall in Hal. apply Hal.
    by eapply elem_of_submseteq. }
  assert (HP : extents (MemPool (mp_blocks m) (mp_cur m) (mp_caches m ++ [(c, (p, size))]), forget p live)
     ≡ₚ (p, size) :: R).
  { unfold R, extents. cbn [fst snd mp_caches]. rewrite map_app. cbn [map snd].
    rewrite app_assoc. symmetry. apply Permutation_cons_append. }
  apply Forall_cons_1 in Hus' as [Hu Hus']. apply Forall_cons_1 in Hal' as [Ha Hal'].
  inversion Hd as [|? ? Hp Hd']; subst.
  unfold inv. cbn [fst snd mp_blocks mp_cur] in *. split_and!.
  - done.
  - rewrite HP. constructor; [|done]. eapply used_shrink; [|done]. lia.
  - rewrite HP. by constructor.
  - apply (fop_perm ((p, size) :: R)); [by symmetry|].
    constructor; [|done]. eapply list.Forall_impl; [done|]. intros a Hno Ho. apply Hno.
    eapply overlap_shrink; [|done]. lia.
Qed.

Lemma inv_new : inv (newMemPool, []).
Proof. split_and!; try done; constructor; done || constructor. Qed.

Lemma step_inv ok w o :
  client_ok w o = true -> inv w ->
  pool_step ok w o = MDie \/ exists w', pool_step ok w o = MOk w' /\ inv w'.
Proof.
  destruct w as [m live]. intros Hc Hi. destruct o as [n|c n|c p n| |]; cbn [pool_step fst snd].
  - apply alloc_inv; [cbn in Hc; lia|done].
  - by apply cache_alloc_inv.
  - right. destruct (free_inv m live c p n Hc Hi) as (m' & -> & ?). by eexists.
  - right. eexists. split; [done|]. cbn in Hc.
    destruct m as [bs cur ca]. cbn in Hc. destruct ca as [|]; [|done].
    destruct Hi as ((Hok & Hcur) & _). cbn [fst snd mp_blocks mp_cur] in *.
    unfold inv, resetMemPool. cbn [fst snd mp_blocks mp_cur mp_caches].
    assert (Hnil : extents (MemPool (map (λ b, Block 0 (b_cap b)) bs)
         match bs with [] => None | _ :: _ => Some 0%nat end [], []) = []) by done.
    rewrite Hnil.
    split_and!; try done; [|constructor]. split.
    + apply Forall_map. eapply list.Forall_impl; [done|]. intros b (? & ? & ?). unfold block_ok. cbn.
      split_and!; [lia|done|done].
    + destruct bs as [|b bs]; [done|]. split; [cbn; lia|].
      intros k b' _ Hl. change (map ?f ?l) with (f <$> l) in Hl.
      rewrite list_lookup_fmap in Hl. destruct ((b :: bs) !! k); [|done]. cbn in Hl. by injection Hl as <-.
  - right. eexists. split; [done|]. apply inv_new.
Qed.

Lemma inv_layout w : inv w -> layout_ok (mp_blocks (fst w)) (snd w).
Proof.
  destruct w as [m live]. intros ((Hok & _) & Hus & Hal & Hd). unfold extents in *. cbn [fst snd] in *.
  apply Forall_app in Hus as [Hus _]. apply Forall_app in Hal as [Hal _].
  apply fop_app_inv in Hd as [Hd _]. split_and!; [|done|by apply fop_lookup].
  eapply list.Forall_impl; [exact Hus|]. intros [[k off] n] (b & Hb & Hle). exists b. split; [done|].
  rewrite Forall_lookup in Hok. destruct (Hok _ _ Hb) as (? & _). lia.
Qed.

Lemma run_inv ok w ops :
  client_respects ok w ops = true -> inv w ->
  pool_run ok w ops = MDie \/ exists w', pool_run ok w ops = MOk w' /\ inv w'.
Proof.
  revert w. induction ops as [|o ops IH]; intros w Hc Hi; cbn.
  - right. by exists w.
  - cbn in Hc. apply andb_true_iff in Hc as [H1 H2].
    destruct (step_inv ok w o H1 Hi) as [->|(w' & E & Hi')]; [by left|].
    rewrite E in *. by apply IH.
Qed.

(** Without caches, the guard on the history reduces to the sizes. *)
Definition plain_op (o : pool_op) : bool :=
  match o with
  | PAlloc size => size <? 2 ^ 63
  | PCacheAlloc _ size => size <? 2 ^ 63
  | PCacheFree _ _ _ => false
  | PReset => true
  | PFree => true
  end.
Lemma alloc_caches ok m size m' r :
  allocFromMemPool ok m size = MOk (m', r) -> mp_caches m' = mp_caches m.
Proof.
  unfold allocFromMemPool. intros H.
  repeat (case_match; try done); injection H as <- _; done.
Qed.
Lemma plain_respects ok w ops :
  forallb plain_op ops = true -> mp_caches (fst w) = [] -> client_respects ok w ops = true.
Proof.
  revert w. induction ops as [|o ops IH]; intros [m live] Hp Hn; [done|].
  cbn in Hp. apply andb_true_iff in Hp as [Ho Hp]. cbn [fst] in Hn.
  cbn [client_respects]. apply andb_true_iff. split.
  - destruct o as [n|c n|c p n| |]; cbn in *; rewrite ?Hn; try done. cbn. lia.
  - destruct (pool_step ok (m, live) o) as [w'| | |] eqn:E; [|done..]. apply IH; [done|].
    destruct o as [n|c n|c p n| |]; cbn [pool_step fst snd] in E; [| |done| |].
    + unfold note_alloc in E. destruct (allocFromMemPool ok m n) as [[m' [q|]]| | |] eqn:E'; try done;
        injection E as <-; cbn; rewrite (alloc_caches _ _ _ _ _ E'); done.
    + unfold allocFromCacheOrPool in E. rewrite Hn in E. cbn [cache_pop] in E.
      unfold note_alloc in E. destruct (allocFromMemPool ok m n) as [[m' [q|]]| | |] eqn:E'; try done;
        injection E as <-; cbn; rewrite (alloc_caches _ _ _ _ _ E'); done.
    + injection E as <-. cbn. done.
    + injection E as <-. cbn. done.
Qed.
