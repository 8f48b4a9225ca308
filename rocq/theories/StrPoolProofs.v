From stdpp Require Import list numbers sets.
From Verif Require Import Cyclic HTableModel HTableSpec HTableProofs StrPoolModel.

(** Equality of contents, the comparison the pool is meant to make. *)
Definition same_text (a b : pooled) : bool := bool_decide (snd a = snd b).
Lemma same_text_sym a b : same_text a b = true → same_text b a = true.
Proof. unfold same_text. rewrite !bool_decide_eq_true. congruence. Qed.
Lemma same_text_trans a b c : same_text a b = true → same_text b c = true → same_text a c = true.
Proof. unfold same_text. rewrite !bool_decide_eq_true. congruence. Qed.
Lemma same_text_hash a b : same_text a b = true → pool_hash a = pool_hash b.
Proof. unfold same_text, pool_hash. rewrite !bool_decide_eq_true. congruence. Qed.

(** The 31 bits of the hash a bucket keeps. *)
Definition bucket_hash (s : list N) : N := stored_hash pool_hash (0%nat, s).
Lemma bucket_hash_eq e : stored_hash pool_hash e = bucket_hash (snd e).
Proof. done. Qed.

Lemma strncmp_eq_refl s : strncmp_eq s s (length s) = true.
Proof.
  induction s as [|a s IH]; [done|]. cbn. rewrite N.eqb_refl. by destruct (a =? 0)%N.
Qed.

Lemma probe_loop_ext {E} (c1 c2 : E → E → bool) fuel : ∀ d i h e,
  (∀ i h' e', d !! i = Some (Some (h', e')) →
     ((h' =? h)%N && c1 e' e) = ((h' =? h)%N && c2 e' e)) →
  probe_loop c1 fuel d i h e = probe_loop c2 fuel d i h e.
Proof.
  induction fuel as [|fuel IH]; intros d i h e H; [done|]. cbn [probe_loop].
  destruct (d !! i) as [[[h' e']|]|] eqn:Hd; [|done..].
  rewrite (H _ _ _ Hd). destruct (_ && _); [done|]. by apply IH.
Qed.

Definition PR (p : strpool) (l : list pooled) : Prop :=
  TR pool_hash same_text (sp_table p) l ∧
  (∀ e, e ∈ l → (fst e < sp_next p)%nat) ∧ NoDup (fst <$> l) ∧ NoDup (snd <$> l).

Lemma new_PR : PR new_str_pool [].
Proof. split; [apply new_TR|]. split_and!; [set_solver|constructor|constructor]. Qed.

Lemma TR_stored t l i h e : TR pool_hash same_text t l → ht_slots t !! i = Some (Some (h, e)) →
  e ∈ l ∧ h = bucket_hash (snd e).
Proof.
  intros [(Hok & _) HP] Hi. split.
  - rewrite <- HP. apply elem_of_enumerate. eauto.
  - by destruct (Hok _ _ _ Hi).
Qed.

(** Requests behave as interning as long as no pooled text collides with the
    requested one. *)
Definition collides (r : list N) (l : list pooled) : Prop :=
  ∃ e, e ∈ l ∧ snd e ≠ r ∧ bucket_hash (snd e) = bucket_hash r.

Lemma no_compare fuel : ∀ (d : list (option (N * pooled))) i h,
  (∀ i h' e', d !! i = Some (Some (h', e')) → h' ≠ h) →
  insert_compares fuel d i h = false.
Proof.
  induction fuel as [|fuel IH]; intros d i h H; [done|]. cbn [insert_compares].
  destruct (d !! i) as [[[h' e']|]|] eqn:Hd; [|done..].
  destruct (N.eqb_spec h' h) as [->|]; [by destruct (H _ _ _ Hd)|]. by apply IH.
Qed.

Lemma find_request p l r : PR p l → ¬ collides r l →
  ht_find pool_hash compare_str (sp_table p) (sp_next p, r)
    = ht_find pool_hash same_text (sp_table p) (sp_next p, r).
Proof.
  intros [HT _] Hc. unfold ht_find. f_equal. apply probe_loop_ext.
  intros i h' e' Hi. destruct (TR_stored _ _ _ _ _ HT Hi) as [Hin ->].
  rewrite bucket_hash_eq. cbn [snd].
  destruct (N.eqb_spec (bucket_hash (snd e')) (bucket_hash r)) as [EQ|]; [|done]. cbn [andb].
  assert (snd e' = r) as Hr.
  { destruct (decide (snd e' = r)); [done|]. exfalso. apply Hc. by exists e'. }
  unfold compare_str, same_text. cbn [snd]. rewrite Hr, strncmp_eq_refl.
  symmetry. by apply bool_decide_eq_true.
Qed.


Lemma insert_fresh_eq p l r : PR p l → ¬ collides r l → absent same_text (ht_slots (sp_table p)) (sp_next p, r) →
  (∀ i h' e', ht_slots (sp_table p) !! i = Some (Some (h', e')) → h' ≠ bucket_hash r) ∧
  ht_insert pool_hash (λ _ _, false) (sp_table p) (sp_next p, r)
    = ht_insert pool_hash same_text (sp_table p) (sp_next p, r).
Proof.
  intros [HT _] Hc Ha. 
  assert (Hn : ∀ i h' e', ht_slots (sp_table p) !! i = Some (Some (h', e')) → h' ≠ bucket_hash r).
  { intros i h' e' Hi. destruct (TR_stored _ _ _ _ _ HT Hi) as [Hin ->]. intros EQ.
    apply Hc. exists e'. split; [done|]. split; [|done]. intros Hr.
    specialize (Ha _ _ _ Hi). unfold same_text in Ha. apply bool_decide_eq_false in Ha. done. }
  split; [done|]. unfold ht_insert. f_equal. apply probe_loop_ext.
  intros i h' e' Hi. rewrite bucket_hash_eq. cbn [snd].
  destruct (N.eqb_spec h' (bucket_hash r)) as [EQ|]; [|done]. by destruct (Hn _ _ _ Hi).
Qed.

Lemma request_ok p l r : PR p l → ¬ collides r l →
  ∃ p' ptr, make_string_sized p r = SOk (p', ptr) ∧
    ∃ l', PR p' l' ∧ (ptr, r) ∈ l' ∧ (l' = l ∨ l' = (ptr, r) :: l).
Proof.
  intros HPR Hc. unfold make_string_sized. rewrite (find_request p l r HPR Hc).
  pose proof HPR as (HT & Hnext & Hnd1 & Hnd2). unfold ht_find.
  destruct (find_cases pool_hash same_text same_text_sym same_text_trans same_text_hash
    (sp_table p) l (sp_next p, r) HT) as [(Ha & f & Hp & Hf & Hr)|(s & h & x & Hs & C & Hp)];
    rewrite Hp; cbn [tbind].
  - destruct (insert_fresh_eq p l r HPR Hc Ha) as [Hn ->].
    rewrite no_compare by done.
    destruct (insert_refines pool_hash same_text same_text_sym same_text_trans same_text_hash
      (sp_table p) l (sp_next p, r) HT) as (t' & -> & HT').
    assert (Hm : set_mem same_text (sp_next p, r) l = false).
    { apply set_mem_false. intros x Hx. destruct HT as [_ HP]. rewrite <- HP in Hx.
      rewrite absent_enumerate in Ha. by apply Ha. }
    unfold set_insert in HT'. rewrite Hm in HT' |- *. cbn [negb].
    eexists _, _. split; [done|]. exists ((sp_next p, r) :: l).
    split; [|split; [set_solver|by right]].
    split; [done|]. cbn [sp_next]. split_and!.
    + intros e [->|He]%elem_of_cons; cbn; [lia|]. specialize (Hnext e He). lia.
    + cbn. constructor; [|done]. intros (e & He & Hin)%elem_of_list_fmap.
      specialize (Hnext e Hin). lia.
    + cbn. constructor; [|done]. intros (e & He & Hin)%elem_of_list_fmap.
      assert (set_mem same_text (sp_next p, r) l = true); [|congruence].
      apply (set_mem_true _ _ _ e); [done|]. unfold same_text. by apply bool_decide_eq_true.
  - unfold elem_at. rewrite Hs. destruct (TR_stored _ _ _ _ _ HT Hs) as [Hin _].
    exists p, (fst x). split; [done|]. exists l. split; [done|]. split; [|by left].
    unfold same_text in C. apply bool_decide_eq_true in C. cbn in C. rewrite <- C. by destruct x.
Qed.

(** A colliding request is answered wrongly or undefined. *)
Lemma insert_compares_hit fuel : ∀ (d : list (option (N * pooled))) i h s hs es,
  tbl_ok pool_hash d → d !! s = Some (Some (hs, es)) → hs = h →
  (i < length d)%nat →
  (dist (length d) (hm d h) i ≤ dist (length d) (hm d h) s)%nat →
  (dist (length d) (hm d h) s < fuel + dist (length d) (hm d h) i)%nat →
  insert_compares fuel d i h = true.
Proof.
  induction fuel as [|fuel IH]; intros d i h s hs es Hok Hs -> Hi Hle Hf; [lia|].
  cbn [insert_compares].
  assert (Hsl : (s < length d)%nat) by (by eapply lookup_lt_Some).
  assert (Hhl : (hm d h < length d)%nat) by (apply home_lt; lia).
  destruct (decide (i = s)) as [->|Hne]; [by rewrite Hs, N.eqb_refl|].
  assert (Hlt : (dist (length d) (hm d h) i < dist (length d) (hm d h) s)%nat).
  { assert (dist (length d) (hm d h) i ≠ dist (length d) (hm d h) s); [|lia].
    intros EQ. apply Hne. rewrite <- (pos_dist (length d) (hm d h) i), EQ, pos_dist; done. }
  destruct (Hok _ _ _ Hs) as [_ Hr]. destruct (Hr _ Hlt) as [[h' e'] Hb].
  rewrite pos_dist in Hb by done. rewrite Hb. destruct (h' =? h)%N; [done|].
  pose proof (dist_lt (length d) (hm d h) s Hhl Hsl).
  apply (IH d (increment_wrap (length d) i) h s h es); try done; unfold increment_wrap.
  - by apply succ_wrap_lt.
  - rewrite dist_succ_wrap by lia. lia.
  - rewrite dist_succ_wrap by lia. lia.
Qed.

Lemma probe_loop_inr {E} (c : E → E → bool) fuel : ∀ d i h e s,
  probe_loop c fuel d i h e = TOk (inr s) →
  ∃ e', d !! s = Some (Some (h, e')) ∧ c e' e = true.
Proof.
  induction fuel as [|fuel IH]; intros d i h e s; [done|]. cbn [probe_loop].
  destruct (d !! i) as [[[h' e']|]|] eqn:Hd; [|done..].
  destruct ((h' =? h)%N && c e' e) eqn:B.
  - intros EQ. injection EQ as <-. apply andb_prop in B as [B1 B2]. apply N.eqb_eq in B1 as ->. eauto.
  - apply IH.
Qed.

Lemma request_collision p l r : PR p l → collides r l → r ∉ (snd <$> l) →
  match make_string_sized p r with
  | SOk (_, ptr) => ∃ s, (ptr, s) ∈ l ∧ s ≠ r
  | SUndef | SHang | SAssert => True
  end.
Proof.
  intros (HT & Hnext & Hnd1 & Hnd2) (e & He & Hne & Hh) Hr. unfold make_string_sized, ht_find.
  destruct (probe_loop compare_str _ _ _ _ _) as [[f|s]| |] eqn:Hp; cbn [tbind]; try done.
  - pose proof HT as [HI HP]. pose proof HI as (Hok & Hu & Hsz & Hfree).
    rewrite <- HP in He. apply elem_of_enumerate in He as (s & hs & Hs).
    destruct (Hok _ _ _ Hs) as [Hhs _].
    assert (Hsl : (s < length (ht_slots (sp_table p)))%nat) by (by eapply lookup_lt_Some).
    set (h := stored_hash pool_hash (sp_next p, r)).
    assert (hs = h) as EQ by (rewrite Hhs; exact Hh).
    assert (Hhl : (hm (ht_slots (sp_table p)) h < length (ht_slots (sp_table p)))%nat) by (apply home_lt; lia).
    rewrite (insert_compares_hit _ _ _ h s hs e); try done.
    + unfold hm. rewrite dist_self. lia.
    + unfold hm. rewrite dist_self.
      pose proof (dist_lt (length (ht_slots (sp_table p))) (hm (ht_slots (sp_table p)) h) s Hhl Hsl).
      unfold hm in *. lia.
  - apply probe_loop_inr in Hp as (e' & He' & C). unfold elem_at. rewrite He'.
    destruct (TR_stored _ _ _ _ _ HT He') as [Hin _].
    exists (snd e'). split; [by destruct e'|]. intros EQ. apply Hr. rewrite <- EQ.
    by apply elem_of_list_fmap_1.
Qed.

Lemma request_all_ok rs : ∀ p l,
  PR p l → (∀ a b, a ∈ (snd <$> l) ++ rs → b ∈ (snd <$> l) ++ rs → bucket_hash a = bucket_hash b → a = b) →
  ∃ p' ptrs, request_all p rs = SOk (p', ptrs) ∧
    ∃ l', PR p' l' ∧ l ⊆ l' ∧ Forall2 (λ ptr r, (ptr, r) ∈ l') ptrs rs ∧
      ∀ e, e ∈ l' → e ∈ l ∨ ∃ k, ptrs !! k = Some (fst e) ∧ rs !! k = Some (snd e).
Proof.
  induction rs as [|r rs IH]; intros p l HPR Hinj.
  - exists p, []. split; [done|]. exists l. split; [done|]. split; [set_solver|]. split; [constructor|by left].
  - assert (Hc : ¬ collides r l).
    { intros (e & He & Hne & Hh). apply Hne. apply Hinj; [|set_solver|done].
      apply elem_of_app. left. by apply elem_of_list_fmap_1. }
    destruct (request_ok p l r HPR Hc) as (p1 & ptr & E1 & l1 & HPR1 & Hin & Hl1).
    cbn [request_all]. rewrite E1.
    destruct (IH p1 l1 HPR1) as (p2 & ptrs & E2 & l2 & HPR2 & Hsub & HF & Hnew).
    { intros a b Ha Hb. apply Hinj.
      - destruct Hl1 as [->| ->]; set_solver.
      - destruct Hl1 as [->| ->]; set_solver. }
    rewrite E2. exists p2, (ptr :: ptrs). split; [done|]. exists l2. split; [done|]. split.
    + destruct Hl1 as [->| ->]; set_solver.
    + split; [constructor; [set_solver|done]|].
      intros e He. destruct (Hnew e He) as [He1|(k & Hk1 & Hk2)].
      * destruct Hl1 as [->| ->]; [by left|]. apply elem_of_cons in He1 as [->|]; [|by left].
        right. by exists 0%nat.
      * right. by exists (S k).
Qed.

Lemma PR_content p l ptr r : PR p l → (ptr, r) ∈ l → content p ptr = Some r.
Proof.
  intros ((_ & HP) & Hnext & Hnd1 & _) Hin. unfold content.
  rewrite <- HP in Hin.
  assert (Hnd : NoDup (fst <$> enumerate (ht_slots (sp_table p)))) by (by rewrite HP).
  clear HP Hnext Hnd1. set (en := enumerate _) in *. clearbody en.
  induction en as [|e en IH]; [set_solver|].
  cbn in Hnd. apply NoDup_cons in Hnd as [Hni Hnd]. cbn [List.find].
  apply elem_of_cons in Hin as [<-|Hin].
  - cbn. by rewrite Nat.eqb_refl.
  - destruct (Nat.eqb_spec (fst e) ptr) as [EQ|]; [|by apply IH].
    exfalso. apply Hni. rewrite EQ. by apply (elem_of_list_fmap_1 fst _ (ptr, r)).
Qed.
Lemma PR_inj p l a b r s : PR p l → (a, r) ∈ l → (b, s) ∈ l → a = b ↔ r = s.
Proof.
  intros (_ & _ & Hnd1 & Hnd2) Ha Hb.
  apply elem_of_list_lookup in Ha as (i & Hi). apply elem_of_list_lookup in Hb as (j & Hj).
  split; intros ->.
  - assert (i = j) as ->; [|congruence].
    eapply (NoDup_lookup _ i j b Hnd1); by rewrite list_lookup_fmap, ?Hi, ?Hj.
  - assert (i = j) as ->; [|congruence].
    eapply (NoDup_lookup _ i j s Hnd2); by rewrite list_lookup_fmap, ?Hi, ?Hj.
Qed.

Lemma request_all_app a b : ∀ p,
  request_all p (a ++ b) =
  match request_all p a with
  | SOk (p', ptrs) =>
    match request_all p' b with SOk (p'', ptrs') => SOk (p'', ptrs ++ ptrs') | e => e end
  | e => e
  end.
Proof.
  induction a as [|r a IH]; intros p; cbn [app request_all].
  - destruct (request_all p b) as [[]| | |]; done.
  - destruct (make_string_sized p r) as [[p1 ptr]| | |]; [|done..]. rewrite IH.
    destruct (request_all p1 a) as [[p2 ptrs]| | |]; [|done..].
    destruct (request_all p2 b) as [[]| | |]; done.
Qed.

(** First collision of a sequence. *)
Lemma first_collision (rs : list (list N)) :
  (∀ a b, a ∈ rs → b ∈ rs → bucket_hash a = bucket_hash b → a = b) ∨
  ∃ pre r post, rs = pre ++ r :: post ∧
    (∀ a b, a ∈ pre → b ∈ pre → bucket_hash a = bucket_hash b → a = b) ∧
    r ∉ pre ∧ ∃ s, s ∈ pre ∧ bucket_hash s = bucket_hash r.
Proof.
  induction rs as [|r rs IH] using rev_ind.
  - left. set_solver.
  - destruct IH as [IH|(pre & r' & post & -> & H)].
    + destruct (decide (r ∈ rs)) as [Hin|Hni].
      * left. intros a b Ha Hb. apply IH; set_solver.
      * destruct (decide (Exists (λ s, bucket_hash s = bucket_hash r) rs)) as [Hex|Hnex].
        -- right. exists rs, r, []. split; [done|]. split; [done|]. split; [done|].
           apply Exists_exists in Hex as (s & ? & ?). by exists s.
        -- left. intros a b Ha Hb EQ. apply elem_of_app in Ha, Hb.
           rewrite elem_of_list_singleton in Ha, Hb.
           destruct Ha as [Ha| ->], Hb as [Hb| ->]; [by apply IH|..|done].
           ++ exfalso. apply Hnex, Exists_exists. by exists a.
           ++ exfalso. apply Hnex, Exists_exists. by exists b.
    + right. exists pre, r', (post ++ [r]). rewrite <- app_assoc. cbn. done.
Qed.
