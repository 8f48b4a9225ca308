From Coq Require Import ZifyBool ZifyNat ZifyN.
From stdpp Require Import numbers list.
From Verif Require Import BufModel BufSpec.

Local Arguments mem_grow : simpl never.
Local Arguments mem_store : simpl never.
Local Arguments Nat.ltb : simpl never.
Local Arguments Nat.leb : simpl never.

Section mem.
Context {V : Type}.
Implicit Types mem : list (option V).

Lemma mem_grow_length mem n : length (mem_grow mem n) = n.
Proof. unfold mem_grow. rewrite app_length, take_length, replicate_length. lia. Qed.
Lemma mem_grow_take mem n k : k <= length mem -> k <= n -> take k (mem_grow mem n) = take k mem.
Proof.
  intros H1 H2. unfold mem_grow. rewrite take_app_le by (rewrite take_length; lia).
  rewrite take_take. f_equal. lia.
Qed.
Lemma mem_store_ok mem i (vs : list V) :
  i + length vs <= length mem ->
  exists mem', mem_store mem i vs = Some mem' /\ length mem' = length mem /\
    take (i + length vs) mem' = take i mem ++ map Some vs.
Proof.
  intros H. unfold mem_store. rewrite (proj2 (Nat.leb_le _ _)) by done.
  eexists. split; [done|]. split.
  - rewrite !app_length, map_length, take_length, drop_length. lia.
  - rewrite app_assoc. rewrite take_app_le by (rewrite app_length, map_length, take_length; lia).
    rewrite take_ge; [done|]. rewrite app_length, map_length, take_length. lia.
Qed.
End mem.

Section dynarray.
Context {V : Type}.
Implicit Types a : dynarr V.

Definition da_inv a : Prop := length (da_mem a) = da_cap a /\ da_size a <= da_cap a.
Definition contents a : list (option V) := take (da_size a) (da_mem a).

Lemma contents_length a : da_inv a -> length (contents a) = da_size a.
Proof. intros [H1 H2]. unfold contents. rewrite take_length. lia. Qed.

Lemma grow_inv a n : da_inv a -> da_size a <= n ->
  da_inv (growDynArray a n) /\ contents (growDynArray a n) = contents a /\
  n <= da_cap (growDynArray a n) /\ da_size (growDynArray a n) = da_size a.
Proof.
  intros [H1 H2] Hn. unfold growDynArray, da_inv, contents. cbn [da_size da_cap da_mem].
  set (cap := if (n <? da_cap a * 2) then da_cap a * 2 else n).
  assert (n <= cap) by (unfold cap; destruct (Nat.ltb_spec n (da_cap a * 2)); lia).
  rewrite mem_grow_length. split_and!; try lia. apply mem_grow_take; lia.
Qed.

Lemma push_ok a v : da_inv a ->
  exists a' i, pushOnDynArray a v = BOk (a', i) /\ da_inv a' /\ contents a' = contents a ++ [Some v].
Proof.
  intros Hi. unfold pushOnDynArray.
  set (b := if (da_cap a <=? da_size a) then growDynArray a (da_size a + 1) else a).
  assert (Hb : da_inv b /\ contents b = contents a /\ da_size b < da_cap b).
  { unfold b. destruct (Nat.leb_spec (da_cap a) (da_size a)).
    - destruct (grow_inv a (da_size a + 1) Hi) as (? & ? & ? & ?); [lia|]. split_and!; try done; lia.
    - done. }
  clearbody b. destruct Hb as ([Hb1 Hb2] & Hc & Hlt).
  destruct (mem_store_ok (da_mem b) (da_size b) [v]) as (mem' & -> & Hl & Ht); [cbn; lia|].
  eexists _, _. split; [done|]. split.
  - split; cbn; lia.
  - unfold contents in *. cbn. cbn in Ht. by rewrite Ht, Hc.
Qed.

Lemma pop_ok a : da_inv a ->
  exists a' r, popDynArray a = BOk (a', r) /\ da_inv a' /\ da_spec (contents a) DPop (contents a') r.
Proof.
  intros [H1 H2]. unfold popDynArray. destruct (Nat.ltb_spec 0 (da_size a)) as [Hs|Hs].
  - destruct (lookup_lt_is_Some_2 (da_mem a) (da_size a - 1)) as [v Hv]; [lia|].
    rewrite Hv. eexists _, _. split; [done|]. split; [split; cbn; lia|].
    unfold contents. cbn. replace (da_size a) with (S (da_size a - 1)) at 1 by lia.
    rewrite (take_S_r _ _ v) by done. constructor.
  - eexists _, _. split; [done|]. split; [done|].
    unfold contents. replace (da_size a) with 0 by lia. constructor.
Qed.

Lemma resize_ok a n : da_inv a ->
  da_inv (resizeDynArray a n) /\ da_spec (contents a) (DResize n) (contents (resizeDynArray a n)) None.
Proof.
  intros Hi. unfold resizeDynArray.
  set (b := if (da_cap a <? n) then growDynArray a n else a).
  assert (Hb : da_inv b /\ contents b = contents a /\ n <= da_cap b /\ da_size b = da_size a).
  { unfold b. destruct (Nat.ltb_spec (da_cap a) n).
    - destruct (grow_inv a n Hi) as (? & ? & ? & ?); [destruct Hi; lia|]. done.
    - done. }
  clearbody b. destruct Hb as ([Hb1 Hb2] & Hc & Hn & Hsz). split; [split; cbn; lia|].
  rewrite <- Hc. unfold contents. cbn.
  destruct (Nat.le_gt_cases n (da_size b)) as [Hle|Hgt].
  - replace (take (da_size b) (da_mem b)) with (take n (da_mem b) ++ take (da_size b - n) (drop n (da_mem b))).
    + apply spec_shrink. rewrite take_length. lia.
    + rewrite take_take_drop. f_equal. lia.
  - replace (take n (da_mem b)) with (take (da_size b) (da_mem b) ++ take (n - da_size b) (drop (da_size b) (da_mem b))).
    + apply spec_extend. rewrite take_take_drop, take_length. lia.
    + rewrite take_take_drop. f_equal. lia.
Qed.

Lemma da_step_ok a o : da_inv a ->
  exists a' r, da_step a o = BOk (a', r) /\ da_inv a' /\ da_spec (contents a) o (contents a') r.
Proof.
  intros Hi. destruct o as [v| |n]; cbn [da_step].
  - destruct (push_ok a v Hi) as (a' & i & -> & ? & E). eexists _, _. split; [done|].
    split; [done|]. rewrite E. constructor.
  - by apply pop_ok.
  - destruct (resize_ok a n Hi). eexists _, _. done.
Qed.
Lemma da_run_ok a ops : da_inv a ->
  exists a' rs, da_run a ops = BOk (a', rs) /\ da_inv a' /\ da_spec_run (contents a) ops (contents a') rs.
Proof.
  revert a. induction ops as [|o ops IH]; intros a Hi; cbn.
  - eexists _, _. split; [done|]. split; [done|constructor].
  - destruct (da_step_ok a o Hi) as (a1 & r & -> & Hi1 & Hs).
    destruct (IH a1 Hi1) as (a2 & rs & -> & Hi2 & Hr). eexists _, _. split; [done|].
    split; [done|]. by econstructor.
Qed.
Lemma da_new_inv : da_inv newDynArray.
Proof. split; cbn; lia. Qed.
Lemma da_new_size_inv n : da_inv (newDynArrayWithSize n).
Proof. split; cbn; [apply replicate_length|lia]. Qed.
End dynarray.

(** ** String builder *)
Lemma sb_grow_loop_ok fuel cap need :
  1 <= cap -> need <= fuel + cap ->
  exists cap', sb_grow_loop fuel cap need = Some cap' /\ need <= cap' /\ cap <= cap'.
Proof.
  revert cap. induction fuel as [|f IH]; intros cap Hc Hn; cbn.
  - rewrite (proj2 (Nat.ltb_ge _ _)) by lia. exists cap. split; [done|lia].
  - destruct (Nat.ltb_spec cap need); [|exists cap; split; [done|lia]].
    destruct (IH (cap * 2)) as (c & -> & ? & ?); [lia..|]. exists c. split; [done|lia].
Qed.
Lemma sb_grow_loop_hang fuel need : 0 < need -> sb_grow_loop fuel 0 need = None.
Proof.
  intros H. induction fuel as [|f IH]; cbn; rewrite (proj2 (Nat.ltb_lt _ _)) by lia; [done|].
  apply IH.
Qed.

(** The builder's memory has room for the terminator and the text is in front. *)
Definition sb_mem_ok (sb : sbuilder) (d : list (option N)) (text : list N) : Prop :=
  length d = sb_cap sb + 1 /\ sb_size sb <= sb_cap sb /\ sb_size sb = length text /\
  take (sb_size sb) d = map Some text.

Definition sb_abs (ph : sb_phase) (sb : sbuilder) (acc : option (list N)) : Prop :=
  match ph, sb_data sb, acc with
  | PhNew, Some d, None => 1 <= sb_cap sb /\ sb_mem_ok sb d []
  | PhNull, None, None => sb_size sb = 0
  | PhEmpty, Some d, Some [] => sb_mem_ok sb d [] /\ sb_cap sb = 0 /\ holds_cstring d []
  | PhText, Some d, Some s => 1 <= sb_cap sb /\ sb_mem_ok sb d s /\ holds_cstring d s
  | _, _, _ => False
  end.

Lemma store_text d cap size text s :
  length d = cap + 1 -> size = length text -> take size d = map Some text ->
  size + length s <= cap ->
  exists d1 d2, mem_store d size s = Some d1 /\ mem_store d1 (size + length s) [0%N] = Some d2 /\
    sb_mem_ok (SB cap (size + length s) (Some d2)) d2 (text ++ s) /\ holds_cstring d2 (text ++ s).
Proof.
  intros Hl Hs Ht Hle.
  destruct (mem_store_ok d size s) as (d1 & E1 & L1 & T1); [lia|].
  destruct (mem_store_ok d1 (size + length s) [0%N]) as (d2 & E2 & L2 & T2); [cbn; lia|].
  exists d1, d2. split; [done|]. split; [done|].
  rewrite Ht, <- map_app in T1. rewrite T1 in T2. cbn [length map] in T2.
  assert (T3 : take (size + length s) d2 = map Some (text ++ s)).
  { assert (E : take (size + length s) (take (size + length s + 1) d2) = take (size + length s) d2).
    { rewrite take_take. f_equal. lia. }
    rewrite <- E, T2, take_app_alt; [done|]. rewrite map_length, app_length. lia. }
  split.
  - split_and!; cbn; [lia|lia|rewrite app_length; lia|done].
  - exists (drop (size + length s + 1) d2).
    rewrite <- (take_drop (size + length s + 1) d2) at 1. rewrite T2.
    by rewrite <- app_assoc.
Qed.

Lemma append_ok sb d text s :
  sb_data sb = Some d -> sb_mem_ok sb d text -> (1 <= sb_cap sb \/ s = []) ->
  exists d', stringBuilderAppend sb s =
     BOk (SB (match stringBuilderAppend sb s with BOk sb' => sb_cap sb' | _ => 0 end)
       (length (text ++ s)) (Some d')) /\
    sb_cap sb <= match stringBuilderAppend sb s with BOk sb' => sb_cap sb' | _ => 0 end /\
    (s = [] -> sb_cap sb = match stringBuilderAppend sb s with BOk sb' => sb_cap sb' | _ => 0 end) /\
    sb_mem_ok (SB (match stringBuilderAppend sb s with BOk sb' => sb_cap sb' | _ => 0 end)
       (length (text ++ s)) (Some d')) d' (text ++ s) /\ holds_cstring d' (text ++ s).
Proof.
  intros Hd (Hl & Hle & Hs & Ht) Hcap. unfold stringBuilderAppend, stringBuilderGrow. rewrite Hd.
  destruct (Nat.ltb_spec (sb_cap sb - sb_size sb) (length s)) as [Hgrow|Hfit].
  - destruct Hcap as [Hcap| ->]; [|cbn in Hgrow; lia].
    destruct (sb_grow_loop_ok (sb_size sb + length s) (sb_cap sb) (sb_size sb + length s)) as (cap & -> & Hc1 & Hc2); [lia..|].
    cbn [sb_data sb_size sb_cap].
    destruct (store_text (mem_grow d (cap + 1)) cap (sb_size sb) text s) as (d1 & d2 & E1 & E2 & M & C).
    + apply mem_grow_length.
    + done.
    + rewrite mem_grow_take by lia. done.
    + lia.
    + rewrite E1, E2. cbn [sb_cap]. exists d2. rewrite app_length, <- Hs. split_and!; try done.
      intros ->. cbn in Hgrow. lia.
  - destruct (store_text d (sb_cap sb) (sb_size sb) text s) as (d1 & d2 & E1 & E2 & M & C); [lia|done|done|lia|].
    rewrite Hd, E1, E2. cbn [sb_cap]. exists d2. rewrite app_length, <- Hs. split_and!; done.
Qed.

Lemma append_ok' sb d text s :
  sb_data sb = Some d -> sb_mem_ok sb d text -> (1 <= sb_cap sb \/ s = []) ->
  exists cap d', stringBuilderAppend sb s = BOk (SB cap (length (text ++ s)) (Some d')) /\
    sb_cap sb <= cap /\ (s = [] -> sb_cap sb = cap) /\
    sb_mem_ok (SB cap (length (text ++ s)) (Some d')) d' (text ++ s) /\ holds_cstring d' (text ++ s).
Proof.
  intros H1 H2 H3. destruct (append_ok sb d text s H1 H2 H3) as (d' & H). eauto.
Qed.

Lemma append_null sb s :
  sb_data sb = None -> sb_size sb = 0 ->
  exists d', stringBuilderAppend sb s = BOk (SB (length s) (length s) (Some d')) /\
    sb_mem_ok (SB (length s) (length s) (Some d')) d' s /\ holds_cstring d' s.
Proof.
  intros Hd Hs. unfold stringBuilderAppend, stringBuilderGrow. rewrite Hd. cbn [sb_data sb_size sb_cap].
  rewrite Hs. destruct (store_text (replicate (length s + 1) None) (length s) 0 [] s) as (d1 & d2 & E1 & E2 & M & C).
  - by rewrite replicate_length.
  - done.
  - by destruct s.
  - lia.
  - rewrite E1, E2. exists d2. done.
Qed.

Lemma sb_run_ok ph sb acc ops :
  sb_guard ph ops = true -> sb_abs ph sb acc ->
  exists sb' rs, sb_run sb ops = BOk (sb', rs) /\
    Forall2 returns_match rs (sb_returns acc ops) /\
    match sb_data sb' with
    | Some d => take (sb_size sb') d = map Some (sb_text (default [] acc) ops)
    | None => sb_text (default [] acc) ops = []
    end.
Proof.
  revert ph sb acc. induction ops as [|o ops IH]; intros ph sb acc Hg Ha.
  { cbn. eexists _, _. split; [done|]. split; [constructor|].
    unfold sb_abs in Ha. destruct (sb_data sb) as [d|] eqn:E.
    - destruct ph, acc as [t|]; try done; cbn.
      + destruct Ha as (_ & _ & _ & _ & ?). done.
      + destruct t; [|done]. destruct Ha as ((_ & _ & _ & ?) & _). done.
      + destruct Ha as (_ & (_ & _ & _ & ?) & _). done.
    - destruct ph, acc; try done; by destruct t. }
  destruct o as [s| |].
  - (* append *)
    cbn [sb_run sb_step sb_returns sb_text].
    assert (Hcont : exists ph' sb',
      stringBuilderAppend sb s = BOk sb' /\ sb_guard ph' ops = true /\
      sb_abs ph' sb' (Some (default [] acc ++ s))).
    { unfold sb_abs in Ha. destruct ph; cbn in Hg.
      - destruct (sb_data sb) as [d|] eqn:E; [|done]. destruct acc; [done|]. destruct Ha as [Hc Hm].
        destruct (append_ok' sb d [] s E Hm) as (cap & d' & -> & Hcap & _ & HM & HC); [by left|].
        exists PhText. eexists. split; [done|]. split; [done|]. cbn. cbn in HM, HC.
        split; [lia|]. done.
      - destruct (sb_data sb) as [d|] eqn:E; [done|]. destruct acc; [done|].
        destruct (append_null sb s E Ha) as (d' & -> & HM & HC).
        destruct s as [|x s].
        + exists PhEmpty. eexists. split; [done|]. split; [done|]. cbn. done.
        + exists PhText. eexists. split; [done|]. split; [done|]. cbn. cbn in HM. split; [lia|]. done.
      - destruct (sb_data sb) as [d|] eqn:E; [|done]. destruct acc as [[|]|]; [|done|done].
        destruct Ha as (Hm & Hc & HC0). destruct s as [|]; [|done].
        destruct (append_ok' sb d [] [] E Hm) as (cap & d' & -> & Hcap & Hcap' & HM & HC); [by right|].
        exists PhEmpty. eexists. split; [done|]. split; [done|]. cbn. cbn in HM, HC.
        split; [done|]. split; [|done]. rewrite <- Hcap' by done. done.
      - destruct (sb_data sb) as [d|] eqn:E; [|done]. destruct acc as [t|]; [|done].
        destruct Ha as (Hc & Hm & HC0).
        destruct (append_ok' sb d t s E Hm) as (cap & d' & -> & Hcap & _ & HM & HC); [by left|].
        exists PhText. eexists. split; [done|]. split; [done|]. cbn. cbn in HM, HC.
        split; [lia|]. done. }
    destruct Hcont as (ph' & sb' & -> & Hg' & Ha').
    destruct (IH ph' sb' _ Hg' Ha') as (sb2 & rs & -> & HF & HT).
    eexists _, _. split; [done|]. split; [|done]. constructor; [|done]. done.
  - cbn [sb_run sb_step sb_returns sb_text stringBuilderRelease].
    assert (Hg' : sb_guard PhNull ops = true) by (destruct ph; cbn in Hg; done).
    destruct (IH PhNull (SB 0 0 None) None Hg') as (sb2 & rs & -> & HF & HT); [done|].
    eexists _, _. split; [done|]. split; [|done]. constructor; [|done].
    unfold sb_abs in Ha. unfold returns_match.
    destruct ph; cbn in Hg; try done; destruct (sb_data sb), acc as [t|]; try done.
    + destruct t; [|done]. by destruct Ha as (_ & _ & ?).
    + by destruct Ha as (_ & _ & ?).
  - cbn [sb_run sb_step sb_returns sb_text]. unfold stringBuilderDeinit. cbn in Hg.
    destruct (IH PhNull (SB 0 0 None) None Hg) as (sb2 & rs & -> & HF & HT); [done|].
    eexists _, _. split; [done|]. split; [|done]. constructor; [|done]. done.
Qed.
Lemma sb_new_abs : sb_abs PhNew stringBuilderNew None.
Proof. cbn. split; [lia|]. split_and!; cbn; try done; lia. Qed.
