From Coq Require Import ZifyBool ZifyNat ZifyN.
From stdpp Require Import numbers list.
From Verif Require Import BufModel BufProofs StrModel StrSpec StrProofs RtStringModel RtStringSpec.
Local Open Scope nat_scope.
Local Arguments mem_store : simpl never.
Local Arguments mem_grow : simpl never.
Local Arguments Nat.ltb : simpl never.
Local Arguments Nat.leb : simpl never.
Local Arguments Nat.max : simpl never.

Lemma read_cells_map s : read_cells (map Some s) = Some s.
Proof. induction s as [|x s IH]; cbn; [done|]. by rewrite IH. Qed.
Lemma read_cells_inv c s : read_cells c = Some s -> c = map Some s.
Proof.
  revert s. induction c as [|[x|] c IH]; cbn; intros s H; [by simplify_eq| |done].
  destruct (read_cells c); [|done]. simplify_eq. cbn. by rewrite (IH l).
Qed.

(** The text is in front and, if [term], followed by a NUL. *)
Definition holds (t : rstr) (s : list N) (term : bool) : Prop :=
  t_size t = length s /\
  match t_data t with
  | None => s = [] /\ t_cap t = 0
  | Some d => length d = t_cap t + 1 /\ t_size t <= t_cap t /\ 16 <= t_cap t /\
              take (t_size t) d = map Some s /\
              (term = true -> s = [] \/ take (t_size t + 1) d = map Some (s ++ [0%N]))
  end.

Lemma cap_loop_ok fuel : forall cap need, 1 <= cap -> need <= fuel + cap ->
  exists cap', cap_loop fuel cap need = Some cap' /\ need <= cap' /\ cap <= cap'.
Proof.
  induction fuel as [|f IH]; intros cap need Hc Hn; cbn.
  - rewrite (proj2 (Nat.ltb_ge _ _)) by lia. exists cap. split; [done|lia].
  - destruct (Nat.ltb_spec cap need); [|exists cap; split; [done|lia]].
    destruct (IH (cap * 2) need) as (c & -> & ? & ?); [lia..|]. exists c. split; [done|lia].
Qed.
Lemma take_take_le {A} (l : list A) (k n : nat) : k <= n -> take k (take n l) = take k l.
Proof. intros. rewrite take_take. f_equal. lia. Qed.
Lemma grow_ok t s b n : holds t s b ->
  exists t' r, grow t n = TOk (t', r) /\ holds t' s b /\ t_size t' = t_size t /\
    length s + n <= t_cap t' /\ t_data t' <> None /\
    (r = bool_decide (t_data t = None) || (t_cap t <? Nat.max (length s + n) 16)).
Proof.
  intros [Hs Hd]. unfold grow. destruct (t_data t) as [d|] eqn:E.
  - destruct Hd as (Hl & Hle & H16 & Ht & Hb). rewrite Hs.
    destruct (t_cap t <? Nat.max (length s + n) 16) eqn:El.
    + destruct (cap_loop_ok (Nat.max (length s + n) 16) (t_cap t) (Nat.max (length s + n) 16)) as (c & -> & ? & ?); [lia..|].
      eexists _, _. split; [done|]. cbn [t_size t_cap t_data].
      split; [|split; [done|]; split; [lia|]; split; [done|]; by rewrite orb_true_r].
      split; cbn; [done|]. rewrite mem_grow_length. split_and!; [lia|lia|lia| |].
      * rewrite mem_grow_take by lia. by rewrite <- Hs.
      * intros Hbt. destruct (Hb Hbt) as [? |Hb']; [by left|right].
        rewrite mem_grow_take by lia. by rewrite <- Hs.
    + eexists t, false. split; [done|].
      split; [|split; [done|]; split; [lia|]; split; [by rewrite E|]; done].
      split; [done|]. by rewrite E.
  - destruct Hd as [-> Hc]. eexists _, _. split; [done|]. cbn [t_size t_cap t_data].
    cbn in Hs. rewrite Hs. split; [|split; [done|]; split; [cbn; lia|]; split; [done|]; done].
    split; cbn; [done|]. rewrite replicate_length. split_and!; try lia; [|by left].
    by rewrite take_0.
Qed.
Lemma append_ok t s b a : holds t s b -> a <> [] \/ b = true ->
  exists t', append t a = TOk t' /\ holds t' (s ++ a) true.
Proof.
  intros Hh Hab. unfold append. destruct (Nat.eqb_spec (length a) 0) as [Ha|Ha].
  - destruct a; [|done]. rewrite app_nil_r. destruct Hab as [? | ->]; [done|]. by exists t.
  - destruct (grow_ok t s b (length a) Hh) as (t' & r & -> & (Hs & Hh') & _ & Hroom & Hd & _).
    destruct (t_data t') as [d|] eqn:E; [|done]. destruct Hh' as (Hl & Hle & H16 & Ht & _).
    destruct (store_text d (t_cap t') (t_size t') s a) as (d1 & d2 & E1 & E2 & Hm & Hc); try done; [lia|].
    rewrite E1, E2. eexists. split; [done|]. split; cbn; [rewrite app_length; lia|].
    destruct Hm as (M1 & M2 & M3 & M4). cbn in *. split_and!; try done.
    intros _. right. destruct Hc as (rest & Hc).
    rewrite Hc, M3, (map_app Some (s ++ a) [0%N]), (cons_middle _ _ rest), app_assoc.
    rewrite take_app_alt; [done|]. rewrite (app_length (map _ _)), map_length. done.
Qed.
Lemma holds_text t s b : holds t s b -> text t = Some s.
Proof.
  intros [Hs Hd]. unfold text. destruct (t_data t) as [d|].
  - destruct Hd as (? & ? & ? & Ht & _). rewrite (proj2 (Nat.leb_le _ _)) by lia.
    rewrite Ht. apply read_cells_map.
  - destruct Hd as [-> _]. by rewrite Hs.
Qed.
Lemma cstring_ok s rest : nul_free s -> cstring (map Some (s ++ [0%N]) ++ rest) = TOk s.
Proof.
  induction s as [|x s IH]; intros Hn; cbn; [done|]. apply Forall_cons_1 in Hn as [Hx Hn].
  rewrite (proj2 (N.eqb_neq _ _) Hx). by rewrite IH.
Qed.
Lemma holds_str t s : holds t s true -> s <> [] -> nul_free s -> str t = TOk s.
Proof.
  intros [Hs Hd] Hne Hn. unfold str. destruct (t_data t) as [d|].
  - destruct Hd as (_ & _ & _ & _ & Hb). destruct (Hb eq_refl) as [? |Hb']; [done|].
    rewrite <- (take_drop (t_size t + 1) d), Hb'. by apply cstring_ok.
  - by destruct Hd.
Qed.
Lemma space_run_trim s : drop (space_run s) s = StrModel.trimLeft s.
Proof. induction s as [|c s IH]; cbn; [done|]. by destruct (isSpace c). Qed.
Lemma space_run_le s : space_run s <= length s.
Proof. induction s as [|c s IH]; cbn; [lia|]. destruct (isSpace c); lia. Qed.
Lemma trimLeft_holds t s b : holds t s b ->
  exists t', trimLeft t = TOk t' /\ holds t' (StrModel.trimLeft s) false.
Proof.
  intros [Hs Hd]. unfold trimLeft. destruct (t_data t) as [d|] eqn:E.
  - destruct Hd as (Hl & Hle & H16 & Ht & Hb). rewrite Ht, read_cells_map.
    rewrite <- space_run_trim. destruct (Nat.eqb_spec (space_run s) 0) as [H0|H0].
    + exists t. split; [done|]. rewrite H0, drop_0. split; [done|]. rewrite E. split_and!; try done.
    + assert (Hsl := space_run_le s).
      destruct (mem_store_ok d 0 (drop (space_run s) s)) as (d1 & -> & L1 & T1); [rewrite drop_length; lia|].
      eexists. split; [done|]. split; cbn; [rewrite drop_length; lia|].
      split_and!; try lia; try done.
      cbn in T1. rewrite drop_length in T1. rewrite Hs. rewrite T1. by rewrite take_0.
  - destruct Hd as [-> Hc]. exists t. split; [done|]. split; [done|]. by rewrite E.
Qed.
Lemma trimRight_holds t s b : holds t s b ->
  exists t', trimRight t = TOk t' /\ holds t' (StrModel.trimRight s) true.
Proof.
  intros [Hs Hd]. unfold trimRight. destruct (t_data t) as [d|] eqn:E.
  - destruct Hd as (Hl & Hle & H16 & Ht & Hb). rewrite Ht, read_cells_map.
    rewrite (proj2 (Nat.ltb_lt _ _)) by lia.
    destruct (trimRight_loop_ok s (length s) ltac:(lia)) as (H1 & _ & _).
    set (n := trimRight_loop s (length s)) in *.
    destruct (mem_store_ok d n [0%N]) as (d1 & E1 & L1 & T1); [cbn; lia|]. rewrite E1.
    eexists. split; [done|]. cbn in T1.
    assert (Hl2 : length (StrModel.trimRight s) = n) by (unfold StrModel.trimRight; rewrite take_length; fold n; lia).
    assert (T2 : take n d = map Some (StrModel.trimRight s)).
    { rewrite <- (take_take_le d n (t_size t)) by lia. rewrite Ht. unfold StrModel.trimRight. fold n.
      by rewrite <- firstn_map. }
    rewrite T2 in T1.
    split; cbn; [lia|]. split_and!; try lia.
    + rewrite <- (take_take_le d1 n (n + 1)) by lia. rewrite T1.
      rewrite take_app_alt; [done|]. rewrite map_length. lia.
    + intros _. right. rewrite T1. by rewrite map_app.
  - destruct Hd as [-> Hc]. exists t. split; [done|]. split; [done|]. by rewrite E.
Qed.
Lemma trim_holds t s b : holds t s b -> exists t', trim t = TOk t' /\ holds t' (StrModel.trim s) true.
Proof.
  intros H. unfold trim. destruct (trimLeft_holds t s b H) as (t1 & -> & H1).
  by apply (trimRight_holds t1 _ false).
Qed.
Lemma clear_holds t s b : holds t s b -> holds (clear t) [] true.
Proof.
  intros [Hs Hd]. unfold clear. destruct (t_data t) eqn:E; [by split|]. destruct Hd as [-> Hc].
  split; [done|]. by rewrite E.
Qed.

Definition do_op (o : sop) (t : rstr) : tres rstr :=
  match o with
  | Append a => append t a
  | Trim => trim t
  | TrimRight => trimRight t
  | Clear => TOk (clear t)
  | Reserve n => reserve t n
  end.
Fixpoint do_ops (ops : list sop) (t : rstr) : tres rstr :=
  match ops with
  | [] => TOk t
  | o :: ops => match do_op o t with TOk t => do_ops ops t | TUb => TUb | TAssert => TAssert | THang => THang end
  end.
Lemma do_op_ok o t s : holds t s true ->
  exists t' s', do_op o t = TOk t' /\ holds t' s' true /\ spec_step isSpace o s s'.
Proof.
  intros H. destruct o as [a| | | |n]; cbn.
  - destruct (append_ok t s true a H) as (t' & -> & H'); [by right|]. by exists t', (s ++ a).
  - destruct (trim_holds t s true H) as (t' & -> & H'). eexists t', _. split; [done|]. split; [done|]. apply trim_ok.
  - destruct (trimRight_holds t s true H) as (t' & -> & H'). eexists t', _. split; [done|]. split; [done|]. apply trimRight_ok.
  - eexists _, _. split; [done|]. split; [by eapply clear_holds|done].
  - destruct (grow_ok t s true n H) as (t' & r & E & H' & _). unfold reserve. rewrite E. by exists t', s.
Qed.
Lemma do_ops_ok ops : forall t s, holds t s true ->
  exists t' s', do_ops ops t = TOk t' /\ holds t' s' true /\ spec_run isSpace ops s s'.
Proof.
  induction ops as [|o ops IH]; intros t s H; cbn; [by exists t, s|].
  destruct (do_op_ok o t s H) as (t1 & s1 & -> & H1 & S1).
  destruct (IH t1 s1 H1) as (t2 & s2 & E & H2 & S2). exists t2, s2. split; [done|]. split; [done|]. by exists s1.
Qed.
Lemma new_holds : holds rstr_new [] true.
Proof. by split. Qed.

(** Self append is right exactly when the block need not be moved. *)
Lemma append_self_ok t s : holds t s true -> s <> [] ->
  (exists t', append_self t = TOk t' /\ holds t' (s ++ s) true) <-> 2 * length s <= t_cap t.
Proof.
  intros H Hne. assert (H' := H). destruct H' as [Hs Hd]. unfold append_self.
  destruct (t_data t) as [d|] eqn:E; [|by destruct Hd].
  destruct Hd as (Hl & Hle & H16 & Ht & _). rewrite Ht, read_cells_map.
  destruct (Nat.eqb_spec (length s) 0); [by destruct s|].
  destruct (grow_ok t s true (length s) H) as (t' & r & -> & _ & _ & _ & _ & Hr).
  rewrite E in Hr. rewrite bool_decide_false in Hr by done. cbn in Hr.
  destruct (Nat.ltb_spec (t_cap t) (Nat.max (length s + length s) 16)); subst r.
  - split; [by intros (t2 & H2 & _)|]. intros. exfalso. lia.
  - split; [intros; lia|]. intros _. apply (append_ok t s true s H). by left.
Qed.
(** readAll: files of 1 to 15 bytes run into the inverted assertion of resize. *)
Lemma readAll_ok file :
  (exists t, readAll file = TOk t /\ text t = Some file) <-> length file = 0 \/ 16 <= length file.
Proof.
  unfold readAll. destruct (Nat.eqb_spec (length file) 0) as [H0|H0].
  - split; [intros; by left|]. intros _. destruct file; [|done]. by exists rstr_new.
  - unfold reserve, grow. cbn [t_data rstr_new t_size t_cap]. cbn [Nat.add].
    destruct (mem_store_ok (replicate (length file `max` 16 + 1) None) 0 file) as (d & -> & Hl & Ht);
      [rewrite replicate_length; lia|].
    rewrite replicate_length in Hl. cbn in Ht. rewrite take_0 in Ht. cbn in Ht.
    unfold resize. cbn [t_cap t_data t_size].
    destruct (Nat.leb_spec (Nat.max (length file) 16) (length file)) as [Hge|Hlt].
    + split; [intros; right; lia|]. intros _.
      destruct (mem_store_ok d (length file) [0%N]) as (d2 & -> & L2 & T2); [cbn; lia|].
      eexists. split; [done|]. cbn in T2. unfold text. cbn [t_data t_size].
      rewrite (proj2 (Nat.leb_le _ _)) by lia.
      rewrite <- (take_take_le d2 (length file) (length file + 1)) by lia.
      rewrite T2, Ht. rewrite take_app_alt by (rewrite map_length; lia). apply read_cells_map.
    + split; [by intros (t & H & _)|]. intros. exfalso. lia.
Qed.
Lemma spec_run_white ops : forall s s', spec_run isSpace ops s s' -> spec_run white ops s s'.
Proof.
  induction ops as [|o ops IH]; intros s s'; cbn; [done|]. intros (m & H & R). exists m. split; [|by apply IH].
  destruct o; cbn in *; try done.
  - eapply stripped_ext; [exact isSpace_white|done].
  - destruct H as (b & -> & Hb & Hl). exists b. split_and!; [done| |].
    + eapply Forall_impl; [exact Hb|]. intros c. cbn. by rewrite isSpace_white.
    + intros c Hc. rewrite <- isSpace_white. by apply Hl.
Qed.
