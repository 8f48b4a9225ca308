(** Proofs about timers. *)
From Coq Require Import ZArith NArith Lia ZifyBool ZifyNat.
From stdpp Require Import numbers gmap list.
From Verif Require Import TimerModel TimerSpec.
Local Open Scope Z_scope.

(** ** The linked list *)
Definition hd_or (l : list nat) (q : option nat) : option nat := match l with a :: _ => Some a | [] => q end.
Definition last_or (p : option nat) (l : list nat) : option nat := match last l with Some a => Some a | None => p end.
Fixpoint dseg (m : gmap nat tnode) (p : option nat) (l : list nat) (q : option nat) : Prop :=
  match l with
  | [] => True
  | a :: l' => exists n, m !! a = Some n /\ t_prev n = p /\ t_next n = hd_or l' q /\ dseg m (Some a) l' q
  end.
Lemma hd_or_app l1 l2 q : hd_or (l1 ++ l2) q = hd_or l1 (hd_or l2 q).
Proof. by destruct l1. Qed.
Lemma last_or_cons p a l : last_or p (a :: l) = last_or (Some a) l.
Proof. unfold last_or. destruct l as [|b l]; [done|]. change (last (a :: b :: l)) with (last (b :: l)). destruct (last (b :: l)) eqn:E; [done|]. apply last_None in E. done. Qed.
Lemma dseg_app m p l1 l2 q : dseg m p (l1 ++ l2) q <-> dseg m p l1 (hd_or l2 q) /\ dseg m (last_or p l1) l2 q.
Proof.
  revert p. induction l1 as [|a l1 IH]; intros p; cbn [app dseg].
  - unfold last_or. cbn. tauto.
  - rewrite last_or_cons. setoid_rewrite IH. setoid_rewrite hd_or_app. split.
    + intros (n & E & P & X & H1 & H2). split; [|done]. by exists n.
    + intros [(n & E & P & X & H1) H2]. by exists n.
Qed.
Lemma dseg_frame m m' p l q :
  (forall a n, a ∈ l -> m !! a = Some n -> exists n', m' !! a = Some n' /\ t_prev n' = t_prev n /\ t_next n' = t_next n) ->
  dseg m p l q -> dseg m' p l q.
Proof.
  revert p. induction l as [|a l IH]; intros p H; cbn [dseg]; [done|].
  intros (n & E & P & X & D). destruct (H a n ltac:(left) E) as (n' & E' & P' & X'). exists n'.
  rewrite P', X'. repeat split; try done. apply IH; [|done]. intros b nb Hb. apply H. by right.
Qed.
Lemma dseg_insert_out m p l q a n : a ∉ l -> dseg m p l q -> dseg (<[a := n]> m) p l q.
Proof.
  intros Ha. apply dseg_frame. intros b nb Hb E. exists nb. rewrite lookup_insert_ne by (intros ->; done). done.
Qed.
Lemma dseg_lookup m p l q a : dseg m p l q -> a ∈ l -> exists n, m !! a = Some n.
Proof.
  revert p. induction l as [|b l IH]; intros p D Ha; [by apply elem_of_nil in Ha|].
  destruct D as (n & E & _ & _ & D). apply elem_of_cons in Ha as [-> |Ha]; [by exists n|by eapply IH].
Qed.
(** Redirecting the ends. *)
Lemma dseg_set_prev m p p' c l q n : c ∉ l -> m !! c = Some n -> dseg m p (c :: l) q ->
  dseg (<[c := set_prev p' n]> m) p' (c :: l) q.
Proof.
  intros Hc E (n0 & E0 & _ & X & D). rewrite E in E0. injection E0 as <-.
  exists (set_prev p' n). rewrite lookup_insert. repeat split; [done|]. by apply dseg_insert_out.
Qed.
Lemma dseg_set_next m p l b q q' n : b ∉ l -> m !! b = Some n -> dseg m p (l ++ [b]) q ->
  dseg (<[b := set_next q' n]> m) p (l ++ [b]) q'.
Proof.
  intros Hb E. rewrite !dseg_app. intros [D1 (n0 & E0 & P & _ & _)]. rewrite E in E0. injection E0 as <-.
  split; [by apply dseg_insert_out|]. exists (set_next q' n). rewrite lookup_insert. by repeat split.
Qed.

(** ** Live timers *)
Definition live (m : gmap nat tnode) (a : nat) : option (Z * (Z * Z)) :=
  match m !! a with Some n => if t_id n =? -1 then None else Some (t_id n, t_when n) | None => None end.
Lemma omap_live m a l : omap (live m) (a :: l) =
  match match m !! a with Some n => if t_id n =? -1 then None else Some (t_id n, t_when n) | None => None end with
  | Some x => x :: omap (live m) l | None => omap (live m) l end.
Proof. done. Qed.
Lemma omap_ext_in {A B} (f g : A -> option B) (l : list A) : (forall a, a ∈ l -> f a = g a) -> omap f l = omap g l.
Proof.
  induction l as [|a l IH]; intros H; [done|]. cbn. rewrite (H a) by left. rewrite IH; [done|]. intros b Hb. apply H. by right.
Qed.

Lemma deadline_disarm id id' l : deadline id' (disarm id l) = if id =? id' then None else deadline id' l.
Proof.
  induction l as [|[i w] l IH]; [by destruct (id =? id')|]. unfold disarm in *. rewrite filter_cons. cbn [fst].
  destruct (decide (i <> id)) as [H|H]; cbn [deadline]; rewrite IH; destruct (i =? id') eqn:E1, (id =? id') eqn:E2; try done; lia.
Qed.
Lemma deadline_rearm id w id' l : deadline id' (rearm id w l) =
  if id =? id' then match deadline id' l with Some _ => Some w | None => None end else deadline id' l.
Proof.
  induction l as [|[i w'] l IH]; [by destruct (id =? id')|]. cbn [rearm map fst deadline]. unfold rearm in IH.
  destruct (i =? id) eqn:E1; cbn [deadline]; rewrite IH; destruct (i =? id') eqn:E2, (id =? id') eqn:E3; try done; try lia.
Qed.
Lemma deadline_skew id l : deadline id (map (fun x => (fst x, (0, snd (snd x)))) l) =
  match deadline id l with Some w => Some (0, snd w) | None => None end.
Proof. induction l as [|[i w] l IH]; [done|]. cbn. rewrite IH. by destruct (i =? id). Qed.
Lemma disarm_none id l : deadline id l = None -> disarm id l = l.
Proof.
  induction l as [|[i w] l IH]; [done|]. cbn [deadline]. destruct (i =? id) eqn:E; [done|]. intros H.
  unfold disarm in *. rewrite filter_cons. rewrite decide_True by (cbn; lia). by rewrite IH.
Qed.
Lemma rearm_none id w l : deadline id l = None -> rearm id w l = l.
Proof.
  induction l as [|[i w'] l IH]; [done|]. cbn [deadline rearm map fst]. destruct (i =? id) eqn:E; [done|]. intros H.
  f_equal. by apply IH.
Qed.

(** Ids of live nodes are different. *)
Definition id_inj (m : gmap nat tnode) (l : list nat) : Prop :=
  forall a b na nb, a ∈ l -> b ∈ l -> m !! a = Some na -> m !! b = Some nb -> t_id na = t_id nb -> t_id na <> -1 -> a = b.

Lemma live_kill m l a n : m !! a = Some n -> t_id n <> -1 -> a ∈ l -> id_inj m l ->
  omap (live (<[a := set_id (-1) n]> m)) l = disarm (t_id n) (omap (live m) l).
Proof.
  intros E Hn Ha Hi.
  assert (H : forall b nb, b ∈ l -> m !! b = Some nb -> t_id nb = t_id n -> b = a).
  { intros b nb Hb Eb Ei. eapply Hi; try done. congruence. }
  clear Hi Ha. induction l as [|b l IH]; [done|].
  rewrite !omap_live. rewrite IH by (intros c nc Hc; apply H; by right).
  destruct (decide (b = a)) as [-> |Hb].
  - rewrite lookup_insert, E. cbn [t_id set_id]. replace (-1 =? -1) with true by lia. replace (t_id n =? -1) with false by lia.
    unfold disarm. rewrite filter_cons. rewrite decide_False by (cbn; lia). done.
  - rewrite lookup_insert_ne by done. destruct (m !! b) as [nb|] eqn:Eb; [|done]. destruct (t_id nb =? -1); [done|].
    unfold disarm. rewrite filter_cons. rewrite decide_True; [done|]. cbn. intros Ei. apply Hb. eapply H; [left|done|done].
Qed.
Lemma live_same m (l : list nat) a n n' : m !! a = Some n -> t_id n' = t_id n -> t_when n' = t_when n ->
  omap (live (<[a := n']> m)) l = omap (live m) l.
Proof.
  intros E E1 E2. apply omap_ext_in. intros b _. unfold live. destruct (decide (b = a)) as [-> |Hb].
  - rewrite lookup_insert, E. by rewrite E1, E2.
  - by rewrite lookup_insert_ne.
Qed.
Lemma live_dead m (l : list nat) a n n' : m !! a = Some n -> t_id n = -1 -> t_id n' = -1 -> omap (live (<[a := n']> m)) l = omap (live m) l.
Proof.
  intros E E1 E2. apply omap_ext_in. intros b _. unfold live. destruct (decide (b = a)) as [-> |Hb].
  - rewrite lookup_insert, E. by rewrite E1, E2.
  - by rewrite lookup_insert_ne.
Qed.
Lemma live_rearm m l a n w : m !! a = Some n -> t_id n <> -1 -> a ∈ l -> id_inj m l ->
  omap (live (<[a := set_when w n]> m)) l = rearm (t_id n) w (omap (live m) l).
Proof.
  intros E Hn Ha Hi.
  assert (H : forall b nb, b ∈ l -> m !! b = Some nb -> t_id nb = t_id n -> b = a).
  { intros b nb Hb Eb Ei. eapply Hi; try done. congruence. }
  clear Hi Ha. induction l as [|b l IH]; [done|].
  rewrite !omap_live. rewrite IH by (intros c nc Hc; apply H; by right).
  destruct (decide (b = a)) as [-> |Hb].
  - rewrite lookup_insert, E. cbn [t_id t_when set_when]. replace (t_id n =? -1) with false by lia.
    cbn [rearm map fst]. by rewrite Z.eqb_refl.
  - rewrite lookup_insert_ne by done. destruct (m !! b) as [nb|] eqn:Eb; [|done]. destruct (t_id nb =? -1); [done|].
    cbn [rearm map fst]. destruct (t_id nb =? t_id n) eqn:Ei; [|done]. exfalso. apply Hb. eapply H; [left|done|lia].
Qed.
Lemma deadline_live m l a n : m !! a = Some n -> t_id n <> -1 -> a ∈ l -> id_inj m l -> deadline (t_id n) (omap (live m) l) = Some (t_when n).
Proof.
  intros E Hn Ha Hi.
  assert (H : forall b nb, b ∈ l -> m !! b = Some nb -> t_id nb = t_id n -> b = a).
  { intros b nb Hb Eb Ei. eapply Hi; try done. congruence. }
  clear Hi. induction l as [|b l IH]; [by apply elem_of_nil in Ha|].
  rewrite omap_live. destruct (decide (b = a)) as [-> |Hb].
  - rewrite E. replace (t_id n =? -1) with false by lia. cbn [deadline]. by rewrite Z.eqb_refl.
  - assert (Ha' : a ∈ l) by (apply elem_of_cons in Ha as [-> |]; done).
    assert (IH' := IH Ha' ltac:(intros c nc Hc; apply H; by right)).
    destruct (m !! b) as [nb|] eqn:Eb; [|done]. destruct (t_id nb =? -1); [done|]. cbn [deadline].
    destruct (t_id nb =? t_id n) eqn:Ei; [|done]. exfalso. apply Hb. eapply H; [left|done|lia].
Qed.
Lemma deadline_no m l id : (forall a n, a ∈ l -> m !! a = Some n -> t_id n <> id) -> deadline id (omap (live m) l) = None.
Proof.
  induction l as [|b l IH]; intros H; [done|]. rewrite omap_live.
  assert (IH' := IH ltac:(intros a n Ha; apply H; by right)).
  destruct (m !! b) as [nb|] eqn:Eb; [|done]. destruct (t_id nb =? -1); [done|]. cbn [deadline].
  replace (t_id nb =? id) with false; [done|]. specialize (H b nb ltac:(left) Eb). lia.
Qed.

Lemma live_m1 m l : deadline (-1) (omap (live m) l) = None.
Proof.
  induction l as [|c l IH]; [done|]. rewrite omap_live. destruct (m !! c) as [n|]; [|done].
  destruct (t_id n =? -1) eqn:E; [done|]. cbn [deadline]. by rewrite E.
Qed.

(** ** The invariant *)
Section proofs.
Context (clock : nat -> Z * Z) (cb : nat -> Z -> list act * Z) (nfd : nat) (junk : nat -> tnode).

Record Inv (s : tloop) (sp : spec) (l : list nat) : Prop := {
  i_nodup : NoDup l;
  i_seg : dseg (mem s) None l None;
  i_head : head s = hd_or l None;
  i_addr : forall a, a ∈ l -> (nfd <= a < brk s)%nat;
  i_brk : forall a n, mem s !! a = Some n -> (a < brk s)%nat;
  i_junk : forall i, (i < nfd)%nat -> mem s !! i = Some (junk i);
  i_low : (nfd <= brk s)%nat;
  i_fd : forall a n, a ∈ l -> mem s !! a = Some n -> t_fd n = -1;
  i_ids : forall a n, a ∈ l -> mem s !! a = Some n -> -1 <= t_id n < next_id s;
  i_inj : id_inj (mem s) l;
  i_armed : omap (live (mem s)) l = armed sp;
  i_next : next_id s = s_next sp;
  i_pos : 0 <= next_id s;
  i_last : last_time s = s_last sp;
  i_tick : tick s = s_tick sp;
}.

Lemma inv_size s sp l : Inv s sp l -> (length l <= size (mem s))%nat.
Proof.
  intros I. rewrite <- (size_list_to_set (C := gset nat) l) by apply I. rewrite <- (size_dom (D := gset nat)).
  apply subseteq_size. intros a Ha. apply elem_of_list_to_set in Ha. apply elem_of_dom.
  destruct (dseg_lookup _ _ _ _ a (i_seg _ _ _ I) Ha) as [n ->]. by exists n.
Qed.

(** What a callback may do to the nodes of the list. *)
Record Ext (s : tloop) (sp : spec) (s' : tloop) (sp' : spec) (l : list nat) : Prop := {
  x_node : forall a n, a ∈ l -> mem s !! a = Some n -> exists n', mem s' !! a = Some n' /\ t_when n' = t_when n /\
    (t_id n' = t_id n \/ t_id n' = -1 /\ deadline (t_id n) (armed sp') = None);
  x_gone : forall id, id < s_next sp -> deadline id (armed sp) = None -> deadline id (armed sp') = None;
  x_next : s_next sp <= s_next sp';
}.
Lemma Ext_refl s sp l : Ext s sp s sp l.
Proof. split; [|done|lia]. intros a n _ E. exists n. split; [done|]. split; [done|]. by left. Qed.
Lemma Ext_trans s sp s1 sp1 s2 sp2 l l' : Inv s sp l -> (forall a, a ∈ l -> a ∈ l') ->
  Ext s sp s1 sp1 l -> Ext s1 sp1 s2 sp2 l' -> Ext s sp s2 sp2 l.
Proof.
  intros I Hl [N1 G1 X1] [N2 G2 X2]. split; [| |lia].
  - intros a n Ha E. destruct (N1 a n Ha E) as (n1 & E1 & W1 & D1). destruct (N2 a n1 (Hl a Ha) E1) as (n2 & E2 & W2 & D2).
    exists n2. split; [done|]. split; [congruence|].
    assert (Hid := i_ids _ _ _ I a n Ha E). rewrite (i_next _ _ _ I) in Hid.
    destruct D1 as [D1|[D1 D1']], D2 as [D2|[D2 D2']].
    + left. congruence.
    + right. split; [done|]. by rewrite <- D1.
    + right. split; [congruence|]. apply G2; [lia|done].
    + right. split; [done|]. apply G2; [lia|done].
  - intros id Hid Hd. apply G2; [lia|]. by apply G1.
Qed.

(** ** The operations *)
Lemma create_ok s sp l ms : Inv s sp l -> exists s', create_timer clock s ms = TOk (s', snd (s_create clock sp ms)) /\
  Inv s' (fst (s_create clock sp ms)) (brk s :: l) /\ Ext s sp s' (fst (s_create clock sp ms)) l.
Proof.
  intros I. unfold create_timer, add_timer. cbn [mem head next_id tick last_time brk].
  unfold change. rewrite lookup_insert. cbn [tbind]. rewrite insert_insert. cbn [t_fd].
  rewrite (i_next _ _ _ I), (i_tick _ _ _ I). set (w := add_ms (clock (s_tick sp)) ms).
  set (N0 := TN (s_next sp) w None (head s) (-1)).
  assert (Hfresh : brk s ∉ l) by (intros H; apply (i_addr _ _ _ I) in H; lia).
  assert (Hh := i_head _ _ _ I).
  set (m1 := <[brk s := N0]> (mem s)).
  assert (M : exists m2, change_opt m1 (head s) (set_prev (Some (brk s))) = TOk m2 /\
     dseg m2 None (brk s :: l) None /\ m2 !! brk s = Some N0 /\
     (forall b n, b <> brk s -> mem s !! b = Some n -> exists n', m2 !! b = Some n' /\ t_id n' = t_id n /\ t_when n' = t_when n /\ t_fd n' = t_fd n) /\
     (forall b, b <> brk s -> mem s !! b = None -> m2 !! b = None) /\ (forall b, b ∉ l -> b <> brk s -> m2 !! b = mem s !! b)).
  { rewrite Hh. destruct l as [|c l].
    - exists m1. cbn [hd_or change_opt]. split; [done|]. split.
      { exists N0. unfold m1. rewrite lookup_insert. split; [done|]. split; [done|]. split; [cbn; by rewrite Hh|done]. }
      split; [apply lookup_insert|]. split; [|split].
      + intros b n Hb E. exists n. unfold m1. by rewrite lookup_insert_ne.
      + intros b Hb E. unfold m1. by rewrite lookup_insert_ne.
      + intros b _ Hb. unfold m1. by rewrite lookup_insert_ne.
    - cbn [hd_or change_opt]. destruct (dseg_lookup _ _ _ _ c (i_seg _ _ _ I) ltac:(left)) as [nc Ec].
      assert (Hc : c <> brk s) by (intros ->; apply Hfresh; left).
      assert (Ec1 : m1 !! c = Some nc) by (unfold m1; by rewrite lookup_insert_ne).
      unfold change. rewrite Ec1. eexists. split; [done|]. split; [|split; [|split; [|split]]].
      + exists N0. rewrite lookup_insert_ne by done. unfold m1 at 1. rewrite lookup_insert.
        split; [done|]. split; [done|]. split; [cbn; by rewrite Hh|].
        apply (dseg_set_prev _ None); [|done|].
        * assert (ND := i_nodup _ _ _ I). by apply NoDup_cons in ND as [ND _].
        * apply dseg_insert_out; [done|]. apply I.
      + rewrite lookup_insert_ne by done. apply lookup_insert.
      + intros b n Hb E. destruct (decide (b = c)) as [-> |Hbc].
        * rewrite lookup_insert. eexists. split; [done|]. rewrite Ec in E. by injection E as <-.
        * rewrite lookup_insert_ne by done. exists n. unfold m1. by rewrite lookup_insert_ne.
      + intros b Hb E. rewrite lookup_insert_ne by congruence. unfold m1. by rewrite lookup_insert_ne.
      + intros b Hb Hb'. rewrite lookup_insert_ne by (intros ->; apply Hb; left). unfold m1. by rewrite lookup_insert_ne. }
  destruct M as (m2 & E2 & D2 & L2 & K2 & K2' & K2''). rewrite E2. cbn [tbind].
  eexists. split; [done|].
  assert (Lset : forall b, b ∈ l -> exists n, mem s !! b = Some n) by (intros b Hb; by apply (dseg_lookup _ _ _ _ b (i_seg _ _ _ I))).
  assert (Hlb : forall b, b ∈ l -> b <> brk s) by (intros b Hb ->; done).
  assert (Hinv : forall b n', b ∈ l -> m2 !! b = Some n' -> exists n, mem s !! b = Some n /\ t_id n' = t_id n /\ t_when n' = t_when n /\ t_fd n' = t_fd n).
  { intros b n' Hb E. destruct (Lset b Hb) as [n En]. destruct (K2 b n (Hlb b Hb) En) as (n'' & E'' & H1 & H2 & H3).
    rewrite E in E''. injection E'' as <-. by exists n. }
  split.
  - split; cbn [mem head brk next_id last_time tick s_create fst snd armed s_next s_last s_tick].
    + apply NoDup_cons. split; [done|apply I].
    + done.
    + done.
    + intros a Ha. apply elem_of_cons in Ha as [-> |Ha]; [split; [apply (i_low _ _ _ I)|lia]|]. apply (i_addr _ _ _ I) in Ha. lia.
    + intros a n E. destruct (decide (a = brk s)) as [-> |Ha]; [lia|]. destruct (mem s !! a) as [n0|] eqn:E0.
      * apply (i_brk _ _ _ I) in E0. lia.
      * rewrite (K2' a Ha E0) in E. done.
    + intros i Hi. rewrite K2''; [by apply (i_junk _ _ _ I)| |].
      * intros H. apply (i_addr _ _ _ I) in H. lia.
      * assert (L := i_low _ _ _ I). lia.
    + assert (L := i_low _ _ _ I). lia.
    + intros a n Ha E. destruct (decide (a = brk s)) as [-> |Hne]; [rewrite L2 in E; by injection E as <-|].
      apply elem_of_cons in Ha as [-> |Ha]; [done|]. destruct (Hinv a n Ha E) as (n0 & E0 & _ & _ & ->). by apply (i_fd _ _ _ I a).
    + intros a n Ha E. assert (P := i_pos _ _ _ I). rewrite (i_next _ _ _ I) in P.
      destruct (decide (a = brk s)) as [-> |Hne]; [rewrite L2 in E; injection E as <-; cbn; lia|].
      apply elem_of_cons in Ha as [-> |Ha]; [done|]. destruct (Hinv a n Ha E) as (n0 & E0 & -> & _).
      assert (X := i_ids _ _ _ I a n0 Ha E0). rewrite (i_next _ _ _ I) in X. lia.
    + intros a b na nb Ha Hb Ea Eb Eid Hn.
      apply elem_of_cons in Ha as [-> |Ha]; apply elem_of_cons in Hb as [-> |Hb]; try done.
      * exfalso. rewrite L2 in Ea. injection Ea as <-. cbn in Eid. destruct (Hinv b nb Hb Eb) as (n0 & E0 & X & _).
        assert (Y := i_ids _ _ _ I b n0 Hb E0). rewrite (i_next _ _ _ I) in Y. lia.
      * exfalso. rewrite L2 in Eb. injection Eb as <-. cbn in Eid. destruct (Hinv a na Ha Ea) as (n0 & E0 & X & _).
        assert (Y := i_ids _ _ _ I a n0 Ha E0). rewrite (i_next _ _ _ I) in Y. lia.
      * destruct (Hinv a na Ha Ea) as (n0 & E0 & X & _). destruct (Hinv b nb Hb Eb) as (n1 & E1 & Y & _).
        apply (i_inj _ _ _ I a b n0 n1); try done; congruence.
    + rewrite omap_live. rewrite L2. unfold N0. cbn [t_id t_when].
      assert (P := i_pos _ _ _ I). rewrite (i_next _ _ _ I) in P. replace (s_next sp =? -1) with false by lia. fold w. f_equal.
      rewrite <- (i_armed _ _ _ I). apply omap_ext_in. intros b Hb. unfold live.
      destruct (Lset b Hb) as [n0 E0]. destruct (K2 b n0 (Hlb b Hb) E0) as (n' & E' & X & Y & _). by rewrite E', E0, X, Y.
    + done.
    + assert (P := i_pos _ _ _ I). rewrite (i_next _ _ _ I) in P. lia.
    + apply I.
    + done.
  - split; cbn [mem s_create fst snd armed s_next].
    + intros a n Ha E. destruct (K2 a n (Hlb a Ha) E) as (n' & E' & X & Y & _). exists n'. split; [done|]. split; [done|]. by left.
    + intros id Hid Hd. cbn [deadline]. replace (s_next sp =? id) with false by lia. done.
    + lia.
Qed.

(** Changing id or time of a listed node. *)
Lemma inv_change s sp l a n n' : Inv s sp l -> a ∈ l -> mem s !! a = Some n ->
  t_prev n' = t_prev n -> t_next n' = t_next n -> t_fd n' = t_fd n -> (t_id n' = t_id n \/ t_id n' = -1) ->
  Inv (set_mem s (<[a := n']> (mem s))) (Spec (omap (live (<[a := n']> (mem s))) l) (s_next sp) (s_last sp) (s_tick sp)) l.
Proof.
  intros I Ha E Hp Hx Hf Hid. destruct I. split; cbn; try done.
  - eapply dseg_frame; [|done]. intros b nb Hb Eb. destruct (decide (b = a)) as [-> |Hne].
    + rewrite lookup_insert. exists n'. rewrite E in Eb. injection Eb as <-. done.
    + rewrite lookup_insert_ne by done. by exists nb.
  - intros b nb Eb. destruct (decide (b = a)) as [-> |Hne]; [by eapply i_brk0|]. rewrite lookup_insert_ne in Eb by done. by eapply i_brk0.
  - intros i Hi. rewrite lookup_insert_ne; [by apply i_junk0|]. intros ->. apply i_addr0 in Ha. lia.
  - intros b nb Hb Eb. destruct (decide (b = a)) as [-> |Hne].
    + rewrite lookup_insert in Eb. injection Eb as <-. rewrite Hf. by apply (i_fd0 a).
    + rewrite lookup_insert_ne in Eb by done. by apply (i_fd0 b).
  - intros b nb Hb Eb. destruct (decide (b = a)) as [-> |Hne].
    + rewrite lookup_insert in Eb. injection Eb as <-. assert (X := i_ids0 a n Ha E). destruct Hid as [-> | ->]; lia.
    + rewrite lookup_insert_ne in Eb by done. by apply (i_ids0 b).
  - intros b c nb nc Hb Hc Eb Ec Eid Hn.
    destruct (decide (b = a)) as [-> |Hne]; [rewrite lookup_insert in Eb; injection Eb as <-|rewrite lookup_insert_ne in Eb by done];
    (destruct (decide (c = a)) as [-> |Hne']; [rewrite lookup_insert in Ec; injection Ec as <-|rewrite lookup_insert_ne in Ec by done]); try done.
    + destruct Hid as [Hid|Hid]; [|lia]. apply (i_inj0 a c n nc); try done; congruence.
    + destruct Hid as [Hid|Hid]; [|lia]. apply (i_inj0 b a nb n); try done; congruence.
    + by apply (i_inj0 b c nb nc).
Qed.
Lemma inv_armed_eq s sp l sp' : Inv s sp l -> armed sp' = armed sp -> s_next sp' = s_next sp -> s_last sp' = s_last sp -> s_tick sp' = s_tick sp -> Inv s sp' l.
Proof. intros I E1 E2 E3 E4. destruct I. split; done || congruence. Qed.

Lemma delete_loop_ok m l id : forall fuel p, dseg m p l None -> (length l <= fuel)%nat ->
  (exists a n, a ∈ l /\ m !! a = Some n /\ t_id n = id /\ delete_loop fuel m (hd_or l None) id = TOk (<[a := set_id (-1) n]> m)) \/
  ((forall a n, a ∈ l -> m !! a = Some n -> t_id n <> id) /\ delete_loop fuel m (hd_or l None) id = TOk m).
Proof.
  induction l as [|a l IH]; intros fuel p D Hf.
  - right. split; [by intros a n Ha; apply elem_of_nil in Ha|]. by destruct fuel.
  - destruct fuel as [|fuel]; [cbn in Hf; lia|]. destruct D as (n & E & _ & X & D).
    cbn [hd_or delete_loop]. rewrite E. destruct (t_id n =? id) eqn:Ei.
    + left. exists a, n. split; [left|]. split; [done|]. split; [lia|]. unfold change. by rewrite E.
    + rewrite X. destruct (IH fuel (Some a) D ltac:(cbn in Hf; lia)) as [(b & nb & Hb & Eb & Eid & R)|[R1 R2]].
      * left. exists b, nb. split; [by right|]. done.
      * right. split; [|done]. intros b nb Hb Eb. apply elem_of_cons in Hb as [-> |Hb]; [rewrite E in Eb; injection Eb as <-; lia|by apply (R1 b)].
Qed.
Lemma delete_ok s sp l id : Inv s sp l -> exists s', delete_timer s id = TOk s' /\ Inv s' (s_delete sp id) l /\ Ext s sp s' (s_delete sp id) l.
Proof.
  intros I. unfold delete_timer. rewrite (i_head _ _ _ I).
  assert (G : forall id', deadline id' (armed sp) = None -> deadline id' (armed (s_delete sp id)) = None).
  { intros id' H. cbn. rewrite deadline_disarm. by destruct (id =? id'). }
  destruct (delete_loop_ok (mem s) l id (S (size (mem s))) None (i_seg _ _ _ I) ltac:(pose proof (inv_size _ _ _ I); lia))
    as [(a & n & Ha & E & Eid & ->)|[Hno ->]]; cbn [tbind].
  - eexists. split; [done|]. assert (X := inv_change s sp l a n (set_id (-1) n) I Ha E eq_refl eq_refl eq_refl ltac:(by right)).
    destruct (decide (id = -1)) as [-> |Hne].
    + (* a dead node *)
      assert (D : disarm (-1) (armed sp) = armed sp).
      { apply disarm_none. rewrite <- (i_armed _ _ _ I). apply live_m1. }
      split.
      * eapply inv_armed_eq; [exact X|..]; cbn; try done. rewrite D, <- (i_armed _ _ _ I). symmetry. by apply (live_dead _ _ a n).
      * split; cbn; [|intros id' _; apply G|lia]. intros b nb Hb Eb. destruct (decide (b = a)) as [-> |Hb'].
        -- rewrite lookup_insert. eexists. split; [done|]. rewrite E in Eb. injection Eb as <-. split; [done|]. left. cbn. lia.
        -- rewrite lookup_insert_ne by done. exists nb. split; [done|]. split; [done|]. by left.
    + split.
      * eapply inv_armed_eq; [exact X|..]; cbn; try done. rewrite <- (i_armed _ _ _ I). rewrite <- Eid. symmetry. apply live_kill; try done; [lia|apply I].
      * split; cbn; [|intros id' _; apply G|lia]. intros b nb Hb Eb. destruct (decide (b = a)) as [-> |Hb'].
        -- rewrite lookup_insert. eexists. split; [done|]. rewrite E in Eb. injection Eb as <-. split; [done|]. right. split; [done|].
           rewrite deadline_disarm, Eid. by rewrite Z.eqb_refl.
        -- rewrite lookup_insert_ne by done. exists nb. split; [done|]. split; [done|]. by left.
  - exists s. split; [by destruct s|]. assert (D : disarm id (armed sp) = armed sp).
    { apply disarm_none. rewrite <- (i_armed _ _ _ I). by apply deadline_no. }
    assert (Y : armed (s_delete sp id) = armed sp) by done.
    split; [by eapply inv_armed_eq|]. split; [|intros id' _; apply G|cbn; lia]. intros b nb Hb Eb. exists nb. split; [done|]. split; [done|]. by left.
Qed.
Lemma acts_ok acts : forall s sp l, Inv s sp l -> exists s' l', run_acts clock s acts = TOk (s', snd (s_acts clock sp acts)) /\
  Inv s' (fst (s_acts clock sp acts)) (l' ++ l) /\ Ext s sp s' (fst (s_acts clock sp acts)) l.
Proof.
  induction acts as [|act acts IH]; intros s sp l I.
  - exists s, []. split; [done|]. split; [done|]. apply Ext_refl.
  - destruct act as [ms|id]; cbn [run_acts s_acts].
    + destruct (create_ok s sp l ms I) as (s1 & E1 & I1 & X1). rewrite E1. cbn [tbind fst snd].
      destruct (s_create clock sp ms) as [sp1 e]. cbn [fst snd] in *.
      destruct (IH s1 sp1 _ I1) as (s2 & l2 & E2 & I2 & X2). rewrite E2. cbn [tbind fst snd].
      destruct (s_acts clock sp1 acts) as [sp2 es]. cbn [fst snd] in *.
      exists s2, (l2 ++ [brk s]). split; [done|]. split; [by rewrite <- app_assoc|].
      eapply Ext_trans; [exact I| |exact X1|exact X2]. intros a Ha. by right.
    + destruct (delete_ok s sp l id I) as (s1 & E1 & I1 & X1). rewrite E1. cbn [tbind fst snd].
      destruct (IH s1 _ _ I1) as (s2 & l2 & E2 & I2 & X2). rewrite E2. cbn [tbind fst snd].
      destruct (s_acts clock (s_delete sp id) acts) as [sp2 es]. cbn [fst snd] in *.
      exists s2, l2. split; [done|]. split; [done|]. by eapply Ext_trans; [exact I| |exact X1|exact X2].
Qed.

(** Removing a dead node. *)
Lemma unlink_ok s sp l1 a l2 n : Inv s sp (l1 ++ a :: l2) -> mem s !! a = Some n -> t_id n = -1 ->
  exists s', unlink s a = TOk s' /\ Inv (set_mem s' (delete a (mem s'))) sp (l1 ++ l2) /\
    (forall b nb, b ∈ l2 -> mem s !! b = Some nb -> exists nb', delete a (mem s') !! b = Some nb' /\ t_id nb' = t_id nb).
Proof.
  intros I E Hid. assert (ND := i_nodup _ _ _ I). apply NoDup_app in ND as (ND1 & ND12 & ND2).
  apply NoDup_cons in ND2 as [Ha2 ND2]. assert (Ha1 : a ∉ l1) by (intros H; apply (ND12 a H); left).
  assert (D := i_seg _ _ _ I). apply dseg_app in D as [D1 D2]. cbn [hd_or] in D1.
  destruct D2 as (n0 & E0 & P & X & D2). rewrite E in E0. injection E0 as <-.
  unfold unlink. rewrite E.
  (* the part before *)
  assert (B : exists m1 h1, (match t_prev n with
           | Some p => tbind (change (mem s) p (set_next (t_next n))) (fun m => TOk (set_mem s m))
           | None => TOk (set_head s (t_next n)) end) = TOk (TL m1 h1 (next_id s) (last_time s) (brk s) (tick s)) /\
     h1 = hd_or (l1 ++ l2) None /\ dseg m1 None l1 (hd_or l2 None) /\
     (forall b, b ∉ l1 -> m1 !! b = mem s !! b) /\
     (forall b nb, mem s !! b = Some nb -> exists nb', m1 !! b = Some nb' /\ t_id nb' = t_id nb /\ t_when nb' = t_when nb /\ t_fd nb' = t_fd nb) /\
     (forall b, mem s !! b = None -> m1 !! b = None)).
  { rewrite P, X. destruct l1 as [|c l1' _] using rev_ind.
    - cbn [last_or last]. exists (mem s), (hd_or l2 None). split; [done|]. split; [done|]. split; [done|]. split; [done|].
      split; [|done]. intros b nb Eb. by exists nb.
    - unfold last_or. rewrite last_snoc. destruct (dseg_lookup _ _ _ _ c D1 ltac:(apply elem_of_app; right; left)) as [nc Ec].
      unfold change. rewrite Ec. cbn [tbind]. eexists _, _. split; [done|].
      split; [rewrite (i_head _ _ _ I); by destruct l1'|]. split; [|split; [|split]].
      + apply (dseg_set_next _ _ _ _ (Some a)); [|done|done]. apply NoDup_app in ND1 as (_ & H & _). intros Hc. apply (H c Hc). left.
      + intros b Hb. apply lookup_insert_ne. intros ->. apply Hb. apply elem_of_app. right. left.
      + intros b nb Eb. destruct (decide (b = c)) as [-> |]; [|rewrite lookup_insert_ne by done; by exists nb].
        rewrite lookup_insert. eexists. split; [done|]. rewrite Ec in Eb. by injection Eb as <-.
      + intros b Eb. apply lookup_insert_None. split; [done|]. congruence. }
  destruct B as (m1 & h1 & -> & Hh1 & D1' & F1 & K1 & K1'). cbn [tbind mem].
  assert (D2' : dseg m1 (Some a) l2 None).
  { eapply dseg_frame; [|exact D2]. intros b nb Hb Eb. exists nb. rewrite F1; [done|]. intros H. apply (ND12 b H). by right. }
  (* the part behind *)
  assert (C : exists m2, change_opt m1 (t_next n) (set_prev (t_prev n)) = TOk m2 /\
     dseg m2 None (l1 ++ l2) None /\ (forall b, b ∉ l1 -> b ∉ l2 -> m2 !! b = mem s !! b) /\
     (forall b nb, mem s !! b = Some nb -> exists nb', m2 !! b = Some nb' /\ t_id nb' = t_id nb /\ t_when nb' = t_when nb /\ t_fd nb' = t_fd nb) /\
     (forall b, mem s !! b = None -> m2 !! b = None)).
  { rewrite X, P. destruct l2 as [|c l2].
    - cbn [hd_or change_opt]. exists m1. split; [done|]. split; [by rewrite app_nil_r|]. split; [|done]. intros b Hb _. by apply F1.
    - cbn [hd_or change_opt]. destruct (dseg_lookup _ _ _ _ c D2' ltac:(left)) as [nc Ec].
      assert (Hc1 : c ∉ l1) by (intros H; apply (ND12 c H); right; left).
      unfold change. rewrite Ec. eexists. split; [done|]. split; [|split; [|split]].
      + apply dseg_app. split; [by apply dseg_insert_out|]. apply (dseg_set_prev _ (Some a)); [|done|done]. by apply NoDup_cons in ND2 as [? _].
      + intros b Hb1 Hb2. rewrite lookup_insert_ne by (intros ->; apply Hb2; left). by apply F1.
      + intros b nb Eb. destruct (K1 b nb Eb) as (nb1 & Eb1 & H1 & H2 & H3). destruct (decide (b = c)) as [-> |].
        * rewrite lookup_insert. eexists. split; [done|]. rewrite Ec in Eb1. injection Eb1 as <-. done.
        * rewrite lookup_insert_ne by done. by exists nb1.
      + intros b Eb. apply lookup_insert_None. split; [by apply K1'|]. intros ->. apply K1' in Eb. congruence. }
  destruct C as (m2 & -> & D & F2 & K2 & K2'). cbn [tbind]. eexists. split; [done|].
  assert (HaL : a ∉ l1 ++ l2) by (rewrite elem_of_app; tauto).
  assert (Sub : forall b, b ∈ l1 ++ l2 -> b ∈ l1 ++ a :: l2 /\ b <> a).
  { intros b Hb. split; [|intros ->; done]. apply elem_of_app in Hb as [Hb|Hb]; apply elem_of_app; [by left|]. right. by right. }
  assert (Back : forall b nb', b ∈ l1 ++ l2 -> delete a m2 !! b = Some nb' -> exists nb, mem s !! b = Some nb /\ t_id nb' = t_id nb /\ t_when nb' = t_when nb /\ t_fd nb' = t_fd nb).
  { intros b nb' Hb Eb. rewrite lookup_delete_ne in Eb by (intros ->; done). destruct (mem s !! b) as [nb|] eqn:E0.
    - destruct (K2 b nb E0) as (x & Ex & H). rewrite Eb in Ex. injection Ex as <-. by exists nb.
    - rewrite (K2' b E0) in Eb. done. }
  split.
  - split; cbn [mem head brk next_id last_time tick set_mem].
    + apply NoDup_app. split; [done|]. split; [|done]. intros b Hb Hb2. apply (ND12 b Hb). by right.
    + eapply dseg_frame; [|exact D]. intros b nb Hb Eb. exists nb. rewrite lookup_delete_ne by (intros ->; done). done.
    + done.
    + intros b Hb. apply (i_addr _ _ _ I). by apply Sub.
    + intros b nb Eb. apply lookup_delete_Some in Eb as [_ Eb]. destruct (mem s !! b) as [n0|] eqn:E0; [by apply (i_brk _ _ _ I b n0)|]. rewrite (K2' b E0) in Eb. done.
    + intros i Hi. assert (Hn : forall b, b ∈ l1 ++ a :: l2 -> b <> i) by (intros b Hb ->; apply (i_addr _ _ _ I) in Hb; lia).
      rewrite lookup_delete_ne; [|apply Hn; apply elem_of_app; right; left]. rewrite F2; [by apply (i_junk _ _ _ I)| |].
      * intros H. apply (Hn i); [apply elem_of_app; by left|done].
      * intros H. apply (Hn i); [apply elem_of_app; right; by right|done].
    + exact (i_low _ _ _ I).
    + intros b nb Hb Eb. destruct (Back b nb Hb Eb) as (n0 & E0 & _ & _ & ->). apply (i_fd _ _ _ I b); [by apply Sub|done].
    + intros b nb Hb Eb. destruct (Back b nb Hb Eb) as (n0 & E0 & -> & _). apply (i_ids _ _ _ I b); [by apply Sub|done].
    + intros b c nb nc Hb Hc Eb Ec Eid Hn. destruct (Back b nb Hb Eb) as (n0 & E0 & H0 & _). destruct (Back c nc Hc Ec) as (n1 & E1 & H1 & _).
      apply (i_inj _ _ _ I b c n0 n1); try (by apply Sub); try done; congruence.
    + rewrite <- (i_armed _ _ _ I). rewrite !omap_app. rewrite omap_live, E, Hid. cbn [Z.eqb Pos.eqb].
      assert (Y : forall b, b ∈ l1 ++ l2 -> live (delete a m2) b = live (mem s) b).
      { intros b Hb. unfold live. rewrite lookup_delete_ne by (intros ->; done).
        destruct (mem s !! b) as [nb|] eqn:E0; [|by rewrite (K2' b E0)].
        destruct (K2 b nb E0) as (x & -> & -> & -> & _). done. }
      f_equal; apply omap_ext_in; intros b Hb; apply Y; apply elem_of_app; [by left|by right].
    + apply I.
    + apply I.
    + apply I.
    + apply I.
  - intros b nb Hb Eb. cbn [mem set_mem]. rewrite lookup_delete_ne by (intros ->; done). destruct (K2 b nb Eb) as (x & Ex & Hx & _). by exists x.
Qed.

(** ** A round *)
(** The nodes still to be visited and the timers still to be looked at. *)
Inductive Rem (m : gmap nat tnode) (ar : list (Z * (Z * Z))) : list nat -> list Z -> Prop :=
  | rem_nil : Rem m ar [] []
  | rem_dead a n rest ids : m !! a = Some n -> t_id n = -1 -> Rem m ar rest ids -> Rem m ar (a :: rest) ids
  | rem_live a n rest ids : m !! a = Some n -> t_id n <> -1 -> Rem m ar rest ids -> Rem m ar (a :: rest) (t_id n :: ids)
  | rem_gone id rest ids : deadline id ar = None -> Rem m ar rest ids -> Rem m ar rest (id :: ids).
Lemma Rem_move m ar m' ar' rest ids : 
  (forall a n, a ∈ rest -> m !! a = Some n -> exists n', m' !! a = Some n' /\ (t_id n' = t_id n \/ t_id n' = -1 /\ deadline (t_id n) ar' = None)) ->
  (forall id, id ∈ ids -> deadline id ar = None -> deadline id ar' = None) ->
  Rem m ar rest ids -> Rem m' ar' rest ids.
Proof.
  intros H G R. induction R as [|a n rest ids E Hd R IH|a n rest ids E Hd R IH|id rest ids Hd R IH].
  - constructor.
  - destruct (H a n ltac:(left) E) as (n' & E' & D). eapply rem_dead; [exact E'|destruct D as [D|[D _]]; congruence|].
    apply IH; [|done]. intros b nb Hb. apply H. by right.
  - assert (R' : Rem m' ar' rest ids).
    { apply IH; [intros b nb Hb; apply H; by right|intros id Hid; apply G; by right]. }
    destruct (H a n ltac:(left) E) as (n' & E' & [D|[D1 D2]]).
    + rewrite <- D. apply rem_live; [done|congruence|done].
    + apply rem_gone; [done|]. eapply rem_dead; [exact E'|done|done].
  - apply rem_gone; [apply G; [left|done]|]. apply IH; [done|]. intros id' Hid. apply G. by right.
Qed.
Lemma Rem_start m ar l : (forall a, a ∈ l -> is_Some (m !! a)) -> Rem m ar l (map fst (omap (live m) l)).
Proof.
  induction l as [|a l IH]; intros H; [constructor|]. destruct (H a ltac:(left)) as [n E]. rewrite omap_live. rewrite E.
  assert (IH' := IH ltac:(intros b Hb; apply H; by right)). destruct (t_id n =? -1) eqn:Ei.
  - eapply rem_dead; [done|lia|done].
  - cbn [map fst]. apply rem_live; [done|lia|done].
Qed.

Lemma Inv_tick s sp l : Inv s sp l -> Inv (set_tick s (S (tick s))) (Spec (armed sp) (s_next sp) (s_last sp) (S (s_tick sp))) l.
Proof. intros I. destruct I. split; cbn; try done. by f_equal. Qed.

Lemma process_ok k : forall fuel s sp l1 rest ids maxid,
  (length rest + length ids <= k)%nat -> (length rest <= fuel)%nat -> Inv s sp (l1 ++ rest) -> Rem (mem s) (armed sp) rest ids ->
  (forall id, id ∈ ids -> id <= maxid /\ id < s_next sp) ->
  (forall a n, a ∈ rest -> mem s !! a = Some n -> t_id n <= maxid) ->
  exists s' l', process_loop clock cb fuel s (hd_or rest None) maxid = TOk (s', snd (s_round clock cb sp ids)) /\
    Inv s' (fst (s_round clock cb sp ids)) l'.
Proof.
  induction k as [|k IH]; intros fuel s sp l1 rest ids maxid Hk Hf I R Hids Hmax.
  { destruct rest; [|cbn in Hk; lia]. destruct ids; [|cbn in Hk; lia]. exists s, l1. rewrite app_nil_r in I. by destruct fuel. }
  inversion R as [Er Ei|a n rest' ids' E Hd R' Er Ei|a n rest' ids' E Hd R' Er Ei|id rest' ids' Hd R' Er Ei]; subst.
  - exists s, l1. rewrite app_nil_r in I. by destruct fuel.
  - destruct fuel as [|fuel]; [cbn in Hf; lia|]. cbn [hd_or process_loop]. rewrite E, Hd.
    change (-1 =? AE_DELETED) with true. cbn match.
    destruct (unlink_ok s sp l1 a rest' n I E Hd) as (s1 & -> & I1 & K1). cbn [tbind].
    assert (X : t_next n = hd_or rest' None).
    { assert (D := i_seg _ _ _ I). apply dseg_app in D as [_ (n0 & E0 & _ & X & _)]. rewrite E in E0. by injection E0 as <-. }
    rewrite X. apply (IH fuel _ sp l1); cbn [length] in *; try lia; try done.
    + eapply Rem_move; [|done|exact R']. intros b nb Hb Eb. destruct (K1 b nb Hb Eb) as (x & Ex & Hx). exists x. cbn [mem set_mem]. split; [done|]. by left.
    + intros b nb Hb Eb. cbn [mem set_mem] in Eb. assert (Hb' : b ∈ l1 ++ a :: rest') by (apply elem_of_app; right; by right).
      destruct (dseg_lookup _ _ _ _ b (i_seg _ _ _ I) Hb') as [n0 E0]. destruct (K1 b n0 Hb E0) as (x & Ex & Hx).
      rewrite Eb in Ex. injection Ex as <-. rewrite Hx. eapply Hmax; [by right|done].
  - destruct fuel as [|fuel]; [cbn in Hf; lia|]. cbn [hd_or process_loop]. rewrite E.
    assert (Ha : a ∈ l1 ++ a :: rest') by (apply elem_of_app; right; left).
    unfold AE_DELETED. replace (t_id n =? -1) with false by lia.
    assert (Hm := Hmax a n ltac:(left) E). replace (maxid <? t_id n) with false by lia.
    assert (Dl : deadline (t_id n) (armed sp) = Some (t_when n)).
    { rewrite <- (i_armed _ _ _ I). apply (deadline_live _ _ a); try done. exact (i_inj _ _ _ I). }
    cbn [s_round]. rewrite Dl. rewrite <- (i_tick _ _ _ I). cbv zeta.
    assert (It := Inv_tick _ _ _ I). rewrite (i_tick _ _ _ I) in It. rewrite (i_tick _ _ _ I). cbn [s_tick set_tick tick].
    set (st := set_tick s (S (s_tick sp))) in *. set (spt := Spec (armed sp) (s_next sp) (s_last sp) (S (s_tick sp))) in *.
    assert (X : t_next n = hd_or rest' None).
    { assert (D := i_seg _ _ _ I). apply dseg_app in D as [_ (n0 & E0 & _ & X & _)]. rewrite E in E0. by injection E0 as <-. }
    destruct (due (clock (s_tick sp)) (t_when n)) eqn:Edue.
    + rewrite (i_fd _ _ _ I a n Ha E). change (-1 <? 0) with true. cbn match.
      destruct (cb (S (s_tick sp)) (t_id n)) as [acts ret].
      destruct (acts_ok acts st spt _ It) as (s1 & l' & E1 & I1 & X1). rewrite E1. cbn [tbind fst snd].
      destruct (s_acts clock spt acts) as [sp1 es]. cbn [fst snd] in *.
      destruct (x_node _ _ _ _ _ X1 a n Ha E) as (n1 & En1 & W1 & D1).
      assert (Ha1 : a ∈ l' ++ l1 ++ a :: rest') by (apply elem_of_app; by right).
      (* the node is marked or gets a new deadline *)
      assert (Mark : exists s2 sp2 r, (if ret =? AE_NO_MORE
                     then tbind (change (mem s1) a (set_id (-1))) (fun m => TOk (set_mem s1 m, None))
                     else tbind (change (mem s1) a (set_when (add_ms (clock (tick s1)) ret)))
                            (fun m => TOk (set_tick (set_mem s1 m) (S (tick s1)), Some (add_ms (clock (tick s1)) ret)))) = TOk (s2, r) /\
         (if ret =? -1 then (s_delete sp1 (t_id n), None)
          else (Spec (rearm (t_id n) (add_ms (clock (s_tick sp1)) ret) (armed sp1)) (s_next sp1) (s_last sp1) (S (s_tick sp1)),
                Some (add_ms (clock (s_tick sp1)) ret))) = (sp2, r) /\
         Inv s2 sp2 (l' ++ l1 ++ a :: rest') /\ (exists n2, mem s2 !! a = Some n2 /\ t_next n2 = t_next n1) /\
         (forall b, b <> a -> mem s2 !! b = mem s1 !! b) /\ s_next sp2 = s_next sp1 /\
         (forall id, deadline id (armed sp1) = None -> deadline id (armed sp2) = None)).
      { unfold change. rewrite En1. unfold AE_NO_MORE, AE_DELETED. destruct (ret =? -1).
        - cbn [tbind]. eexists _, _, _. split; [done|]. split; [done|].
          assert (J := inv_change s1 sp1 _ a n1 (set_id (-1) n1) I1 Ha1 En1 eq_refl eq_refl eq_refl ltac:(by right)).
          split; [|split; [|split; [|split]]].
          + eapply inv_armed_eq; [exact J|..]; cbn; try done. rewrite <- (i_armed _ _ _ I1). symmetry. destruct D1 as [D1|[D1 D1']].
            * rewrite <- D1. apply live_kill; try done; [lia|apply I1].
            * rewrite disarm_none by (rewrite (i_armed _ _ _ I1); done). by apply (live_dead _ _ a n1).
          + exists (set_id (-1) n1). cbn. by rewrite lookup_insert.
          + intros b Hb. cbn. by rewrite lookup_insert_ne.
          + done.
          + intros id Hid. cbn. rewrite deadline_disarm, Hid. by destruct (_ =? _).
        - cbn [tbind]. cbv zeta. rewrite (i_tick _ _ _ I1). eexists _, _, _. split; [done|]. split; [done|].
          set (w := add_ms (clock (s_tick sp1)) ret).
          assert (J := inv_change s1 sp1 _ a n1 (set_when w n1) I1 Ha1 En1 eq_refl eq_refl eq_refl ltac:(by left)).
          split; [|split; [|split; [|split]]].
          + apply Inv_tick in J. cbn [tick set_mem] in J. rewrite (i_tick _ _ _ I1) in J. eapply inv_armed_eq; [exact J|..]; cbn; try done.
            rewrite <- (i_armed _ _ _ I1). symmetry. destruct D1 as [D1|[D1 D1']].
            * rewrite <- D1. apply live_rearm; try done; [lia|apply I1].
            * rewrite rearm_none by (rewrite (i_armed _ _ _ I1); done). by apply (live_dead _ _ a n1).
          + exists (set_when w n1). cbn. by rewrite lookup_insert.
          + intros b Hb. cbn. by rewrite lookup_insert_ne.
          + done.
          + intros id Hid. cbn. rewrite deadline_rearm, Hid. by destruct (_ =? _). }
      destruct Mark as (s2 & sp2 & r & -> & -> & I2 & (n2 & En2 & Xn2) & F2 & Nx2 & G2). cbn [tbind fst snd].
      rewrite En2.
      assert (X2 : t_next n2 = hd_or rest' None).
      { assert (D := i_seg _ _ _ I2). rewrite app_assoc in D. apply dseg_app in D as [_ (n0 & E0 & _ & X2 & _)]. rewrite En2 in E0. by injection E0 as <-. }
      rewrite X2.
      assert (Hrest : forall b, b ∈ rest' -> b <> a).
      { intros b Hb ->. assert (ND := i_nodup _ _ _ I). apply NoDup_app in ND as (_ & _ & ND). apply NoDup_cons in ND as [ND _]. done. }
      assert (Node : forall b nb, b ∈ rest' -> mem s !! b = Some nb -> exists nb', mem s2 !! b = Some nb' /\ (t_id nb' = t_id nb \/ t_id nb' = -1 /\ deadline (t_id nb) (armed sp2) = None)).
      { intros b nb Hb Eb. destruct (x_node _ _ _ _ _ X1 b nb ltac:(apply elem_of_app; right; by right) Eb) as (x & Ex & _ & Dx).
        exists x. rewrite F2 by (by apply Hrest). split; [done|]. destruct Dx as [Dx|[Dx Dx']]; [by left|right]. split; [done|]. by apply G2. }
      destruct (IH fuel s2 sp2 (l' ++ l1 ++ [a]) rest' ids' maxid) as (s3 & l3 & E3 & I3).
      * cbn [length] in Hk. lia.
      * cbn [length] in Hf. lia.
      * by rewrite <- !app_assoc.
      * eapply Rem_move; [exact Node| |exact R']. intros id Hid Hdl. apply G2. apply (x_gone _ _ _ _ _ X1); [|done]. cbn. apply Hids. by right.
      * intros id Hid. destruct (Hids id ltac:(by right)) as [H1 H2]. split; [done|]. rewrite Nx2. assert (Y := x_next _ _ _ _ _ X1). cbn in Y. lia.
      * intros b nb Hb Eb. assert (Hb' : b ∈ l1 ++ a :: rest') by (apply elem_of_app; right; by right).
        destruct (dseg_lookup _ _ _ _ b (i_seg _ _ _ I) Hb') as [n0 E0]. destruct (Node b n0 Hb E0) as (x & Ex & Dx). rewrite Eb in Ex. injection Ex as <-.
        assert (Y := Hmax b n0 ltac:(by right) E0). assert (Y' := i_ids _ _ _ I b n0 Hb' E0). destruct Dx as [-> |[-> _]]; lia.
      * rewrite E3. cbn [tbind fst snd]. destruct (s_round clock cb sp2 ids') as [sp3 es']. cbn [fst snd] in *. by exists s3, l3.
    + destruct (IH fuel st spt (l1 ++ [a]) rest' ids' maxid) as (s3 & l3 & E3 & I3).
      * cbn [length] in Hk. lia.
      * cbn [length] in Hf. lia.
      * by rewrite <- app_assoc.
      * done.
      * intros id Hid. apply Hids. by right.
      * intros b nb Hb Eb. eapply Hmax; [by right|done].
      * rewrite X, E3. cbn [tbind fst snd]. destruct (s_round clock cb spt ids') as [sp3 es']. cbn [fst snd] in *. by exists s3, l3.
  - cbn [s_round]. rewrite Hd. apply (IH fuel s sp l1); try done; [cbn [length] in Hk; lia|]. intros id' Hid. apply Hids. by right.
Qed.

(** Clock skew. *)
Lemma skew_ok m l : forall fuel p, NoDup l -> dseg m p l None -> (length l <= fuel)%nat ->
  exists m', skew_loop fuel m (hd_or l None) = TOk m' /\
    (forall a, a ∉ l -> m' !! a = m !! a) /\
    (forall a n, a ∈ l -> m !! a = Some n -> m' !! a = Some (set_when (0, snd (t_when n)) n)).
Proof.
  revert m. induction l as [|a l IH]; intros m fuel p ND D Hf.
  - exists m. split; [by destruct fuel|]. split; [done|]. intros a n Ha. by apply elem_of_nil in Ha.
  - destruct fuel as [|fuel]; [cbn in Hf; lia|]. destruct D as (n & E & _ & X & D). cbn [hd_or skew_loop]. rewrite E, X.
    apply NoDup_cons in ND as [Ha ND].
    destruct (IH (<[a := set_when (0, snd (t_when n)) n]> m) fuel (Some a) ND ltac:(by apply dseg_insert_out) ltac:(cbn in Hf; lia)) as (m' & E' & F & K).
    exists m'. split; [done|]. split.
    + intros b Hb. apply not_elem_of_cons in Hb as [H1 H2]. rewrite F by done. by rewrite lookup_insert_ne.
    + intros b nb Hb Eb. apply elem_of_cons in Hb as [-> |Hb].
      * rewrite F by done. rewrite lookup_insert. rewrite E in Eb. by injection Eb as <-.
      * apply K; [done|]. rewrite lookup_insert_ne; [done|]. intros ->. done.
Qed.
Lemma Inv_last s sp l t : Inv s sp l ->
  Inv (TL (mem s) (head s) (next_id s) t (brk s) (tick s)) (Spec (armed sp) (s_next sp) t (s_tick sp)) l.
Proof. intros I. destruct I. by split. Qed.
Lemma process_all s sp l t : Inv s sp l -> exists s' l', process clock cb s t = TOk (s', snd (s_process clock cb sp t)) /\
  Inv s' (fst (s_process clock cb sp t)) l'.
Proof.
  intros I. unfold process, s_process. rewrite <- (i_last _ _ _ I).
  assert (S1 : exists s1, (if t <? last_time s
         then tbind (skew_loop (S (size (mem s))) (mem s) (head s)) (fun m => TOk (set_mem s m, [ESkew]))
         else TOk (s, [])) = TOk (s1, if t <? last_time s then [ESkew] else []) /\
     Inv s1 (Spec (if t <? last_time s then map (fun x => (fst x, (0, snd (snd x)))) (armed sp) else armed sp) (s_next sp) (s_last sp) (s_tick sp)) l).
  { destruct (t <? last_time s).
    - rewrite (i_head _ _ _ I).
      destruct (skew_ok (mem s) l (S (size (mem s))) None (i_nodup _ _ _ I) (i_seg _ _ _ I) ltac:(pose proof (inv_size _ _ _ I); lia)) as (m' & -> & F & K).
      cbn [tbind]. eexists. split; [done|].
      assert (Dec : forall b nb', m' !! b = Some nb' -> exists nb, mem s !! b = Some nb /\ t_id nb' = t_id nb /\ t_fd nb' = t_fd nb).
      { intros b nb' Eb. destruct (decide (b ∈ l)) as [Hb|Hb].
        - destruct (dseg_lookup _ _ _ _ b (i_seg _ _ _ I) Hb) as [n0 E0]. rewrite (K b n0 Hb E0) in Eb. injection Eb as <-. by exists n0.
        - rewrite F in Eb by done. by exists nb'. }
      split; cbn [mem head brk next_id last_time tick set_mem armed s_next s_last s_tick]; try solve [apply I].
      + eapply dseg_frame; [|apply I]. intros b nb Hb Eb. rewrite (K b nb Hb Eb). by eexists.
      + intros b nb Eb. destruct (Dec b nb Eb) as (n0 & E0 & _). by apply (i_brk _ _ _ I b n0).
      + intros i Hi. rewrite F; [by apply (i_junk _ _ _ I)|]. intros H. apply (i_addr _ _ _ I) in H. lia.
      + exact (i_low _ _ _ I).
      + intros b nb Hb Eb. destruct (Dec b nb Eb) as (n0 & E0 & _ & ->). by apply (i_fd _ _ _ I b).
      + intros b nb Hb Eb. destruct (Dec b nb Eb) as (n0 & E0 & -> & _). by apply (i_ids _ _ _ I b).
      + intros b c nb nc Hb Hc Eb Ec Eid Hn. destruct (Dec b nb Eb) as (n0 & E0 & H0 & _). destruct (Dec c nc Ec) as (n1 & E1 & H1 & _).
        apply (i_inj _ _ _ I b c n0 n1); try done; congruence.
      + rewrite <- (i_armed _ _ _ I). assert (Sub : forall b, b ∈ l -> b ∈ l) by done. revert Sub. generalize l at 1 3 4 as l0.
        induction l0 as [|b l0 IH0]; intros Sub; [done|]. rewrite !omap_live. assert (Hb := Sub b ltac:(left)).
        destruct (dseg_lookup _ _ _ _ b (i_seg _ _ _ I) Hb) as [n0 E0]. rewrite (K b n0 Hb E0), E0. cbn [t_id set_when t_when].
        rewrite IH0 by (intros c Hc; apply Sub; by right). by destruct (t_id n0 =? -1).
    - exists s. split; [done|]. by eapply inv_armed_eq. }
  destruct S1 as (s1 & -> & I1). cbn [tbind fst snd]. apply (Inv_last _ _ _ t) in I1. cbn [armed s_next s_tick] in I1.
  set (s2 := TL (mem s1) (head s1) (next_id s1) t (brk s1) (tick s1)) in *.
  set (sp2 := Spec (if t <? last_time s then map (fun x => (fst x, (0, snd (snd x)))) (armed sp) else armed sp) (s_next sp) t (s_tick sp)) in *.
  change (head s1) with (head s2). rewrite (i_head _ _ _ I1).
  assert (R : Rem (mem s2) (armed sp2) l (map fst (armed sp2))).
  { rewrite <- (i_armed _ _ _ I1) at 2. apply Rem_start. intros a Ha. destruct (dseg_lookup _ _ _ _ a (i_seg _ _ _ I1) Ha) as [n ->]. by exists n. }
  assert (Nx : next_id s2 = s_next sp2) by apply I1.
  destruct (process_ok (length l + length (map fst (armed sp2))) (S (size (mem s2))) s2 sp2 [] l (map fst (armed sp2)) (next_id s2 - 1)) as (s3 & l3 & E3 & I3).
  - lia.
  - pose proof (inv_size _ _ _ I1). lia.
  - done.
  - done.
  - intros id Hid. rewrite Nx. cut (id < s_next sp2); [lia|]. rewrite <- Nx. rewrite <- (i_armed _ _ _ I1) in Hid.
    apply elem_of_list_fmap in Hid as ([i w] & -> & Hid). apply elem_of_list_omap in Hid as (a & Ha & Hid). unfold live in Hid.
    destruct (mem s2 !! a) as [n|] eqn:E; [|done]. destruct (t_id n =? -1); [done|]. injection Hid as <- _. cbn. apply (i_ids _ _ _ I1 a n Ha E).
  - intros a n Ha E. assert (X := i_ids _ _ _ I1 a n Ha E). lia.
  - rewrite E3. cbn [tbind fst snd]. destruct (s_round clock cb sp2 (map fst (armed sp2))) as [sp3 es]. cbn [fst snd] in *. exists s3, l3. done.
Qed.

Context (junk_ok : forall i, (i < nfd)%nat -> t_when (junk i) = (0, 0)).
Lemma step_ok s sp l o : timers_only nfd o -> Inv s sp l -> exists s' l', tstep clock cb s o = TOk (s', snd (s_step clock cb sp o)) /\
  Inv s' (fst (s_step clock cb sp o)) l'.
Proof.
  intros Ho I. destruct o as [ms|id|t|fd t|fd]; cbn [tstep s_step].
  - destruct (create_ok s sp l ms I) as (s1 & -> & I1 & _). cbn [tbind fst snd]. destruct (s_create clock sp ms) as [sp1 e]. cbn [fst snd] in *. by exists s1, (brk s :: l).
  - destruct (delete_ok s sp l id I) as (s1 & -> & I1 & _). cbn [tbind fst snd]. by exists s1, l.
  - apply (process_all s sp l t I).
  - cbn in Ho. unfold file_wait. replace (0 <? t) with false by lia. cbn. by exists s, l.
  - cbn in Ho. unfold file_ready. rewrite (i_junk _ _ _ I fd Ho), junk_ok by done. cbn. by exists s, l.
Qed.
Lemma run_ok os : forall s sp l, Forall (timers_only nfd) os -> Inv s sp l ->
  exists s' l', trun clock cb s os = TOk (s', snd (s_run clock cb sp os)) /\ Inv s' (fst (s_run clock cb sp os)) l'.
Proof.
  induction os as [|o os IH]; intros s sp l Ho I; cbn [trun s_run].
  - by exists s, l.
  - apply Forall_cons_1 in Ho as [H1 H2]. destruct (step_ok s sp l o H1 I) as (s1 & l1 & -> & I1). cbn [tbind fst snd].
    destruct (s_step clock cb sp o) as [sp1 e1]. cbn [fst snd] in *. destruct (IH s1 sp1 l1 H2 I1) as (s2 & l2 & -> & I2). cbn [tbind fst snd].
    destruct (s_run clock cb sp1 os) as [sp2 e2]. cbn [fst snd] in *. by exists s2, l2.
Qed.
Lemma init_ok t : Inv (tinit nfd junk t) (s_init t) [].
Proof.
  assert (E : forall i, list_to_map (M := gmap nat tnode) ((fun i => (i, junk i)) <$> seq 0 nfd) !! i = if decide (i < nfd)%nat then Some (junk i) else None).
  { intros i. destruct (decide (i < nfd)%nat) as [H|H].
    - apply elem_of_list_to_map_1.
      + rewrite <- list_fmap_compose. cbn. rewrite list_fmap_id. apply NoDup_seq.
      + apply elem_of_list_fmap. exists i. split; [done|]. apply elem_of_seq. lia.
    - apply not_elem_of_list_to_map_1. rewrite <- list_fmap_compose. cbn. rewrite list_fmap_id. intros X. apply elem_of_seq in X. lia. }
  split; cbn; try done; try lia.
  - constructor.
  - intros a Ha. by apply elem_of_nil in Ha.
  - intros a n. rewrite E. destruct (decide (a < nfd)%nat); done.
  - intros i Hi. rewrite E. by rewrite decide_True.
  - intros a n Ha. by apply elem_of_nil in Ha.
  - intros a n Ha. by apply elem_of_nil in Ha.
  - intros a b na nb Ha. by apply elem_of_nil in Ha.
Qed.
End proofs.

(** ** Reading the events *)
Section trace.
Context (clock : nat -> Z * Z) (cb : nat -> Z -> list act * Z).
Lemma after_all_app id st e1 e2 : after_all id st (e1 ++ e2) = after_all id (after_all id st e1) e2.
Proof. apply fold_left_app. Qed.
Lemma looks_ok_app st e1 e2 : looks_ok st e1 -> looks_ok (fun id => after_all id (st id) e1) e2 -> looks_ok st (e1 ++ e2).
Proof.
  intros H1 H2 es1 e es2 E. apply app_eq_inv in E as [(k & E1 & E2)|(k & E1 & E2)].
  - destruct k as [|e' k].
    + cbn in E2. rewrite app_nil_r in E1. subst. specialize (H2 [] e es2 eq_refl). destruct e; try done; exact H2.
    + cbn in E2. injection E2 as -> E2. apply (H1 es1 e' k). done.
  - subst. specialize (H2 k e es2 eq_refl). destruct e; try done; by rewrite after_all_app.
Qed.
Lemma looks_ok_nil st : looks_ok st [].
Proof. intros es1 e es2 E. by destruct es1. Qed.
Lemma looks_ok_one st e : match e with EFire id now w => st id = Some w /\ due now w = true | EIdle id now w => st id = Some w /\ due now w = false | _ => True end ->
  looks_ok st [e].
Proof. intros H es1 e' es2 E. destruct es1 as [|? es1]; [|by destruct es1]. cbn in E. injection E as <- _. destruct e; done. Qed.
Lemma looks_ok_ext st st' es : (forall id, st id = st' id) -> looks_ok st es -> looks_ok st' es.
Proof. intros H L es1 e es2 E. specialize (L es1 e es2 E). destruct e; try done; by rewrite <- H. Qed.

Notation dl s := (fun id => deadline id (armed s)).
(** The events tell the armed timers, and are well-formed. *)
Definition tells (s s' : spec) (es : list event) : Prop :=
  looks_ok (dl s) es /\ forall id, after_all id (deadline id (armed s)) es = deadline id (armed s').
Lemma tells_app s s1 s2 e1 e2 : tells s s1 e1 -> tells s1 s2 e2 -> tells s s2 (e1 ++ e2).
Proof.
  intros [L1 A1] [L2 A2]. split.
  - apply looks_ok_app; [done|]. eapply looks_ok_ext; [|exact L2]. intros id. by rewrite A1.
  - intros id. by rewrite after_all_app, A1, A2.
Qed.
Lemma tells_create s ms : tells s (fst (s_create clock s ms)) [snd (s_create clock s ms)].
Proof. split; [by apply looks_ok_one|]. intros id. cbn. done. Qed.
Lemma tells_delete s i : tells s (s_delete s i) [EDelete i].
Proof. split; [by apply looks_ok_one|]. intros id. cbn. by rewrite deadline_disarm. Qed.
Lemma tells_nil s : tells s s [].
Proof. split; [apply looks_ok_nil|done]. Qed.
Lemma tells_eq s s' s'' es : tells s s' es -> armed s'' = armed s' -> tells s s'' es.
Proof. intros [L A] E. split; [done|]. by rewrite E. Qed.
Lemma tells_eql s s' s'' es : tells s s' es -> armed s'' = armed s -> tells s'' s' es.
Proof. intros [L A] E. split; by rewrite E. Qed.
Lemma tells_acts acts : forall s, tells s (fst (s_acts clock s acts)) (snd (s_acts clock s acts)).
Proof.
  induction acts as [|[ms|i] acts IH]; intros s; cbn [s_acts].
  - apply tells_nil.
  - pose proof (tells_create s ms) as H. destruct (s_create clock s ms) as [s1 e]. specialize (IH s1).
    destruct (s_acts clock s1 acts) as [s2 es]. cbn [fst snd] in *. by apply (tells_app s s1 s2 [e]).
  - specialize (IH (s_delete s i)). destruct (s_acts clock (s_delete s i) acts) as [s2 es]. cbn [fst snd] in *.
    apply (tells_app s (s_delete s i) s2 [EDelete i]); [apply tells_delete|done].
Qed.
Lemma tells_round ids : forall s, tells s (fst (s_round clock cb s ids)) (snd (s_round clock cb s ids)).
Proof.
  induction ids as [|i ids IH]; intros s; cbn [s_round].
  - apply tells_nil.
  - destruct (deadline i (armed s)) as [w|] eqn:Ed; [|apply IH]. cbv zeta. cbn [s_tick].
    set (s0 := Spec (armed s) (s_next s) (s_last s) (S (s_tick s))).
    destruct (due (clock (s_tick s)) w) eqn:Edue.
    + destruct (cb (S (s_tick s)) i) as [acts ret]. assert (T1 := tells_acts acts s0). destruct (s_acts clock s0 acts) as [s1 es]. cbn [fst snd] in T1.
      assert (T2 : exists s2 r, (if ret =? -1 then (s_delete s1 i, None)
           else (Spec (rearm i (add_ms (clock (s_tick s1)) ret) (armed s1)) (s_next s1) (s_last s1) (S (s_tick s1)), Some (add_ms (clock (s_tick s1)) ret))) = (s2, r) /\
         tells s1 s2 [EDone i r]).
      { destruct (ret =? -1); (eexists _, _; split; [done|]); (split; [by apply looks_ok_one|]); intros id; cbn.
        - rewrite deadline_disarm. by destruct (i =? id), (deadline id (armed s1)).
        - rewrite deadline_rearm. by destruct (i =? id), (deadline id (armed s1)). }
      destruct T2 as (s2 & r & -> & T2). assert (T3 := IH s2). destruct (s_round clock cb s2 ids) as [s3 es']. cbn [fst snd] in *.
      apply (tells_app s s s3 [EFire i (clock (s_tick s)) w]).
      { split; [by apply looks_ok_one|done]. }
      apply (tells_eql s0); [|done]. apply (tells_app s0 s1 s3); [done|]. by apply (tells_app s1 s2 s3 [EDone i r]).
    + assert (T3 := IH s0). destruct (s_round clock cb s0 ids) as [s3 es']. cbn [fst snd] in *.
      apply (tells_app s s s3 [EIdle i (clock (s_tick s)) w]); [|by apply (tells_eql s0)].
      split; [by apply looks_ok_one|done].
Qed.
Lemma tells_process s t : tells s (fst (s_process clock cb s t)) (snd (s_process clock cb s t)).
Proof.
  unfold s_process. cbv zeta. cbn [armed].
  set (s1 := Spec _ (s_next s) t (s_tick s)). set (ids := map fst _). assert (T := tells_round ids s1).
  destruct (s_round clock cb s1 ids) as [s2 es]. cbn [fst snd] in *.
  apply (tells_app s s1 s2); [|done]. unfold s1. destruct (t <? s_last s).
  - split; [by apply looks_ok_one|]. intros id. cbn. by rewrite deadline_skew.
  - split; [apply looks_ok_nil|done].
Qed.
Lemma tells_step s o : tells s (fst (s_step clock cb s o)) (snd (s_step clock cb s o)).
Proof.
  destruct o as [ms|i|t| |]; cbn [s_step].
  - pose proof (tells_create s ms) as H. destruct (s_create clock s ms). exact H.
  - apply tells_delete.
  - apply tells_process.
  - apply tells_nil.
  - apply tells_nil.
Qed.
Lemma tells_run os : forall s, tells s (fst (s_run clock cb s os)) (concat (snd (s_run clock cb s os))).
Proof.
  induction os as [|o os IH]; intros s; cbn [s_run]; [apply tells_nil|].
  assert (T := tells_step s o). destruct (s_step clock cb s o) as [s1 e]. assert (T' := IH s1). destruct (s_run clock cb s1 os) as [s2 es].
  cbn [fst snd concat] in *. by apply (tells_app s s1 s2).
Qed.

(** ** Fresh ids *)
Lemma created_app e1 e2 : created (e1 ++ e2) = created e1 ++ created e2.
Proof. apply omap_app. Qed.
Definition fresh (s s' : spec) (es : list event) : Prop :=
  s_next s <= s_next s' /\ created es = seqZ (s_next s) (s_next s' - s_next s) /\
  (NoDup (map fst (armed s)) /\ Forall (fun x => fst x < s_next s) (armed s) -> NoDup (map fst (armed s')) /\ Forall (fun x => fst x < s_next s') (armed s')).
Lemma fresh_app s s1 s2 e1 e2 : fresh s s1 e1 -> fresh s1 s2 e2 -> fresh s s2 (e1 ++ e2).
Proof.
  intros (L1 & C1 & A1) (L2 & C2 & A2). split; [lia|]. split; [|tauto].
  rewrite created_app, C1, C2. replace (s_next s2 - s_next s) with ((s_next s1 - s_next s) + (s_next s2 - s_next s1)) by lia.
  rewrite seqZ_app by lia. do 2 f_equal. lia.
Qed.
Lemma fresh_none s s' es : created es = [] -> s_next s' = s_next s -> 
  (NoDup (map fst (armed s)) /\ Forall (fun x => fst x < s_next s) (armed s) -> NoDup (map fst (armed s')) /\ Forall (fun x => fst x < s_next s') (armed s')) ->
  fresh s s' es.
Proof. intros C E H. split; [lia|]. split; [|done]. rewrite C, E, Z.sub_diag. done. Qed.
Lemma fresh_create s ms : fresh s (fst (s_create clock s ms)) [snd (s_create clock s ms)].
Proof.
  cbn. split; [cbn; lia|]. split.
  - cbn. replace (s_next s + 1 - s_next s) with 1 by lia. done.
  - cbn. intros [N F]. split.
    + apply NoDup_cons. split; [|done]. intros H. apply elem_of_list_fmap in H as (x & E & H). rewrite Forall_forall in F. apply F in H. lia.
    + constructor; [cbn; lia|]. eapply list.Forall_impl; [exact F|]. cbn. lia.
Qed.
Lemma fresh_delete s i : fresh s (s_delete s i) [EDelete i].
Proof.
  apply fresh_none; [done|done|]. cbn. unfold disarm. intros [N F]. split; [|apply Forall_forall; intros x Hx; apply elem_of_list_filter in Hx as [_ Hx]; rewrite Forall_forall in F; by apply F].
  revert N. generalize (armed s). induction l as [|[j w] l IH]; [done|]. cbn [map fst]. intros N. apply NoDup_cons in N as [N1 N2].
  rewrite filter_cons. destruct (decide _); [|by apply IH]. cbn [map fst]. apply NoDup_cons. split; [|by apply IH].
  intros H. apply N1. apply elem_of_list_fmap in H as (x & -> & H). apply elem_of_list_filter in H as [_ H]. by apply elem_of_list_fmap_1.
Qed.
Lemma fresh_acts acts : forall s, fresh s (fst (s_acts clock s acts)) (snd (s_acts clock s acts)).
Proof.
  induction acts as [|[ms|i] acts IH]; intros s; cbn [s_acts].
  - by apply fresh_none.
  - pose proof (fresh_create s ms) as H. destruct (s_create clock s ms) as [s1 e]. specialize (IH s1).
    destruct (s_acts clock s1 acts) as [s2 es]. cbn [fst snd] in *. by apply (fresh_app s s1 s2 [e]).
  - specialize (IH (s_delete s i)). destruct (s_acts clock (s_delete s i) acts) as [s2 es]. cbn [fst snd] in *.
    apply (fresh_app s (s_delete s i) s2 [EDelete i]); [apply fresh_delete|done].
Qed.
Lemma map_rearm id w l : map fst (rearm id w l) = map fst l.
Proof. unfold rearm. induction l as [|[i v] l IH]; [done|]. cbn. rewrite IH. destruct (i =? id) eqn:E; cbn; [|done]. f_equal. lia. Qed.
Lemma fst_Forall (P : Z -> Prop) (l l' : list (Z * (Z * Z))) : map fst l = map fst l' -> Forall (fun x => P (fst x)) l' -> Forall (fun x => P (fst x)) l.
Proof.
  intros E F. apply Forall_forall. intros x Hx. assert (H : fst x ∈ map fst l) by (by apply elem_of_list_fmap_1).
  rewrite E in H. apply elem_of_list_fmap in H as (y & -> & Hy). rewrite Forall_forall in F. by apply (F y).
Qed.
Lemma fresh_keys s s' es : created es = [] -> s_next s' = s_next s -> map fst (armed s') = map fst (armed s) -> fresh s s' es.
Proof.
  intros C E M. apply fresh_none; [done|done|]. intros [N F]. rewrite M, E. split; [done|].
  by apply (fst_Forall (fun i => i < s_next s) _ (armed s)).
Qed.
Definition no_look (es : list event) : Prop := forall id, looks id es = 0%nat.
Lemma looks_cons id e es : looks id (e :: es) = ((if looks_at id e then 1 else 0) + looks id es)%nat.
Proof. unfold looks. rewrite filter_cons. destruct (looks_at id e); [by rewrite decide_True|by rewrite decide_False]. Qed.
Lemma looks_app id e1 e2 : looks id (e1 ++ e2) = (looks id e1 + looks id e2)%nat.
Proof. unfold looks. rewrite list.filter_app, app_length. done. Qed.
Lemma acts_no_look acts : forall s, no_look (snd (s_acts clock s acts)).
Proof.
  induction acts as [|[ms|i] acts IH]; intros s id; cbn [s_acts].
  - done.
  - cbn [s_create]. cbv zeta. specialize (IH (Spec ((s_next s, add_ms (clock (s_tick s)) ms) :: armed s) (s_next s + 1) (s_last s) (S (s_tick s))) id).
    destruct (s_acts clock _ acts) as [s2 es]. cbn [fst snd] in *. rewrite looks_cons. cbn. exact IH.
  - specialize (IH (s_delete s i) id). destruct (s_acts clock (s_delete s i) acts) as [s2 es]. cbn [fst snd] in *. rewrite looks_cons. cbn. exact IH.
Qed.
Lemma fresh_round ids : forall s, fresh s (fst (s_round clock cb s ids)) (snd (s_round clock cb s ids)).
Proof.
  induction ids as [|i ids IH]; intros s; cbn [s_round].
  - by apply fresh_keys.
  - destruct (deadline i (armed s)) as [w|] eqn:Ed; [|apply IH]. cbv zeta. cbn [s_tick].
    set (s0 := Spec (armed s) (s_next s) (s_last s) (S (s_tick s))).
    destruct (due (clock (s_tick s)) w) eqn:Edue.
    + destruct (cb (S (s_tick s)) i) as [acts ret]. assert (T1 := fresh_acts acts s0). destruct (s_acts clock s0 acts) as [s1 es]. cbn [fst snd] in T1.
      assert (T2 : exists s2 r, (if ret =? -1 then (s_delete s1 i, None)
           else (Spec (rearm i (add_ms (clock (s_tick s1)) ret) (armed s1)) (s_next s1) (s_last s1) (S (s_tick s1)), Some (add_ms (clock (s_tick s1)) ret))) = (s2, r) /\
         fresh s1 s2 [EDone i r]).
      { destruct (ret =? -1); (eexists _, _; split; [done|]).
        - destruct (fresh_delete s1 i) as (A & B & C). split; [done|]. split; [|done]. cbn. by rewrite Z.sub_diag.
        - apply fresh_keys; [done|done|]. apply map_rearm. }
      destruct T2 as (s2 & r & -> & T2). assert (T3 := IH s2). destruct (s_round clock cb s2 ids) as [s3 es']. cbn [fst snd] in *.
      apply (fresh_app s s0 s3 [EFire i (clock (s_tick s)) w]); [by apply fresh_keys|].
      apply (fresh_app s0 s1 s3); [done|]. by apply (fresh_app s1 s2 s3 [EDone i r]).
    + assert (T3 := IH s0). destruct (s_round clock cb s0 ids) as [s3 es']. cbn [fst snd] in *.
      apply (fresh_app s s0 s3 [EIdle i (clock (s_tick s)) w]); [|done]. by apply fresh_keys.
Qed.
Lemma fresh_process s t : fresh s (fst (s_process clock cb s t)) (snd (s_process clock cb s t)).
Proof.
  unfold s_process. cbv zeta. cbn [armed].
  set (s1 := Spec _ (s_next s) t (s_tick s)). set (ids := map fst _). assert (T := fresh_round ids s1).
  destruct (s_round clock cb s1 ids) as [s2 es]. cbn [fst snd] in *.
  apply (fresh_app s s1 s2); [|done]. unfold s1. destruct (t <? s_last s); (apply fresh_keys; [done|done|]); [|done].
  cbn. rewrite map_map. by apply map_ext.
Qed.
Lemma fresh_run os : forall s, fresh s (fst (s_run clock cb s os)) (concat (snd (s_run clock cb s os))).
Proof.
  induction os as [|o os IH]; intros s; cbn [s_run]; [by apply fresh_keys|].
  assert (T : fresh s (fst (s_step clock cb s o)) (snd (s_step clock cb s o))).
  { destruct o as [ms|i|t| |]; cbn [s_step]; [|apply fresh_delete|apply fresh_process|by apply fresh_keys|by apply fresh_keys].
    pose proof (fresh_create s ms) as H. destruct (s_create clock s ms). exact H. }
  destruct (s_step clock cb s o) as [s1 e]. assert (T' := IH s1). destruct (s_run clock cb s1 os) as [s2 es].
  cbn [fst snd concat] in *. by apply (fresh_app s s1 s2).
Qed.

(** ** A round looks at every armed timer once *)
Lemma acts_gone acts : forall s id, id < s_next s -> deadline id (armed s) <> None -> 
  deadline id (armed (fst (s_acts clock s acts))) = None -> EDelete id ∈ snd (s_acts clock s acts).
Proof.
  induction acts as [|[ms|i] acts IH]; intros s id Hid Hd; cbn [s_acts].
  - cbn. done.
  - cbn [s_create]. cbv zeta. set (s1 := Spec _ (s_next s + 1) (s_last s) (S (s_tick s))). specialize (IH s1 id).
    destruct (s_acts clock s1 acts) as [s2 es]. cbn [fst snd] in *. intros H. right. apply IH; [cbn; lia| |done].
    cbn. by destruct (s_next s =? id).
  - specialize (IH (s_delete s i) id). destruct (s_acts clock (s_delete s i) acts) as [s2 es] eqn:Es. cbn [fst snd] in *. intros H.
    destruct (decide (i = id)) as [-> |Hne]; [left|]. right. apply IH; [done| |done].
    cbn. rewrite deadline_disarm. replace (i =? id) with false by lia. done.
Qed.
Lemma acts_kept acts : forall s id, id < s_next s -> deadline id (armed s) = None -> deadline id (armed (fst (s_acts clock s acts))) = None.
Proof.
  induction acts as [|[ms|i] acts IH]; intros s id Hid Hd; cbn [s_acts].
  - done.
  - cbn [s_create]. cbv zeta. set (s1 := Spec _ (s_next s + 1) (s_last s) (S (s_tick s))). specialize (IH s1 id).
    destruct (s_acts clock s1 acts) as [s2 es]. cbn [fst snd] in *. apply IH; [cbn; lia|]. cbn. by replace (s_next s =? id) with false by lia.
  - specialize (IH (s_delete s i) id). destruct (s_acts clock (s_delete s i) acts) as [s2 es]. cbn [fst snd] in *. apply IH; [done|].
    cbn. rewrite deadline_disarm. by destruct (i =? id).
Qed.
Lemma round_none ids : forall s id, id ∉ ids -> looks id (snd (s_round clock cb s ids)) = 0%nat.
Proof.
  induction ids as [|i ids IH]; intros s id Hn; cbn [s_round]; [done|]. apply not_elem_of_cons in Hn as [Hi Hn].
  destruct (deadline i (armed s)) as [w|]; [|by apply IH]. cbv zeta. cbn [s_tick].
  set (s0 := Spec (armed s) (s_next s) (s_last s) (S (s_tick s))).
  destruct (due (clock (s_tick s)) w).
  - destruct (cb (S (s_tick s)) i) as [acts ret]. assert (L := acts_no_look acts s0 id). destruct (s_acts clock s0 acts) as [s1 es]. cbn [snd] in L.
    set (x := if ret =? -1 then _ else _). destruct x as [s2 r]. assert (T3 := IH s2 id Hn). destruct (s_round clock cb s2 ids) as [s3 es']. cbn [fst snd] in *.
    rewrite looks_cons, looks_app, looks_cons, L, T3. cbn. by replace (i =? id) with false by lia.
  - assert (T3 := IH s0 id Hn). destruct (s_round clock cb s0 ids) as [s3 es']. cbn [fst snd] in *. rewrite looks_cons, T3. cbn. by replace (i =? id) with false by lia.
Qed.
Lemma mark_other s1 i ret id : i <> id ->
  let x := if ret =? -1 then (s_delete s1 i, None)
           else (Spec (rearm i (add_ms (clock (s_tick s1)) ret) (armed s1)) (s_next s1) (s_last s1) (S (s_tick s1)), Some (add_ms (clock (s_tick s1)) ret)) in
  deadline id (armed (fst x)) = deadline id (armed s1) /\ s_next (fst x) = s_next s1.
Proof.
  intros Hne. cbv zeta. destruct (ret =? -1); (split; [|done]); cbn; rewrite ?deadline_disarm, ?deadline_rearm; by replace (i =? id) with false by lia.
Qed.
Lemma round_gone l id : forall s, id < s_next s -> deadline id (armed s) = None -> looks id (snd (s_round clock cb s l)) = 0%nat.
Proof.
  induction l as [|j l IH]; intros s Hid Hd; cbn [s_round]; [done|].
  destruct (decide (j = id)) as [-> |Hne]; [rewrite Hd; by apply IH|].
  destruct (deadline j (armed s)) as [w|]; [|by apply IH]. cbv zeta. cbn [s_tick].
  set (s0 := Spec (armed s) (s_next s) (s_last s) (S (s_tick s))).
  destruct (due (clock (s_tick s)) w).
  - destruct (cb (S (s_tick s)) j) as [acts ret]. assert (L := acts_no_look acts s0 id). assert (K := acts_kept acts s0 id Hid Hd).
    assert (F := fresh_acts acts s0). destruct (s_acts clock s0 acts) as [s1 es]. cbn [fst snd] in L, K, F.
    destruct (mark_other s1 j ret id Hne) as [X Xn]. cbv zeta in X, Xn. destruct (if ret =? -1 then _ else _) as [s2 r]. cbn [fst] in X, Xn.
    destruct F as (F & _). cbn in F. assert (T := IH s2 ltac:(lia) ltac:(congruence)).
    destruct (s_round clock cb s2 l) as [s3 es']. cbn [fst snd] in *. rewrite looks_cons, looks_app, looks_cons, L, T. cbn. by replace (j =? id) with false by lia.
  - assert (T := IH s0 Hid Hd). destruct (s_round clock cb s0 l) as [s3 es']. cbn [fst snd] in *. rewrite looks_cons, T. cbn. by replace (j =? id) with false by lia.
Qed.
Lemma round_once ids : forall s id, NoDup ids -> id < s_next s -> id ∈ ids -> deadline id (armed s) <> None ->
  looks id (snd (s_round clock cb s ids)) = 1%nat \/
  looks id (snd (s_round clock cb s ids)) = 0%nat /\ EDelete id ∈ snd (s_round clock cb s ids).
Proof.
  induction ids as [|i ids IH]; intros s id ND Hid Hin Hd; [by apply elem_of_nil in Hin|]. apply NoDup_cons in ND as [Hi ND].
  cbn [s_round]. destruct (decide (i = id)) as [-> |Hne].
  - left. destruct (deadline id (armed s)) as [w|]; [|done]. cbv zeta. cbn [s_tick].
    set (s0 := Spec (armed s) (s_next s) (s_last s) (S (s_tick s))).
    destruct (due (clock (s_tick s)) w).
    + destruct (cb (S (s_tick s)) id) as [acts ret]. assert (L := acts_no_look acts s0 id). destruct (s_acts clock s0 acts) as [s1 es]. cbn [snd] in L.
      set (x := if ret =? -1 then _ else _). destruct x as [s2 r]. assert (T3 := round_none ids s2 id Hi). destruct (s_round clock cb s2 ids) as [s3 es']. cbn [fst snd] in *.
      rewrite looks_cons, looks_app, looks_cons, L, T3. cbn. by rewrite Z.eqb_refl.
    + assert (T3 := round_none ids s0 id Hi). destruct (s_round clock cb s0 ids) as [s3 es']. cbn [fst snd] in *. rewrite looks_cons, T3. cbn. by rewrite Z.eqb_refl.
  - apply elem_of_cons in Hin as [-> |Hin]; [done|].
    destruct (deadline i (armed s)) as [w|]; [|by apply IH]. cbv zeta. cbn [s_tick].
    set (s0 := Spec (armed s) (s_next s) (s_last s) (S (s_tick s))).
    destruct (due (clock (s_tick s)) w).
    + destruct (cb (S (s_tick s)) i) as [acts ret]. assert (L := acts_no_look acts s0 id). assert (G := acts_gone acts s0 id Hid Hd).
      assert (F := fresh_acts acts s0). destruct (s_acts clock s0 acts) as [s1 es]. cbn [fst snd] in L, G, F.
      destruct (mark_other s1 i ret id Hne) as [X Xn]. cbv zeta in X, Xn. destruct (if ret =? -1 then _ else _) as [s2 r]. cbn [fst] in X, Xn.
      destruct F as (F & _). cbn in F.
      destruct (deadline id (armed s1)) as [v|] eqn:E1.
      * destruct (IH s2 id ND ltac:(lia) Hin ltac:(congruence)) as [T|[T1 T2]]; destruct (s_round clock cb s2 ids) as [s3 es']; cbn [fst snd] in *.
        -- left. rewrite looks_cons, looks_app, looks_cons, L, T. cbn. by replace (i =? id) with false by lia.
        -- right. split.
           ++ rewrite looks_cons, looks_app, looks_cons, L, T1. cbn. by replace (i =? id) with false by lia.
           ++ right. apply elem_of_app. right. by right.
      * specialize (G eq_refl). right. assert (T := round_gone ids id s2 ltac:(lia) X). destruct (s_round clock cb s2 ids) as [s3 es']. cbn [fst snd] in *. split.
        -- rewrite looks_cons, looks_app, looks_cons, L, T. cbn. by replace (i =? id) with false by lia.
        -- right. apply elem_of_app. by left.
    + destruct (IH s0 id ND Hid Hin Hd) as [T|[T1 T2]]; destruct (s_round clock cb s0 ids) as [s3 es']; cbn [fst snd] in *.
      * left. rewrite looks_cons, T. cbn. by replace (i =? id) with false by lia.
      * right. split; [rewrite looks_cons, T1; cbn; by replace (i =? id) with false by lia|by right].
Qed.
Lemma process_once s t id : NoDup (map fst (armed s)) /\ Forall (fun x => fst x < s_next s) (armed s) ->
  let es := snd (s_process clock cb s t) in
  match deadline id (armed s) with
  | Some _ => looks id es = 1%nat \/ looks id es = 0%nat /\ EDelete id ∈ es
  | None => looks id es = 0%nat
  end.
Proof.
  intros [ND FA]. cbv zeta. unfold s_process. cbv zeta. cbn [armed].
  set (l := if t <? s_last s then _ else armed s).
  assert (M : map fst l = map fst (armed s)) by (unfold l; destruct (t <? s_last s); [rewrite map_map; by apply map_ext|done]).
  assert (D : deadline id l = None <-> deadline id (armed s) = None).
  { unfold l. destruct (t <? s_last s); [|done]. rewrite deadline_skew. by destruct (deadline id (armed s)). }
  assert (In : deadline id l <> None <-> id ∈ map fst l).
  { clear. induction l as [|[i w] l IH]; cbn [deadline map fst]; [rewrite elem_of_nil; tauto|]. rewrite elem_of_cons. destruct (i =? id) eqn:E.
    - split; [left; lia|done].
    - rewrite IH. split; [by right|]. intros [-> |H]; [lia|done]. }
  set (s1 := Spec l (s_next s) t (s_tick s)).
  assert (Pre : forall es, looks id ((if t <? s_last s then [ESkew] else []) ++ es) = looks id es).
  { intros es. rewrite looks_app. by destruct (t <? s_last s). }
  destruct (deadline id (armed s)) as [w|] eqn:Ed.
  - assert (Hin : id ∈ map fst l) by (apply In; intros H; by apply D in H).
    assert (Hlt : id < s_next s1).
    { rewrite M in Hin. apply elem_of_list_fmap in Hin as (x & -> & Hx). rewrite Forall_forall in FA. by apply FA. }
    assert (T := round_once (map fst l) s1 id ltac:(by rewrite M) Hlt Hin ltac:(cbn; intros H; by apply D in H)).
    destruct (s_round clock cb s1 (map fst l)) as [s2 es]. cbn [snd] in *. rewrite Pre. destruct T as [T|[T1 T2]]; [by left|right].
    split; [done|]. apply elem_of_app. by right.
  - assert (Hin : id ∉ map fst l) by (intros H; apply In in H; apply H, D; done).
    assert (T := round_none (map fst l) s1 id Hin). destruct (s_round clock cb s1 (map fst l)) as [s2 es]. cbn [snd] in *. by rewrite Pre.
Qed.
End trace.
