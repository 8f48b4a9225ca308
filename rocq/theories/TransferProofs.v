(** Proofs about the transfer loops. *)
From stdpp Require Import numbers list.
From Coq Require Import ZArith NArith Lia ZifyBool ZifyNat.
From Verif Require Import TransferModel TransferSpec.

Lemma moved_bounds k n : (0 < n)%nat -> (1 <= moved k n <= n)%nat.
Proof. unfold moved. lia. Qed.

(** ** copy *)
Lemma copy_unfold src copied dst k : copy_loop src copied dst k =
  if (copied <? length src)%nat then
    match k with
    | [] => CopyWaiting dst
    | Sent n _ :: k' =>
      let w := moved n (length src - copied) in
      copy_loop src (copied + w + w) (dst ++ take w (drop copied src)) k'
    | Failed (EAgain rc) :: k' =>
      if (rc =? AE_READABLE)%Z then copy_loop src copied dst k' else CopyRaised dst
    | Failed _ :: _ => CopyRaised dst
    end
  else Copied dst.
Proof. by destruct k. Qed.

(** The loop never holds more than it claims to have copied. *)
Lemma copy_short src k : forall copied dst, (length dst <= copied)%nat -> (length dst < length src)%nat ->
  (length dst < copied \/ copied = 0)%nat -> (copied = 0 -> match first_transfer k with Some n => n < length src | None => True end)%nat ->
  (forall n, copied = 0 -> first_transfer k = Some n -> 1 <= n \/ 1 < length src)%nat ->
  forall d, copy_loop src copied dst k = Copied d -> (length d < length src)%nat.
Proof.
  induction k as [|a k IH]; intros copied dst Hl Hs Hz Hf Hn d; rewrite copy_unfold;
    (destruct (copied <? length src)%nat eqn:Ec; [|intros E; injection E as <-; lia]); [done|].
  destruct a as [n e|e].
  - cbn zeta. cbn in Hf, Hn. pose proof (moved_bounds n (length src - copied) ltac:(lia)) as Hw.
    apply IH; rewrite ?app_length, ?take_length, ?drop_length; try lia.
    destruct (decide (copied = 0)%nat) as [->|]; [|lia].
    specialize (Hf eq_refl). specialize (Hn n eq_refl eq_refl). unfold moved in *. lia.
  - destruct e as [| |rc|]; try done.
    cbn in Hf, Hn. unfold AE_READABLE. destruct (rc =? 1)%Z; [|done]. by apply IH.
Qed.
Lemma copy_whole src k : forall n, (0 < length src)%nat -> first_transfer k = Some n -> (length src <= n \/ length src = 1)%nat ->
  copy_loop src 0 [] k = Copied src.
Proof.
  induction k as [|a k IH]; intros n Hs Ef Hn; [done|]. rewrite copy_unfold.
  rewrite (proj2 (Nat.ltb_lt 0 (length src)) Hs).
  destruct a as [m e|e]; cbn in Ef.
  - injection Ef as ->. cbn zeta. rewrite copy_unfold. unfold moved.
    replace (_ <? length src)%nat with false by lia. f_equal. cbn [app]. rewrite drop_0. apply take_ge. lia.
  - destruct e as [| |rc|]; try done. unfold AE_READABLE. destruct (rc =? 1)%Z; [|done]. by apply (IH n).
Qed.
Lemma copied_needs_first src k d : (0 < length src)%nat -> copy_loop src 0 [] k = Copied d -> exists n, first_transfer k = Some n.
Proof.
  intros Hs. induction k as [|a k IH]; rewrite copy_unfold, (proj2 (Nat.ltb_lt 0 (length src)) Hs); [done|].
  destruct a as [n e|e]; [by eexists|]. destruct e as [| |rc|]; try done.
  cbn. unfold AE_READABLE. destruct (rc =? 1)%Z; [|done]. apply IH.
Qed.
Lemma copy_exact src k d : os_copy src k = Copied d ->
  d = src <-> (length src <= 1)%nat \/ exists n, first_transfer k = Some n /\ (length src <= n)%nat.
Proof.
  unfold os_copy. intros E. destruct src as [|b src].
  - rewrite copy_unfold in E. injection E as <-. split; [cbn; lia|done].
  - destruct (copied_needs_first (b :: src) k d ltac:(cbn; lia) E) as [n En].
    split.
    + intros ->. destruct (decide (length (b :: src) <= 1)%nat); [by left|right].
      exists n. split; [done|]. destruct (decide (length (b :: src) <= n)%nat); [done|].
      exfalso. cut (length (b :: src) < length (b :: src))%nat; [lia|].
      apply (copy_short (b :: src) k 0 []); try done; try (cbn; lia).
      * rewrite En. lia.
      * intros m _ Em. lia.
    + intros H. assert (E' := copy_whole (b :: src) k n ltac:(cbn; lia) En).
      rewrite E' in E by (destruct H as [H|(m & Em & H)]; [cbn in *; lia|rewrite En in Em; injection Em as ->; lia]).
      by injection E as <-.
Qed.

(** ** sending *)
Lemma send_unfold rest total sent k : send_loop rest total sent k =
  if (0 <? length rest)%nat then
    match k with
    | [] => Waiting sent
    | Sent n _ :: k' =>
      let w := moved n (length rest) in
      send_loop (drop w rest) (total + w) (sent ++ take w rest) k'
    | Failed EPipe :: _ => Null false sent
    | Failed (EAgain rc) :: k' =>
      if Socket_wait true AE_WRITABLE rc then send_loop rest total sent k' else Null true sent
    | Failed _ :: _ => Null true sent
    end
  else Done total true sent.
Proof. by destruct k. Qed.

Lemma send_prefix k : forall rest total sent, exists l, sent_of (send_loop rest total sent k) = sent ++ l /\ l `prefix_of` rest.
Proof.
  assert (P0 : forall sent rest : list N, exists l, sent = sent ++ l /\ l `prefix_of` rest).
  { intros sent rest. exists []. split; [by rewrite app_nil_r|apply prefix_nil]. }
  induction k as [|a k IH]; intros rest total sent; rewrite send_unfold; (destruct (0 <? length rest)%nat eqn:E0; [|apply P0]); [apply P0|].
  destruct a as [n e|e].
  - cbn zeta. destruct (IH (drop (moved n (length rest)) rest) (total + moved n (length rest))%nat (sent ++ take (moved n (length rest)) rest)) as (l & El & Hl).
    exists (take (moved n (length rest)) rest ++ l). split; [by rewrite El, <- app_assoc|].
    destruct Hl as [m Hm]. exists m. rewrite <- app_assoc, <- Hm. by rewrite take_drop.
  - destruct e as [| |rc|]; try apply P0. destruct (Socket_wait _ _ _); [apply IH|apply P0].
Qed.
Lemma send_done k : forall rest total sent n o s, send_loop rest total sent k = Done n o s -> n = (total + length rest)%nat /\ o = true /\ s = sent ++ rest.
Proof.
  assert (D : forall (total : nat) (sent rest : list N) n o s, (0 <? length rest)%nat = false -> Done total true sent = Done n o s ->
    n = (total + length rest)%nat /\ o = true /\ s = sent ++ rest).
  { intros total sent rest n o s E0 E. destruct rest; [|cbn in E0; lia]. injection E as <- <- <-. cbn. rewrite app_nil_r. split; [lia|done]. }
  induction k as [|a k IH]; intros rest total sent n o s; rewrite send_unfold; (destruct (0 <? length rest)%nat eqn:E0; [|by apply D]); [done|].
  destruct a as [m e|e].
  - cbn zeta. intros E. apply IH in E as (-> & -> & ->). pose proof (moved_bounds m (length rest) ltac:(lia)).
    rewrite drop_length, <- app_assoc, take_drop. split; [lia|done].
  - destruct e as [| |rc|]; try done. destruct (Socket_wait _ _ _); [apply IH|done].
Qed.

Lemma wait_writable o rc : read_wait_result rc -> Socket_wait o AE_WRITABLE rc = false.
Proof. intros H. unfold Socket_wait, AE_READABLE, AE_WRITABLE. destruct o; cbn; [|done]. destruct H as [-> |[-> |[-> | ->]]]; done. Qed.

Fixpoint offered (k : list answer) (size : nat) : nat :=
  match k with
  | Sent n _ :: k' => moved n size + offered k' (size - moved n size)
  | _ => 0
  end.
Definition is_sent (a : answer) : bool := match a with Sent _ _ => true | _ => false end.

Lemma send_blocked pre rc k : forall rest total sent, read_wait_result rc -> Forall (fun a => is_sent a = true) pre -> (offered pre (length rest) < length rest)%nat ->
  send_loop rest total sent (pre ++ Failed (EAgain rc) :: k) = Null true (sent ++ take (offered pre (length rest)) rest).
Proof.
  induction pre as [|a pre IH]; intros rest total sent Hrc Hp Ho; cbn [app]; rewrite send_unfold.
  - replace (0 <? length rest)%nat with true by lia. rewrite wait_writable by done. cbn. by rewrite app_nil_r.
  - replace (0 <? length rest)%nat with true by lia. apply Forall_cons_1 in Hp as [Ha Hp]. destruct a as [n e|e]; [|done].
    cbn zeta. cbn [offered] in *. pose proof (moved_bounds n (length rest) ltac:(lia)).
    assert (L : length (drop (moved n (length rest)) rest) = (length rest - moved n (length rest))%nat) by apply drop_length.
    rewrite IH; rewrite ?L; [|done|done|lia]. f_equal. rewrite <- app_assoc. f_equal.
    apply take_take_drop.
Qed.
Lemma send_ok k : forall rest total sent, Forall (fun a => is_sent a = true) k -> (length rest <= length k)%nat ->
  send_loop rest total sent k = Done (total + length rest) true (sent ++ rest).
Proof.
  induction k as [|a k IH]; intros rest total sent Hk Hl; rewrite send_unfold.
  - destruct rest; [|cbn in Hl; lia]. cbn. by rewrite Nat.add_0_r, app_nil_r.
  - destruct (0 <? length rest)%nat eqn:E0.
    + apply Forall_cons_1 in Hk as [Ha Hk]. destruct a as [n e|e]; [|done]. cbn zeta.
      pose proof (moved_bounds n (length rest) ltac:(lia)). rewrite IH; [|done|rewrite drop_length; cbn in Hl; lia].
      rewrite drop_length, <- app_assoc, take_drop. f_equal. lia.
    + destruct rest; [|cbn in E0; lia]. cbn. by rewrite Nat.add_0_r, app_nil_r.
Qed.

(** ** sendFile *)
Lemma sendfile_never file offset toffset count k : forall remaining sent n o s, Forall answer_ok k -> (offset < toffset)%nat ->
  sendfile_loop file offset toffset remaining count sent k <> Done n o s.
Proof.
  induction k as [|a k IH]; intros remaining sent n o s Hk Ho; cbn [sendfile_loop]; rewrite (proj2 (Nat.ltb_lt _ _) Ho); [done|].
  apply Forall_cons_1 in Hk as [Ha Hk]. destruct a as [m e|e]; cbn in Ha.
  - destruct (_ =? 0)%nat; [|by apply IH]. destruct e as [| |rc|]; try done. by rewrite wait_writable.
  - destruct e as [| |rc|]; try done. by rewrite wait_writable.
Qed.

(** ** receive *)
Lemma arrived_push_back l k : arrived (push_back l k) = l ++ arrived k.
Proof. by destruct l. Qed.
Lemma receive_ok size k : forall total buf n buf' o k', (total <= size)%nat -> (size <= length buf)%nat ->
  receive_loop size total buf k = Received (Some n) buf' o k' ->
  o = true /\ (total <= n <= size)%nat /\ length buf' = length buf /\
  take total buf' = take total buf /\ drop n buf' = drop n buf /\
  arrived k = drop total (take n buf') ++ arrived k' /\ (n = 0 -> size = 0)%nat.
Proof.
  assert (Base : forall (total : nat) (buf : list N) k n buf' o k', (total <= size)%nat -> (size <= length buf)%nat -> (total = 0 -> size = 0)%nat ->
    Received (Some total) buf true k = Received (Some n) buf' o k' ->
    o = true /\ (total <= n <= size)%nat /\ length buf' = length buf /\
    take total buf' = take total buf /\ drop n buf' = drop n buf /\
    arrived k = drop total (take n buf') ++ arrived k' /\ (n = 0 -> size = 0)%nat).
  { intros total buf k0 n buf' o k' Hs Hb Hz E. injection E as <- <- <- <-. repeat split; try done; try lia.
    by rewrite drop_ge by (rewrite take_length; lia). }
  induction k as [|a k IH]; intros total buf n buf' o k' Hs Hb; cbn [receive_loop];
    (destruct (0 <? size - total)%nat eqn:E0; [|apply Base; lia]); [done|].
  destruct a as [b bs| |e].
  - set (w := take (size - total) (b :: bs)). set (B := take total buf ++ w ++ drop (total + length w) buf).
    assert (Lw : length w = Nat.min (size - total) (length (b :: bs))) by (unfold w; by rewrite take_length).
    assert (Lw1 : (1 <= length w)%nat) by (rewrite Lw; cbn [length]; lia).
    assert (LB : length B = length buf) by (unfold B; rewrite !app_length, take_length, drop_length; lia).
    assert (Lt : length (take total buf) = total) by (rewrite take_length; lia).
    assert (TB : take total B = take total buf) by (unfold B; by rewrite take_app_alt).
    assert (DB : drop (total + length w) B = drop (total + length w) buf).
    { unfold B. rewrite <- drop_drop. rewrite (drop_app_alt (take total buf)) by done. by rewrite drop_app. }
    assert (MB : take (total + length w) B = take total buf ++ w).
    { unfold B. rewrite app_assoc. apply take_app_alt. rewrite app_length. lia. }
    destruct (0 <? length (drop (size - total) (b :: bs)))%nat eqn:Eleft.
    + intros E. injection E as <- <- <- <-. repeat split; try done; try lia.
      cbn [arrived]. rewrite arrived_push_back. rewrite MB. rewrite drop_app_alt by done.
      unfold w. by rewrite app_assoc, take_drop.
    + intros E. apply IH in E as (-> & Hn & L' & T' & D' & A & Z0); [|lia|lia].
      assert (Wall : w = b :: bs) by (unfold w; apply take_ge; rewrite drop_length in Eleft; lia).
      repeat split; try lia.
      * replace (take total buf') with (take total (take (total + length w) buf')) by (rewrite take_take; f_equal; lia).
        rewrite T', MB. by rewrite take_app_alt.
      * rewrite D'. assert (X : forall l : list N, drop n l = drop (n - (total + length w)) (drop (total + length w) l))
          by (intros l; rewrite drop_drop; f_equal; lia).
        by rewrite (X B), (X buf), DB.
      * cbn [arrived]. rewrite A.
        assert (X : drop total (take n buf') = w ++ drop (total + length w) (take n buf')).
        { rewrite <- (take_drop (total + length w) (take n buf')) at 1. rewrite take_take, Nat.min_l by lia.
          rewrite T', MB. rewrite <- app_assoc, drop_app_alt by done. done. }
        rewrite X, Wall. by rewrite <- app_assoc.
  - destruct (0 <? total)%nat eqn:Et; [|done]. cbn [arrived]. intros E. apply (Base total buf (REof :: k) n buf' o k') in E; [done|lia..].
  - destruct e as [| |rc|]; try done. cbn [arrived]. destruct (0 <? total)%nat eqn:Et; [apply Base; lia|].
    destruct (Socket_wait _ _ _); [|done]. cbn [arrived]. by apply IH.
Qed.
