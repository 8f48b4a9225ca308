(** C18 and C19: moving bytes through system calls. *)
From stdpp Require Import numbers list.
From Coq Require Import ZArith NArith.
From Verif Require Import TransferModel TransferSpec TransferProofs.

(** ** C18 *)
(** A copy that reports success is complete exactly if there is at most one byte or the
    first call moves everything. *)
Theorem C18_copy_exact (src : list N) (k : list answer) (d : list N) :
  os_copy src k = Copied d ->
  d = src <-> (length src <= 1)%nat \/ exists n, first_transfer k = Some n /\ (length src <= n)%nat.
Proof. apply copy_exact. Qed.
Print Assumptions C18_copy_exact.
Theorem C18_copy_partial (src : list N) (k : list answer) (d : list N) :
  (forall n e, Sent n e ∈ k -> (length src <= n)%nat) -> os_copy src k = Copied d -> d = src.
Proof.
  intros H E. apply (copy_exact src k d E). destruct src as [|b src]; [left; cbn; lia|].
  right. destruct (copied_needs_first (b :: src) k d ltac:(cbn; lia) E) as [n En]. exists n. split; [done|].
  clear E. induction k as [|a k IH]; [done|]. destruct a as [m e|e]; cbn in En.
  - injection En as ->. apply (H n e). left.
  - destruct e as [| |rc|]; try done. destruct (rc =? 1)%Z; [|done]. apply IH; [|done].
    intros. apply (H n0 e). by right.
Qed.
Print Assumptions C18_copy_partial.
(** Four bytes in two transfers: success, but the second half is missing. *)
Theorem C18_copy_refuted : os_copy [1; 2; 3; 4]%N [Sent 2 EOther; Sent 2 EOther] = Copied [1; 2]%N.
Proof. by vm_compute. Qed.
Print Assumptions C18_copy_refuted.
Example C18_ex : os_copy [1; 2; 3; 4]%N [Failed (EAgain 1); Sent 9 EOther] = Copied [1; 2; 3; 4]%N.
Proof. by vm_compute. Qed.

(** ** C19 *)
(** What reaches the peer is a prefix of the buffer, whatever happens. *)
Theorem C19_send_prefix (open : bool) (buf : list N) (k : list answer) :
  sent_of (sendBuffer open buf k) `prefix_of` buf.
Proof.
  unfold sendBuffer. destruct open; [|apply prefix_nil].
  destruct (send_prefix k buf 0 []) as (l & -> & H). done.
Qed.
Print Assumptions C19_send_prefix.
(** A successful result counts the bytes that reached the peer, and if the socket is
    open these are all. *)
Theorem C19_send_done (open : bool) (buf : list N) (k : list answer) (n : nat) (o : bool) (s : list N) :
  sendBuffer open buf k = Done n o s -> n = length s /\ s = take n buf /\ (open = true -> s = buf).
Proof.
  unfold sendBuffer. destruct open.
  - intros E. apply send_done in E as (-> & _ & ->). cbn. split; [done|]. split; [|done]. by rewrite take_ge.
  - intros E. injection E as <- _ <-. done.
Qed.
Print Assumptions C19_send_done.
(** Without would-block results and errors, every way of cutting the buffer succeeds. *)
Theorem C19_send_ok (buf : list N) (k : list answer) :
  Forall (fun a => is_sent a = true) k -> (length buf <= length k)%nat ->
  sendBuffer true buf k = Done (length buf) true buf.
Proof. intros H1 H2. unfold sendBuffer. rewrite send_ok by done. done. Qed.
Print Assumptions C19_send_ok.
(** A would-block result always makes the send fail, even if the descriptor becomes
    ready: the bytes sent before stay sent, and the caller gets null. *)
Theorem C19_blocked_refuted (buf : list N) (pre k : list answer) (rc : Z) :
  read_wait_result rc -> Forall (fun a => is_sent a = true) pre -> (offered pre (length buf) < length buf)%nat ->
  sendBuffer true buf (pre ++ Failed (EAgain rc) :: k) = Null true (take (offered pre (length buf)) buf).
Proof. intros H1 H2 H3. unfold sendBuffer. by rewrite send_blocked. Qed.
Print Assumptions C19_blocked_refuted.
(** [sendFile] never reports success for a positive count. *)
Theorem C19_sendfile_refuted (file : list N) (offset count : nat) (k : list answer) (n : nat) (o : bool) (s : list N) :
  Forall answer_ok k -> (0 < count)%nat -> sendFile file offset count k <> Done n o s.
Proof. intros H1 H2. apply sendfile_never; [done|lia]. Qed.
Print Assumptions C19_sendfile_refuted.
(** And with partial transfers the peer gets the start of the file repeatedly. *)
Theorem C19_sendfile_repeats_refuted :
  sendFile [1; 2; 3]%N 0 3 [Sent 1 EOther; Sent 1 EOther; Sent 1 EOther; Sent 1 EOther] = Null true [1; 1; 1]%N.
Proof. by vm_compute. Qed.
Print Assumptions C19_sendfile_repeats_refuted.
(** A successful receive has stored exactly the bytes that arrived, each once and in
    order; the rest of the buffer is as before and the rest of the data still unread.
    It returns no bytes only if none were asked for or the socket is closed. *)
Theorem C19_receive (open : bool) (size : nat) (buf : list N) (k : list rcv) (n : nat) (buf' : list N) (o : bool) (k' : list rcv) :
  (size <= length buf)%nat -> receive open size buf k = Received (Some n) buf' o k' ->
  (n <= size)%nat /\ arrived k = take n buf' ++ arrived k' /\ drop n buf' = drop n buf /\
  (n = 0 -> size = 0 \/ open = false)%nat.
Proof.
  intros Hs. unfold receive. destruct open.
  - intros E. apply receive_ok in E as (_ & Hn & _ & _ & D & A & Z0); [|lia|done].
    rewrite drop_0 in A. repeat split; try done; [lia|]. intros H. left. by apply Z0.
  - intros E. injection E as <- <- _ <-. repeat split; [lia|by right].
Qed.
Print Assumptions C19_receive.

Example C19_ex_send : sendBuffer true [1; 2; 3]%N [Sent 1 EOther; Sent 0 EOther; Sent 7 EOther] = Done 3 true [1; 2; 3]%N.
Proof. by vm_compute. Qed.
Example C19_ex_blocked : sendBuffer true [1; 2; 3]%N [Sent 1 EOther; Failed (EAgain 1); Sent 7 EOther] = Null true [1%N].
Proof. by vm_compute. Qed.
Example C19_ex_receive :
  receive true 4 [0; 0; 0; 0; 9]%N [RFailed (EAgain 1); RData 1 [2]; RData 3 [4; 5]]%N =
  Received (Some 4%nat) [1; 2; 3; 4; 9]%N true [RData 5 []].
Proof. by vm_compute. Qed.
