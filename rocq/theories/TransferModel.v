(** Model of the loops that move bytes through system calls: [os.copy]
    (src/cxy/stdlib/os.cxy:250-279, the Linux branch) and [TcpSocket]'s
    [receive], [sendBuffer] and [sendFile] (src/cxy/stdlib/tcp.cxy:70-160), with
    [Socket.wait] (src/cxy/stdlib/net.cxy:495-520).

    The kernel is a list of answers, one per system call; when it is used up the
    program is still waiting ([Waiting]).  A transfer moves at least one byte and at
    most what was asked for.  Sizes are [nat]: simplified, no size reaches 2^63.
    [errno] is part of an answer; after a call that returns 0 it holds what an
    earlier call left, so it is arbitrary. *)
From stdpp Require Import numbers list.
From Coq Require Import ZArith NArith.

(** The values of [enum State], native/evloop/ae.h:13-20. *)
Definition AE_READABLE : Z := 1.
Definition AE_WRITABLE : Z := 2.

(** [errno] as the loops look at it; with EAGAIN/EWOULDBLOCK comes what [fdWaitRead]
    returns if it is called next. *)
Inductive errno := EPipe | EConnReset | EAgain (rc : Z) | EOther.

(** Answer to a sending call: [Sent k e] moves up to [k] bytes; [e] is what [errno]
    holds if there was nothing to move.  [Failed e] returns -1. *)
Inductive answer := Sent (k : nat) (e : errno) | Failed (e : errno).

Definition moved (k asked : nat) : nat := Nat.min (Nat.max 1 k) asked.

(** ** os.copy *)
Inductive copy_out := Copied (dst : list N) | CopyRaised (dst : list N) | CopyWaiting (dst : list N).

(** os.cxy:260-274.  [sendfile] itself advances [copied] (its third argument), then
    line 273 adds the count once more. *)
Fixpoint copy_loop (src : list N) (copied : nat) (dst : list N) (k : list answer) : copy_out :=
  if (copied <? length src)%nat then
    match k with
    | [] => CopyWaiting dst
    | Sent n _ :: k' =>
      let w := moved n (length src - copied) in
      copy_loop src (copied + w + w) (dst ++ take w (drop copied src)) k'
    | Failed (EAgain rc) :: k' =>
      if (rc =? AE_READABLE)%Z then copy_loop src copied dst k' else CopyRaised dst
    | Failed _ :: _ => CopyRaised dst
    end
  else Copied dst.
Definition os_copy (src : list N) (k : list answer) : copy_out := copy_loop src 0 [] k.

(** ** Sockets *)
(** net.cxy:495-520; [rc] is what [fdWaitRead] returns.  Both branches call
    [fdWaitRead]. *)
Definition Socket_wait (open : bool) (state rc : Z) : bool :=
  if negb open then false
  else if (state =? AE_READABLE)%Z then (rc =? AE_READABLE)%Z
  else if (state =? AE_WRITABLE)%Z then (rc =? AE_WRITABLE)%Z
  else false.

(** Result of a socket call: [Done n open sent] returned the number [n], [Null open
    sent] returned null; [sent] is what went to the peer, [open] whether the
    descriptor is still open. *)
Inductive send_out :=
  | Done (n : nat) (open : bool) (sent : list N)
  | Null (open : bool) (sent : list N)
  | Waiting (sent : list N).

(** tcp.cxy:108-135.  [total] bytes are sent, [rest] is the buffer from there on. *)
Fixpoint send_loop (rest : list N) (total : nat) (sent : list N) (k : list answer) : send_out :=
  if (0 <? length rest)%nat then
    match k with
    | [] => Waiting sent
    | Sent n _ :: k' =>
      let w := moved n (length rest) in
      send_loop (drop w rest) (total + w) (sent ++ take w rest) k'
    | Failed EPipe :: _ => Null false sent
    | Failed (EAgain rc) :: k' =>
      if Socket_wait true AE_WRITABLE rc then send_loop rest total sent k' else Null true sent
    | Failed _ :: _ => Null true sent
    end
  else Done total true sent.
Definition sendBuffer (open : bool) (buf : list N) (k : list answer) : send_out :=
  if open then send_loop buf 0 [] k else Done 0 false [].

(** tcp.cxy:29-35 and 137-160.  [file] is the content of the file.  [Socket_sendfile]
    stores the new offset only if the call returned 0, so [offset] stays. A call that
    asks for nothing, or at the end of the file, returns 0. *)
Fixpoint sendfile_loop (file : list N) (offset toffset remaining count : nat) (sent : list N) (k : list answer) : send_out :=
  if (offset <? toffset)%nat then
    match k with
    | [] => Waiting sent
    | a :: k' =>
      let fail e :=
        match e with
        | EPipe => Null false sent
        | EAgain rc => if Socket_wait true AE_WRITABLE rc then sendfile_loop file offset toffset remaining count sent k'
                       else Null true sent
        | _ => Null true sent
        end in
      match a with
      | Sent n e =>
        let w := moved n (Nat.min remaining (length (drop offset file))) in
        if (w =? 0)%nat then fail e
        else sendfile_loop file offset toffset (remaining - w) count (sent ++ take w (drop offset file)) k'
      | Failed e => fail e
      end
    end
  else Done count true sent.
Definition sendFile (file : list N) (offset count : nat) (k : list answer) : send_out :=
  sendfile_loop file offset (offset + count) count count [] k.

(** Answers to [recv]: data that has arrived (not empty), the end of the stream, or
    -1. *)
Inductive rcv := RData (b : N) (bs : list N) | REof | RFailed (e : errno).
(** [n] is returned ([None]: null), the buffer's content, whether the descriptor is
    still open, and what has not been read. *)
Inductive recv_out :=
  | Received (n : option nat) (buf : list N) (open : bool) (unread : list rcv)
  | RecvWaiting (buf : list N).

Definition push_back (l : list N) (k : list rcv) : list rcv :=
  match l with [] => k | b :: bs => RData b bs :: k end.

(** tcp.cxy:70-106. *)
Fixpoint receive_loop (size total : nat) (buf : list N) (k : list rcv) : recv_out :=
  if (0 <? size - total)%nat then
    match k with
    | [] => RecvWaiting buf
    | RData b bs :: k' =>
      let w := take (size - total) (b :: bs) in
      let buf := take total buf ++ w ++ drop (total + length w) buf in
      let left := drop (size - total) (b :: bs) in
      if (0 <? length left)%nat then Received (Some (total + length w)) buf true (push_back left k')
      else receive_loop size (total + length w) buf k'
    | REof :: k' =>
      if (0 <? total)%nat then Received (Some total) buf true (REof :: k') else Received None buf false k'
    | RFailed (EAgain rc) :: k' =>
      if (0 <? total)%nat then Received (Some total) buf true k'
      else if Socket_wait true AE_READABLE rc then receive_loop size total buf k' else Received None buf true k'
    | RFailed EConnReset :: k' => Received None buf false k'
    | RFailed _ :: k' => Received None buf true k'
    end
  else Received (Some total) buf true k.
Definition receive (open : bool) (size : nat) (buf : list N) (k : list rcv) : recv_out :=
  if open then receive_loop size 0 buf k else Received (Some 0) buf false k.
