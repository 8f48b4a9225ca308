(** What the transfer loops are to achieve. *)
From stdpp Require Import numbers list.
From Coq Require Import ZArith NArith.
From Verif Require Import TransferModel.

(** The data that arrives, in order. *)
Fixpoint arrived (k : list rcv) : list N :=
  match k with
  | [] => []
  | RData b bs :: k' => (b :: bs) ++ arrived k'
  | _ :: k' => arrived k'
  end.

(** What [fdWaitRead] can return: it registers for reading only, so its callback gets
    a mask with the readable bit, or the timeout value 4, or the registration fails
    (-1). *)
Definition read_wait_result (rc : Z) : Prop := (rc = 1 \/ rc = 3 \/ rc = 4 \/ rc = -1)%Z.
Definition errno_ok (e : errno) : Prop := match e with EAgain rc => read_wait_result rc | _ => True end.
Definition answer_ok (a : answer) : Prop := match a with Sent _ e => errno_ok e | Failed e => errno_ok e end.

(** Number of bytes offered by the first transfer of a schedule, which only waits
    before it. *)
Fixpoint first_transfer (k : list answer) : option nat :=
  match k with
  | Sent n _ :: _ => Some n
  | Failed (EAgain rc) :: k' => if (rc =? 1)%Z then first_transfer k' else None
  | _ => None
  end.

(** The bytes that went to the peer. *)
Definition sent_of (o : send_out) : list N :=
  match o with Done _ _ s => s | Null _ s => s | Waiting s => s end.
Definition copied_of (o : copy_out) : list N :=
  match o with Copied d => d | CopyRaised d => d | CopyWaiting d => d end.
