(** C60: fixed-width log fields. *)
From Coq Require Import NArith Lia.
From stdpp Require Import numbers list.
From Verif Require Import LogFieldModel.
From Coq Require Import ZifyBool ZifyNat ZifyN.
Local Open Scope N_scope.

Lemma fixed_ok s w : fixed_width s w = Some (take (N.to_nat w) s ++ replicate (N.to_nat w - length s) 32).
Proof.
  unfold fixed_width, substr, min, repeat_char. rewrite drop_0.
  destruct (w <? N.of_nat (length s)) eqn:E1.
  - rewrite (proj2 (N.leb_le 0 _)), (proj2 (N.leb_le w _)) by lia. cbn [andb].
    rewrite (proj2 (N.ltb_ge _ w)) by lia. replace (N.to_nat w - length s)%nat with 0%nat by lia. done.
  - rewrite (proj2 (N.leb_le 0 _)), (proj2 (N.leb_le (N.of_nat (length s)) _)) by lia. cbn [andb].
    rewrite Nat2N.id, !take_ge by lia. do 2 f_equal.
    destruct (N.of_nat (length s) <? w) eqn:E2; [f_equal; lia|]. by replace (N.to_nat w - length s)%nat with 0%nat by lia.
Qed.
(** The text cut off at the width, or filled up with spaces: always [w] bytes. *)
Theorem C60_width (s : list N) (w : N) : exists t, fixed_width s w = Some t /\
  N.of_nat (length t) = w /\ t = take (N.to_nat w) (s ++ replicate (N.to_nat w) 32).
Proof.
  rewrite fixed_ok. eexists. split; [done|]. split; [rewrite app_length, take_length, replicate_length; lia|].
  destruct (decide (N.to_nat w <= length s)%nat).
  - rewrite take_app_le by lia. replace (N.to_nat w - length s)%nat with 0%nat by lia. by rewrite app_nil_r.
  - rewrite !take_ge by (rewrite ?app_length, ?replicate_length; lia).
    rewrite take_app_ge by lia. rewrite take_replicate. f_equal. f_equal. lia.
Qed.
Print Assumptions C60_width.
(** So in a printed log line the message starts 16 bytes after the time, whatever the tag. *)
Theorem C60_line (cur lvl : level) (time tag msg : list N) : level_num cur <= level_num lvl ->
  exists out, log cur lvl time tag msg = Some out /\ drop (length time + 16) out = msg ++ [10].
Proof.
  intros H. unfold log. rewrite (proj2 (N.leb_le _ _) H).
  destruct (C60_width tag 10) as (t & E & L & _). rewrite E. eexists. split; [done|].
  rewrite <- drop_drop, drop_app.
  assert (length t = 10%nat) as Lt by lia.
  do 11 (destruct t as [|? t]; try done). by destruct lvl.
Qed.
Print Assumptions C60_line.
Example C60_ex : fixed_width [65; 66] 4 = Some [65; 66; 32; 32] /\ fixed_width [65; 66; 67] 2 = Some [65; 66] /\
  level_num INFO <= level_num ERROR.
Proof. by vm_compute. Qed.
