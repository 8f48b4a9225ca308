(** C07 and C08: base64. *)
From Coq Require Import NArith.
From stdpp Require Import numbers list.
From Verif Require Import Base64Model Base64Spec Base64Proofs.
Local Open Scope N_scope.

(** The encoder writes the RFC 4648 encoding of every byte string. *)
Theorem C07_encode (p : list N) : is_bytes p -> encodeBuffer p = base64 std_digit true p.
Proof. apply encode_ok. Qed.
Print Assumptions C07_encode.
(** It has 4*ceil(n/3) characters: digits, then at most two padding characters. *)
Theorem C07_encode_form (p : list N) : is_bytes p -> exists body pad, encodeBuffer p = body ++ pad /\
  Forall in_alphabet body /\ (pad = [] \/ pad = [61] \/ pad = [61; 61]) /\
  N.of_nat (length (body ++ pad)) = 4 * ((N.of_nat (length p) + 2) / 3).
Proof. intros Hp. rewrite encode_ok by done. by apply base64_form. Qed.
Print Assumptions C07_encode_form.
(** Decoding gives back exactly the non-empty ASCII byte strings.  Missing: the empty
    string and bytes from 128 on (see the refutations). *)
Theorem C07_round_trip_exact_partial (sgn : bool) (p : list N) : is_bytes p ->
  decodeBuffer sgn (encodeBuffer p) = DOk p <-> p <> [] /\ Forall (fun b => b < 128) p.
Proof. apply decode_exact. Qed.
Print Assumptions C07_round_trip_exact_partial.
(** A character outside the alphabet (other than =) is rejected as long as no padding
    comes before it. *)
Theorem C07_rejects_partial (sgn : bool) (pre : list N) (c : N) (post : list N) :
  Forall in_alphabet pre -> ~ in_alphabet c -> c <> 61 -> decodeBuffer sgn (pre ++ c :: post) = DErr.
Proof. apply decode_rejects. Qed.
Print Assumptions C07_rejects_partial.

(** The empty text makes the decoder read outside its input. *)
Theorem C07_empty_refuted : forall sgn, decodeBuffer sgn (encodeBuffer []) = DOob.
Proof. by intros []; vm_compute. Qed.
Print Assumptions C07_empty_refuted.
(** So does "AAA", a text of alphabet characters only. *)
Theorem C07_short_refuted : forall sgn, decodeBuffer sgn [65; 65; 65] = DOob.
Proof. by intros []; vm_compute. Qed.
Print Assumptions C07_short_refuted.
(** "AA=!" is accepted although it contains a character outside the alphabet. *)
Theorem C07_reject_refuted : ~ in_alphabet 33 /\ forall sgn, exists out, decodeBuffer sgn [65; 65; 61; 33] = DOk out.
Proof.
  split; [|by intros []; vm_compute; eexists].
  intros H. apply in_alphabet_look in H as [H _]. by vm_compute in H.
Qed.
Print Assumptions C07_reject_refuted.
(** The byte 200 is lost (signed char) or becomes two bytes. *)
Theorem C07_high_byte_refuted :
  decodeBuffer true (encodeBuffer [65; 200; 66]) = DOk [65; 66] /\
  decodeBuffer false (encodeBuffer [65; 200; 66]) = DOk [65; 195; 136; 66].
Proof. by vm_compute. Qed.
Print Assumptions C07_high_byte_refuted.

(** The URL encoder writes the RFC 4648 encoding for inputs of two bytes only, *)
Theorem C08_encode_exact_partial (p : list N) : is_bytes p ->
  (exists t, urlEncodeBuffer p = DOk t /\ t = base64 url_digit false p) <-> length p = 2%nat.
Proof. apply url_exact. Qed.
Print Assumptions C08_encode_exact_partial.
(** decoding gives back two ASCII bytes only, *)
Theorem C08_round_trip_exact_partial (sgn : bool) (p : list N) : is_bytes p ->
  (exists t, urlEncodeBuffer p = DOk t /\ urlDecodeBuffer sgn t = DOk p)
  <-> length p = 2%nat /\ Forall (fun b => b < 128) p.
Proof. apply url_round_exact. Qed.
Print Assumptions C08_round_trip_exact_partial.
(** and the advertised size is right exactly for odd lengths. *)
Theorem C08_size_exact_partial (p t : list N) : urlEncodeBuffer p = DOk t ->
  urlEncodeSize (N.of_nat (length p)) = N.of_nat (length t) <-> Nat.even (length p) = false.
Proof.
  intros E. destruct p as [|a [|b p]]; [done|done|].
  assert (t = urlEncode_loop (a :: b :: p)) as -> by (change (DOk (urlEncode_loop (a :: b :: p)) = DOk t) in E; congruence).
  apply url_size_exact. cbn. lia.
Qed.
Print Assumptions C08_size_exact_partial.
(** Three bytes give six characters (four are right), decoding gives four bytes back. *)
Theorem C08_round_trip_refuted :
  urlEncodeBuffer [97; 98; 99] = DOk [89; 87; 74; 106; 89; 119] /\
  base64 url_digit false [97; 98; 99] = [89; 87; 74; 106] /\
  (forall sgn, urlDecodeBuffer sgn [89; 87; 74; 106; 89; 119] = DOk [97; 98; 99; 99]).
Proof. split; [|split]; [by vm_compute..|by intros []; vm_compute]. Qed.
Print Assumptions C08_round_trip_refuted.
(** Shorter inputs are read past the end. *)
Theorem C08_short_refuted : urlEncodeBuffer [] = DOob /\ urlEncodeBuffer [97] = DOob.
Proof. done. Qed.
Print Assumptions C08_short_refuted.
(** The size announced for two bytes is 4, three characters are written. *)
Theorem C08_size_refuted : urlEncodeSize 2 = 4 /\ urlEncodeBuffer [97; 98] = DOk [89; 87; 73].
Proof. by vm_compute. Qed.
Print Assumptions C08_size_refuted.
(** "----AAAA", valid URL base64, is rejected. *)
Theorem C08_alphabet_refuted : forall sgn,
  base64 url_digit false [251; 239; 190; 0; 0; 0] = [45; 45; 45; 45; 65; 65; 65; 65] /\
  urlDecodeBuffer sgn [45; 45; 45; 45; 65; 65; 65; 65] = DErr.
Proof. by intros []; vm_compute. Qed.
Print Assumptions C08_alphabet_refuted.

Example C07_ex : is_bytes [77; 97; 110; 33] /\ encodeBuffer [77; 97; 110; 33] = [84; 87; 70; 117; 73; 81; 61; 61] /\
  decodeBuffer true [84; 87; 70; 117; 73; 81; 61; 61] = DOk [77; 97; 110; 33].
Proof. split; [by repeat constructor|by vm_compute]. Qed.
Example C07_reject_ex : Forall in_alphabet [84; 87] /\ ~ in_alphabet 33.
Proof.
  split; [repeat constructor; [exists 19|exists 22]; by vm_compute|].
  intros H. apply in_alphabet_look in H as [H _]. by vm_compute in H.
Qed.
Example C08_ex : is_bytes [97; 98] /\ Forall (fun b => b < 128) [97; 98] /\ urlEncodeBuffer [97; 98] = DOk [89; 87; 73].
Proof. split; [by repeat constructor|split; [by repeat constructor|by vm_compute]]. Qed.
