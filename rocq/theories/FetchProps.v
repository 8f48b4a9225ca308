(** C09, C10 and C64: the encoders of the HTTP client. *)
From Coq Require Import NArith.
From stdpp Require Import numbers list.
From Verif Require Import Base64Model Base64Spec FetchModel FetchSpec FetchProofs.
Local Open Scope N_scope.

(** The encoded text consists of unreserved characters and %XX triples and a decoder
    maps it to the original, and to nothing else. *)
Theorem C09_lossless (s : list N) : is_bytes s ->
  decodes (urlEncode s) s /\ forall s', decodes (urlEncode s) s' -> s' = s.
Proof.
  intros Hs. split; [by apply encode_decodes|]. intros s' D. eapply decodes_unique; [done|by apply encode_decodes].
Qed.
Print Assumptions C09_lossless.
(** The announced length of a multipart body is the number of bytes written. *)
Theorem C10_length (f : form) : multipartEncodeSize f = N.of_nat (length (multipartEncode f)).
Proof. apply multipart_size. Qed.
Print Assumptions C10_length.
(** A URL-encoded form is written iff all names and values have two bytes or more, *)
Theorem C64_written_exact_partial (f : form) : (exists out, formUrlEncode f = DOk out) <->
  Forall (fun it => (2 <= length (fst it))%nat /\ (2 <= length (snd it))%nat) (f_data f).
Proof. apply form_defined. Qed.
Print Assumptions C64_written_exact_partial.
(** and then the announced length is the number of bytes written iff all of them have odd
    length. *)
Theorem C64_length_exact_partial (f : form) (out : list N) : f_data f <> [] -> formUrlEncode f = DOk out ->
  urlEncodedSize f = N.of_nat (length out) <->
  Forall (fun it => Nat.even (length (fst it)) = false /\ Nat.even (length (snd it)) = false) (f_data f).
Proof. apply form_exact. Qed.
Print Assumptions C64_length_exact_partial.
(** The form with the one field id = 42 announces 9 bytes and writes 7. *)
Theorem C64_length_refuted : let f := mkF [] [([105; 100], [52; 50])] [] in
  urlEncodedSize f = 9 /\ exists out, formUrlEncode f = DOk out /\ length out = 7%nat.
Proof. split; [by vm_compute|]. vm_compute. by eexists. Qed.
Print Assumptions C64_length_refuted.
(** A one-character value is read past its end. *)
Theorem C64_short_refuted : formUrlEncode (mkF [] [([105; 100], [52])] []) = DOob.
Proof. by vm_compute. Qed.
Print Assumptions C64_short_refuted.

Example C09_ex : is_bytes [97; 32; 200] /\ urlEncode [97; 32; 200] = [97; 37; 50; 48; 37; 99; 56].
Proof. split; [by repeat constructor|by vm_compute]. Qed.
Example C10_ex : let f := mkF [88; 89] [([97], [98; 99])] [mkU [117] [102; 46; 116] [116; 47; 120] [1; 2; 3; 4]] in
  multipartEncodeSize f = N.of_nat (length (multipartEncode f)) /\ 100 < multipartEncodeSize f.
Proof. by vm_compute. Qed.
Example C64_ex : let f := mkF [] [([97; 98; 99], [49; 50; 51]); ([120; 121; 122], [49; 50; 51; 52; 53])] [] in
  urlEncodedSize f = 31 /\ exists out, formUrlEncode f = DOk out /\ length out = 31%nat.
Proof. split; [by vm_compute|]. vm_compute. by eexists. Qed.
