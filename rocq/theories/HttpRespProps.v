(** C80: HTTP responses are well-formed messages. *)
From Coq Require Import ZArith String Ascii.
From stdpp Require Import numbers list.
From Verif Require Import FormatSpec OutStreamModel OutStreamSpec HttpModel HttpRespModel HttpRespSpec HttpRespProofs.

(** The response is a status line, header fields, an empty line and the content: the payload
    of the handler, or the reason of an error without one.  The fields hold all the handler
    set and a Content-Length with the number of bytes that follow.  Missing: responses during
    whose output the buffer of the stream gets exactly full. *)
Theorem C80_message_partial f date r ops : sendResponse f date r = Some ops -> no_fill ops -> files_ok r ->
  exists fs content, delivered ops = message (statusText (p_status r)) fs content /\ carries r content /\
    (forall h, h ∈ p_headers r -> h ∈ fs) /\
    (header r (codes "Content-Length") = None -> (Z.of_nat (List.length content) < 2 ^ 63)%Z ->
       exists t, (codes "Content-Length", t) ∈ fs /\ is_decimal (N.of_nat (List.length content)) t).
Proof. exact (message_ok f date r ops). Qed.
Print Assumptions C80_message_partial.

(** A response is always sent, unless its list of chunks is there and empty. *)
Theorem C80_sent f date r : p_chunks r <> Some [] -> exists ops, sendResponse f date r = Some ops.
Proof. exact (no_abort f date r). Qed.
Print Assumptions C80_sent.

(** Whenever headers and body fill the buffer exactly, the body is sent before the status
    line. *)
Theorem C80_exact_fill f date r b : p_body r = Some b -> b <> [] ->
  let head := statusText (p_status r) ++ [13; 10]%N ++ concat (map field_text (fields f date r)) ++ [13; 10]%N in
  List.length head + List.length b = 1024 ->
  exists ops, sendResponse f date r = Some ops /\ delivered ops = b ++ head.
Proof. exact (overtaken f date r b). Qed.
Print Assumptions C80_exact_fill.
Definition plain : config := Config (codes "cxy") 0 0.
Theorem C80_order_refuted : exists n ops rest,
  sendResponse plain (codes "now") (Response 200 [] None (Some (repeat 97%N n))) = Some ops /\
  delivered ops = repeat 97%N n ++ codes "HTTP/1.1 200 OK" ++ rest /\ 900 < n.
Proof. exists 960. eexists _, _. split; [vm_compute; reflexivity|]. split; [vm_compute; reflexivity|lia]. Qed.
Print Assumptions C80_order_refuted.

(** The value of Connection is compared with "Close" including case: with "close" the
    response says both. *)
Theorem C80_connection_refuted : exists ops rest,
  sendResponse (Config (codes "cxy") 0 5) (codes "now") (Response 200 [(codes "Connection", codes "close")] None (Some [97%N])) = Some ops /\
  delivered ops = codes "HTTP/1.1 200 OK" ++ [13; 10]%N ++ codes "Connection: Keep-Alive" ++ [13; 10]%N ++
    codes "Keep-Alive: 5" ++ [13; 10]%N ++ codes "Connection: close" ++ [13; 10]%N ++ rest.
Proof. eexists _, _. split; vm_compute; reflexivity. Qed.
Print Assumptions C80_connection_refuted.

(** Each status line has the code it stands for: three digits after "HTTP/1.1 " and then a
    blank and a reason. *)
Theorem C80_status : Forall (fun e => exists a b c reason,
  codes (snd e) = codes "HTTP/1.1 " ++ [48 + a; 48 + b; 48 + c; 32]%N ++ reason /\ reason <> [] /\
  fst e = (100 * a + 10 * b + c)%N /\ (a < 10 /\ b < 10 /\ c < 10)%N) status_table.
Proof.
  apply Forall_forall. intros e He.
  assert (X : forallb (fun e => let l := codes (snd e) in
     let a := (nth 9 l 0 - 48)%N in let b := (nth 10 l 0 - 48)%N in let c := (nth 11 l 0 - 48)%N in
     bool_decide (l = codes "HTTP/1.1 " ++ [48 + a; 48 + b; 48 + c; 32]%N ++ drop 13 l) && bool_decide (drop 13 l <> []) &&
     bool_decide (fst e = (100 * a + 10 * b + c)%N) && bool_decide (a < 10)%N && bool_decide (b < 10)%N && bool_decide (c < 10)%N)
     status_table = true) by by vm_compute.
  rewrite forallb_forall in X. apply elem_of_list_In in He. specialize (X _ He). cbv zeta in X.
  rewrite !andb_true_iff, !bool_decide_eq_true in X. destruct X as (((((X1 & X2) & X3) & X4) & X5) & X6).
  eexists _, _, _, _. split; [exact X1|]. done.
Qed.
Print Assumptions C80_status.

Example C80_message_example : exists ops,
  sendResponse plain (codes "now") (Response 404 [] None None) = Some ops /\
  delivered ops = message (codes "HTTP/1.1 404 Not Found")
    [(codes "Server", codes "cxy"); (codes "Date", codes "now"); (codes "Content-Length", codes "13")] (codes "404 Not Found").
Proof. eexists. split; vm_compute; reflexivity. Qed.
Example C80_file_example : exists ops,
  sendResponse plain (codes "now") (Response 200 [(codes "Server", codes "me")] (Some [CText (codes "ab"); CFile (codes "012345") 2 3]) None) = Some ops /\
  delivered ops = message (codes "HTTP/1.1 200 OK")
    [(codes "Server", codes "me"); (codes "Date", codes "now"); (codes "Content-Length", codes "5")] (codes "ab234").
Proof. eexists. split; vm_compute; reflexivity. Qed.
