(** HTTP messages. *)
From Coq Require Import ZArith String Ascii.
From stdpp Require Import numbers list.
From Verif Require Import OutStreamModel OutStreamSpec HttpModel HttpRespModel.

(** A start line, header fields, an empty line and the content. *)
Definition field_text (nv : list N * list N) : list N := nv.1 ++ [58; 32]%N ++ nv.2 ++ [13; 10]%N.
Definition message (line : list N) (fields : list (list N * list N)) (content : list N) : list N :=
  line ++ [13; 10]%N ++ concat (map field_text fields) ++ [13; 10]%N ++ content.

(** The bytes a handler gave: the body, or else the chunks one after the other. *)
Definition chunk_bytes (c : chunk) : list N :=
  match c with CText t => t | CFile content off n => take n (drop off content) end.
Definition payload (r : response) : list N :=
  match p_body r with
  | Some b => b
  | None => concat (map chunk_bytes (match p_chunks r with Some cs => cs | None => [] end))
  end.
Definition nothing_given (r : response) : Prop :=
  (p_body r = None \/ p_body r = Some []) /\ (p_chunks r = None \/ p_chunks r = Some []).
(** What the message has to carry: the payload, or the code and reason of the status line
    when an error response has none. *)
Definition carries (r : response) (content : list N) : Prop :=
  (p_status r <> 200%N /\ nothing_given r /\ exists v, statusText (p_status r) = v ++ content /\ length v = 9) \/
  (~ (p_status r <> 200%N /\ nothing_given r) /\ content = payload r).
(** Files are as long as the response says. *)
Definition files_ok (r : response) : Prop :=
  forall cs content off n, p_chunks r = Some cs -> CFile content off n ∈ cs -> off + n <= length content.

(** The header fields of a response whose size is known: those of the server and those the
    handler set. *)
Definition wants_close (r : response) : bool :=
  match header r (codes "Connection") with Some v => bool_decide (v = codes "Close") | None => false end.
Definition fields (f : config) (date : list N) (r : response) : list (list N * list N) :=
  (if negb (wants_close r) && (0 <? f_keepAlive f)%Z then
     [(codes "Connection", codes "Keep-Alive"); (codes "Keep-Alive", print_integer (f_keepAlive f))] else []) ++
  (if (0 <? f_hsts f)%Z then
     [(codes "Strict-Transport-Security", codes "max-age=" ++ print_integer (f_hsts f) ++ codes "; includeSubdomains")] else []) ++
  p_headers r ++
  (match header r (codes "Server") with None => [(codes "Server", f_name f)] | Some _ => [] end) ++
  (match header r (codes "Date") with None => [(codes "Date", date)] | Some _ => [] end) ++
  (match header r (codes "Content-Length") with
   | None => [(codes "Content-Length", print_integer (Z.of_nat (p_size r)))] | Some _ => [] end).

(** The buffer of the stream never gets exactly full. *)
Definition w_run (ops : list wop) : ostream := foldl w_step (o_new 1024) ops.
Definition wbytes (o : wop) : list N := match o with WAppend d => d | WFile d => d end.
Definition no_fill (ops : list wop) : Prop :=
  forall pre d post, ops = pre ++ WAppend d :: post -> ~ exact_fill (w_run pre) d.
