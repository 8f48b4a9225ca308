(** C81: a request is collected the same however it arrives in pieces. *)
From Coq Require Import NArith String Ascii.
From stdpp Require Import numbers list.
From Verif Require Import HttpModel HttpSpec HttpReqModel HttpReqSpec HttpReqProofs.

(** However the parts of a message are cut, the request holds its path, headers and body. *)
Theorem C81_collected m es q : delivers m es -> exists r, feed q es = Some r /\ holds m r.
Proof. exact (collected m es q). Qed.
Print Assumptions C81_collected.

(** Messages that arrive in reads of their own are all served, in order. *)
Theorem C81_served_partial ms rss : Forall2 reads_of ms rss -> Forall2 holds ms (serve new_request (concat rss)).
Proof. exact (served ms rss). Qed.
Print Assumptions C81_served_partial.

(** Two messages in one read: the first is lost, whatever the two are. *)
Theorem C81_pipelined_refuted m1 m2 es1 es2 : delivers m1 es1 -> delivers m2 es2 ->
  exists r, serve new_request [es1 ++ es2] = [r] /\ holds m2 r.
Proof.
  intros D1 D2. destruct (collected _ _ new_request D1) as (r1 & E1 & _). destruct (collected _ _ r1 D2) as (r2 & E2 & H2).
  exists r2. split; [|done]. cbn [serve]. rewrite feed_app, E1, E2. assert (q_complete r2 = true) as -> by apply H2. done.
Qed.
Print Assumptions C81_pipelined_refuted.

(** The last trailer of a chunked message is dropped. *)
Theorem C81_trailer_refuted : exists r,
  feed new_request [EBegin; EUrl (codes "/"); EHeaders; EBody (codes "x");
    EField (codes "a"); EValue (codes "1"); EField (codes "b"); EValue (codes "2"); EComplete] = Some r /\
  q_complete r = true /\ q_header r (codes "a") = Some (codes "1") /\ q_header r (codes "b") = None.
Proof. eexists. split; [vm_compute; reflexivity|]. repeat split; vm_compute; reflexivity. Qed.
Print Assumptions C81_trailer_refuted.

Example C81_collected_example : delivers (Msg (codes "/ab") [(codes "Host", codes "x"); (codes "E", [])] (codes "hi"))
  [EBegin; EUrl (codes "/a"); EUrl (codes "b"); EField (codes "Ho"); EField (codes "st"); EValue (codes "x");
   EField (codes "E"); EValue []; EHeaders; EBody (codes "h"); EBody (codes "i"); EComplete].
Proof.
  exists [EUrl (codes "/a"); EUrl (codes "b")],
    [EField (codes "Ho"); EField (codes "st"); EValue (codes "x"); EField (codes "E"); EValue []],
    [EBody (codes "h"); EBody (codes "i")].
  split; [by exists [codes "/a"; codes "b"]|]. split; [|split; [right; by exists [codes "h"; codes "i"]|done]].
  apply (CF_cons _ _ _ [EField (codes "Ho"); EField (codes "st")] [EValue (codes "x")] [EField (codes "E"); EValue []]).
  - by exists [codes "Ho"; codes "st"].
  - by exists [codes "x"].
  - apply (CF_cons _ _ _ [EField (codes "E")] [EValue []] []); [by exists [codes "E"]|by exists [[]]|constructor].
Qed.
Example C81_header_example : exists r,
  feed new_request [EBegin; EUrl (codes "/"); EField (codes "Host"); EValue (codes "a"); EField (codes "HOST"); EValue (codes "b"); EHeaders; EComplete] = Some r /\
  q_header r (codes "host") = Some (codes "b").
Proof. eexists. split; vm_compute; reflexivity. Qed.
