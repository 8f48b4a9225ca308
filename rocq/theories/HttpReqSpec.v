(** Messages and the ways the parser may cut them into fragments. *)
From Coq Require Import NArith.
From stdpp Require Import numbers list.
From Verif Require Import HttpModel HttpSpec HttpReqModel.

Record msg := Msg { m_url : list N; m_fields : list (list N * list N); m_body : list N }.
(** [cut mk t es]: the events [es] deliver [t] in one or more fragments. *)
Definition cut (mk : list N -> event) (t : list N) (es : list event) : Prop :=
  exists fs, fs <> [] /\ concat fs = t /\ es = map mk fs.
Inductive cut_fields : list (list N * list N) -> list event -> Prop :=
  | CF_nil : cut_fields [] []
  | CF_cons n v fs a b es : cut EField n a -> cut EValue v b -> cut_fields fs es ->
      cut_fields ((n, v) :: fs) (a ++ b ++ es).
(** A body is delivered in any number of fragments, none for an empty one. *)
Definition delivers (m : msg) (es : list event) : Prop :=
  exists u h b, cut EUrl (m_url m) u /\ cut_fields (m_fields m) h /\
    (m_body m = [] /\ b = [] \/ cut EBody (m_body m) b) /\
    es = EBegin :: u ++ h ++ EHeaders :: b ++ [EComplete].
(** The value of a header: that of the last field whose name is the same up to case. *)
Definition last_value (fs : list (list N * list N)) (name : list N) (r : option (list N)) : Prop :=
  match r with
  | Some v => exists pre n post, fs = pre ++ (n, v) :: post /\ case_equal n name /\
       forall n' v', (n', v') ∈ post -> ~ case_equal n' name
  | None => forall n' v', (n', v') ∈ fs -> ~ case_equal n' name
  end.
(** A request that holds a message. *)
Definition holds (m : msg) (q : request) : Prop :=
  q_complete q = true /\ q_path q = Some (m_url m) /\ default [] (q_body q) = m_body m /\
  forall name, last_value (m_fields m) name (q_header q name).
(** Reads that deliver one message: it ends with the last of them. *)
Definition reads_of (m : msg) (reads : list (list event)) : Prop :=
  exists first last, reads = first ++ [last] /\ last <> [] /\ delivers m (concat reads).
