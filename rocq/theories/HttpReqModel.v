(** Model of how src/cxy/stdlib/http.cxy collects a request from the callbacks of the HTTP
    parser (llhttp, not modelled: it delivers each part of a message in one or more
    fragments, an empty header value as one empty fragment).  [None]: a failed assert!. *)
From Coq Require Import NArith.
From stdpp Require Import numbers list.
From Verif Require Import HttpModel.

(** http.cxy:398-411, the fields set by the callbacks; [None] is null. *)
Record request := Request {
  q_path : option text; q_headers : list (text * text); q_s1 : option text; q_s2 : option text;
  q_body : option text; q_complete : bool
}.
Definition new_request : request := Request None [] None None None false.
(** http.cxy:237 and [_headers.[k] = v]: a HashMap compared with EqualsCase; an entry with
    an equal key is replaced, key and value (hash.cxy:106-110). *)
Fixpoint put_header (hs : list (text * text)) (k v : text) : list (text * text) :=
  match hs with
  | [] => [(k, v)]
  | (k', v') :: hs => if equalsCase k' k then (k, v) :: hs else (k', v') :: put_header hs k v
  end.
(** http.cxy:472 *)
Definition q_header (q : request) (name : text) : option text :=
  option_map snd (List.find (fun h => equalsCase (fst h) name) (q_headers q)).

Inductive event :=
  | EBegin | EUrl (d : text) | EField (d : text) | EValue (d : text) | EHeaders | EBody (d : text) | EComplete.
Definition add_to (o : option text) (d : text) : option text :=
  match o with None => Some d | Some t => Some (t ++ d) end.
(** [_headers.[&&_s1] = &&_s2]; a null value is stored as the empty text here *)
Definition store (q : request) (s1 : text) : request :=
  Request (q_path q) (put_header (q_headers q) s1 (default [] (q_s2 q))) None None (q_body q) (q_complete q).
(** http.cxy:518-591; the parser reset in [clear] (502-503) is not modelled. *)
Definition step (q : request) (e : event) : option request :=
  match e with
  | EBegin => Some new_request
  | EUrl d => Some (Request (add_to (q_path q) d) (q_headers q) (q_s1 q) (q_s2 q) (q_body q) (q_complete q))
  | EField d =>
    let q1 := match q_s2 q with
              | Some _ => match q_s1 q with Some s1 => Some (store q s1) | None => None end
              | None => Some q
              end in
    match q1 with
    | Some q => Some (Request (q_path q) (q_headers q) (add_to (q_s1 q) d) (q_s2 q) (q_body q) (q_complete q))
    | None => None
    end
  | EValue d =>
    match q_s1 q with
    | None => None
    | Some _ => Some (Request (q_path q) (q_headers q) (q_s1 q) (add_to (q_s2 q) d) (q_body q) (q_complete q))
    end
  | EHeaders => match q_s1 q with Some s1 => Some (store q s1) | None => Some q end
  | EBody d => Some (Request (q_path q) (q_headers q) (q_s1 q) (q_s2 q) (add_to (q_body q) d) (q_complete q))
  | EComplete => Some (Request (q_path q) (q_headers q) (q_s1 q) (q_s2 q) (q_body q) true)
  end.
Fixpoint feed (q : request) (es : list event) : option request :=
  match es with [] => Some q | e :: es => match step q e with Some q => feed q es | None => None end end.
(** http.cxy:848-856, 920-938: each read hands the parser everything the socket has, up to
    8192 bytes; a list of events is what one read produces.  The result is the list of
    requests that get answered; it ends at a failed assert! as well.  Errors of the socket
    and of the parser are not modelled. *)
Fixpoint serve (q : request) (reads : list (list event)) : list request :=
  match reads with
  | [] => []
  | es :: reads =>
    match feed q es with
    | None => []
    | Some q => if q_complete q then q :: serve new_request reads else serve q reads
    end
  end.
