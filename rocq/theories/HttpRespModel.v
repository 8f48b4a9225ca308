(** Model of how src/cxy/stdlib/http.cxy writes a response: the response object and
    Connection.sendResponse, over the buffered stream of OutStreamModel.v (capacity 1024,
    runtime/builtins.cxy:999).  Sending a file delivers its bytes (see C19 for the transfer
    itself).  The stream is synced by its destructor when sendResponse returns
    (builtins.cxy:1031-1037). *)
From Coq Require Import ZArith String Ascii.
From stdpp Require Import numbers list.
From Verif Require Import OutStreamModel HttpModel.
Local Open Scope nat_scope.

(** http.cxy:127-212 with the values of 50-91. *)
Definition status_table : list (N * string) :=
  [
   (100%N, "HTTP/1.1 100 Continue"%string);
   (101%N, "HTTP/1.1 101 Switching Protocols"%string);
   (200%N, "HTTP/1.1 200 OK"%string);
   (201%N, "HTTP/1.1 201 Created"%string);
   (202%N, "HTTP/1.1 202 Accepted"%string);
   (203%N, "HTTP/1.1 203 Non-Authoritative Information"%string);
   (204%N, "HTTP/1.1 204 No Content"%string);
   (205%N, "HTTP/1.1 205 Reset Content"%string);
   (206%N, "HTTP/1.1 206 Partial Content"%string);
   (300%N, "HTTP/1.1 300 Multiple Choices"%string);
   (301%N, "HTTP/1.1 301 Moved Permanently"%string);
   (302%N, "HTTP/1.1 302 Found"%string);
   (303%N, "HTTP/1.1 303 See Other"%string);
   (304%N, "HTTP/1.1 304 Not Modified"%string);
   (305%N, "HTTP/1.1 305 Use Proxy"%string);
   (307%N, "HTTP/1.1 307 Temporary Redirect"%string);
   (400%N, "HTTP/1.1 400 Bad Request"%string);
   (401%N, "HTTP/1.1 401 Unauthorized"%string);
   (402%N, "HTTP/1.1 402 Payment Required"%string);
   (403%N, "HTTP/1.1 403 Forbidden"%string);
   (404%N, "HTTP/1.1 404 Not Found"%string);
   (405%N, "HTTP/1.1 405 Method Not Allowed"%string);
   (406%N, "HTTP/1.1 406 Not Acceptable"%string);
   (407%N, "HTTP/1.1 407 Proxy Authentication Required"%string);
   (408%N, "HTTP/1.1 408 Request Time-out"%string);
   (409%N, "HTTP/1.1 409 Conflict"%string);
   (410%N, "HTTP/1.1 410 Gone"%string);
   (411%N, "HTTP/1.1 411 Length Required"%string);
   (412%N, "HTTP/1.1 412 Precondition Failed"%string);
   (413%N, "HTTP/1.1 413 Request Entity Too Large"%string);
   (414%N, "HTTP/1.1 414 Request-URI Too Large"%string);
   (415%N, "HTTP/1.1 415 Unsupported Media Type"%string);
   (416%N, "HTTP/1.1 416 Requested range not satisfiable"%string);
   (417%N, "HTTP/1.1 417 Expectation Failed"%string);
   (500%N, "HTTP/1.1 500 Internal Server Error"%string);
   (501%N, "HTTP/1.1 501 Not Implemented"%string);
   (502%N, "HTTP/1.1 502 Bad Gateway"%string);
   (503%N, "HTTP/1.1 503 Service Unavailable"%string);
   (504%N, "HTTP/1.1 504 Gateway Time-out"%string);
   (505%N, "HTTP/1.1 505 HTTP Version not supported"%string)
  ].
Definition statusText (status : N) : text :=
  match List.find (fun e => (fst e =? status)%N) status_table with
  | Some (_, t) => codes t
  | None => codes "HTTP/1.1 500  "
  end.

(** http.cxy:277: a text, or [count] bytes of a file from [offset] on. *)
Inductive chunk := CText (t : text) | CFile (content : text) (offset count : nat).
(** http.cxy:279-284; the headers are listed in the order in which the map is traversed. *)
Record response := Response {
  p_status : N; p_headers : list (text * text); p_chunks : option (list chunk); p_body : option text
}.
(** http.cxy:348-364 *)
Definition chunk_size (c : chunk) : nat := match c with CText t => length t | CFile _ _ n => n end.
Definition p_size (r : response) : nat :=
  match p_body r, p_chunks r with
  | Some b, _ => length b
  | None, Some cs => foldl (fun sz c => sz + chunk_size c) 0 cs
  | None, None => 0
  end.
(** http.cxy:368 *)
Definition p_empty (r : response) : bool :=
  match p_body r with None => true | Some b => Nat.eqb (length b) 0 end &&
  match p_chunks r with None => true | Some cs => Nat.eqb (length cs) 0 end.
(** http.cxy:291-298 followed by [<<]; [None]: the assertion fails. *)
Definition append_body (r : response) (t : text) : option response :=
  match p_body r with
  | Some b => Some (Response (p_status r) (p_headers r) (p_chunks r) (Some (b ++ t)))
  | None => match p_chunks r with
            | Some _ => None
            | None => Some (Response (p_status r) (p_headers r) (p_chunks r) (Some t))
            end
  end.
(** http.cxy:305-310 *)
Definition add_chunk (r : response) (c : chunk) : option response :=
  match p_body r with
  | Some _ => None
  | None => Some (Response (p_status r) (p_headers r)
                    (Some (match p_chunks r with Some cs => cs ++ [c] | None => [c] end)) None)
  end.
(** http.cxy:381, a lookup in a HashMap compared with EqualsCase *)
Definition header (r : response) (name : text) : option text :=
  option_map snd (List.find (fun h => equalsCase (fst h) name) (p_headers r)).

(** The calls on the stream: [<<] of a text, and sendFile (net.cxy:556-560), which syncs and
    then writes to the socket. *)
Inductive wop := WAppend (d : text) | WFile (d : text).
Definition w_step (s : ostream) (o : wop) : ostream :=
  match o with WAppend d => o_append s d | WFile d => flush (sync s) d end.
(** http.cxy:322-343 *)
Definition chunk_op (c : chunk) : wop :=
  match c with CText t => WAppend t | CFile content off n => WFile (take n (drop off content)) end.
Definition stream (r : response) : list wop :=
  match p_body r, p_chunks r with
  | Some b, _ => [WAppend b]
  | None, Some cs => map chunk_op cs
  | None, None => []
  end.

(** http.cxy:797-803; the times are signed and unsigned 64-bit numbers. *)
Record config := Config { f_name : text; f_hsts : Z; f_keepAlive : Z }.
Definition crlf : text := [13; 10]%N.
(** http.cxy:940-981.  [date] is the text of the current time. *)
Definition sendResponse (f : config) (date : text) (r : response) : option (list wop) :=
  let line0 := statusText (p_status r) in
  let r' := if negb (p_status r =? 200)%N && p_empty r then append_body r (drop 9 line0) else Some r in
  match r' with
  | None => None
  | Some r =>
    let close := match header r (codes "Connection") with
                 | Some v => bool_decide (v = codes "Close")
                 | None => false
                 end in
    Some (
      [WAppend line0; WAppend crlf] ++
      (if negb close && (0 <? f_keepAlive f)%Z then
         [WAppend (codes "Connection: Keep-Alive" ++ crlf);
          WAppend (codes "Keep-Alive: "); WAppend (print_integer (f_keepAlive f)); WAppend crlf] else []) ++
      (if (0 <? f_hsts f)%Z then
         [WAppend (codes "Strict-Transport-Security: max-age="); WAppend (print_integer (f_hsts f));
          WAppend (codes "; includeSubdomains" ++ crlf)] else []) ++
      concat (map (fun h => [WAppend (fst h); WAppend (codes ": "); WAppend (snd h); WAppend crlf]) (p_headers r)) ++
      (match header r (codes "Server") with
       | None => [WAppend (codes "Server: "); WAppend (f_name f); WAppend crlf] | Some _ => [] end) ++
      (match header r (codes "Date") with
       | None => [WAppend (codes "Date: "); WAppend date; WAppend crlf] | Some _ => [] end) ++
      (match header r (codes "Content-Length") with
       | None => [WAppend (codes "Content-Length: "); WAppend (print_integer (Z.of_nat (p_size r))); WAppend crlf]
       | Some _ => [] end) ++
      [WAppend crlf] ++ stream r)
  end.
(** What the peer receives. *)
Definition delivered (ops : list wop) : text := o_out (sync (foldl w_step (o_new 1024) ops)).
