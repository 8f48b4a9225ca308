(** Model of the request routing of src/cxy/stdlib/http.cxy: method names, registration of
    routes, lookup of the route for a request, binding of path arguments.  Texts are lists
    of bytes without the terminating NUL; [Oob] is a read behind the NUL, [Abort] a failed
    assert!, [Stuck] exhausted fuel.  Assertions are on (the default) unless a definition takes them as argument
    (runtime/builtins.cxy:51-56, DISABLE_ASSERT). *)
From Coq Require Import NArith String Ascii.
From stdpp Require Import numbers list gmap.
From Verif Require Import TrieModel.

Definition text := list N.
Definition codes (s : string) : text := map N_of_ascii (list_ascii_of_string s).
Inductive out (A : Type) : Type := Ok (a : A) | Abort | Oob | Stuck.
Arguments Ok {A} a. Arguments Abort {A}. Arguments Oob {A}. Arguments Stuck {A}.

(** The bytes the code compares with. *)
Definition c_space : N := 32.
Definition c_slash : N := 47.
Definition c_query : N := 63.
Definition c_open : N := 123.
Definition c_close : N := 125.

(** http.cxy:30-48 *)
Inductive method := Delete | Get | Head | Post | Put | Connect | Options | Trace | Unknown.
(** The value of an option: options without value count from 0. *)
Definition method_value (m : method) : N :=
  match m with
  | Delete => 0 | Get => 1 | Head => 2 | Post => 3 | Put => 4 | Connect => 5 | Options => 6
  | Trace => 7 | Unknown => 8
  end.
(** http.cxy:214-235 *)
Definition methodName (m : method) : text :=
  match m with
  | Delete => codes "DELETE" | Get => codes "GET" | Head => codes "HEAD" | Post => codes "POST"
  | Put => codes "PUT" | Connect => codes "CONNECT" | Options => codes "OPTIONS"
  | Trace => codes "TRACE" | Unknown => codes "Invalid"
  end.
(** toupper of the C library in the C locale, and strncasecmp over [n] bytes of texts
    without NUL (equal or not). *)
Definition upper (c : N) : N := if ((97 <=? c) && (c <=? 122))%N then (c - 32)%N else c.
Definition equalsCase (a b : text) : bool :=
  Nat.eqb (length a) (length b) && bool_decide (map upper a = map upper b).
(** The byte at an index of a NUL-terminated text, 0 at its end. *)
Definition at_text (s : text) (i : nat) : N := nth i s 0%N.

(** http.cxy:96-125.  Reading index 1 of a text of one byte reads the NUL. *)
Definition methodFromString (s : text) : method * nat :=
  let x := upper (at_text s 0) in
  let maybe :=
    if (x =? 68)%N then Some (Delete, codes "DELETE")
    else if (x =? 71)%N then Some (Get, codes "GET")
    else if (x =? 72)%N then Some (Head, codes "HEAD")
    else if (x =? 80)%N then
      if (upper (at_text s 1) =? 79)%N then Some (Post, codes "POST") else Some (Put, codes "PUT")
    else if (x =? 67)%N then Some (Connect, codes "CONNECT")
    else if (x =? 79)%N then Some (Options, codes "OPTIONS")
    else if (x =? 84)%N then Some (Trace, codes "TRACE")
    else None in
  match maybe with
  | None => (Unknown, 0)
  | Some (m, str) =>
    if length s <? length str then (Unknown, 0)
    else if equalsCase (take (length str) s) str then (m, length str)
    else (Unknown, 0)
  end.

(** http.cxy:609-621; the handler is a number, the closures themselves are opaque. *)
Record route := Route {
  r_methods : N;          (* bit set of method values *)
  r_prefix : text;
  r_params : list text;
  r_static : bool;
  r_handler : nat
}.
(** http.cxy:628-633 and 635-639 with isStatic *)
Definition allow (r : route) (ms : list method) : route :=
  Route (foldl (fun b m => N.lor b (N.shiftl 1 (method_value m))) (r_methods r) ms)
        (r_prefix r) (r_params r) (r_static r) (r_handler r).
Definition set_static (r : route) (b : bool) : route :=
  Route (r_methods r) (r_prefix r) (r_params r) b (r_handler r).
(** http.cxy:648 *)
Definition isMethodSupported (r : route) (m : method) : bool :=
  negb (N.land (r_methods r) (N.shiftl 1 (method_value m)) =? 0)%N.

(** The loops [while (path.[i] != NUL && !stop(path.[i])) i++]: what is passed and what is
    left. *)
Fixpoint scan (stop : N -> bool) (s : text) : text * text :=
  match s with
  | [] => ([], [])
  | c :: s => if stop c then ([], c :: s) else let '(a, b) := scan stop s in (c :: a, b)
  end.

(** http.cxy:757-770 on the text from [idx] on.  [asserts]: whether assert! is compiled in;
    without it the increment inside it (line 761) does not happen either.  The fuel is the
    length of the text; each round consumes at least two bytes. *)
Fixpoint parseParams (asserts : bool) (fuel : nat) (s : text) : out (list text) :=
  match fuel with
  | O => Stuck
  | S fuel =>
    match s with
    | c :: s =>
      if (c =? c_slash)%N then
        let enter :=
          if asserts then match s with
                          | d :: s => if (d =? c_open)%N then Ok s else Abort
                          | [] => Abort
                          end
          else Ok s in
        match enter with
        | Ok s =>
          match scan (fun c => c =? c_close)%N s with
          | (name, _ :: rest) =>
            match parseParams asserts fuel rest with Ok ps => Ok (name :: ps) | r => r end
          | (name, []) => if asserts then Abort else Oob
          end
        | _ => Abort
        end
      else Ok []
    | [] => Ok []
    end
  end.

(** http.cxy:662-677 without the trie: the key under which the route is entered (the first
    [i] bytes of the whole text, line 675) and the route. *)
Definition make_route (methods : N) (path : text) (idx : nat) (fn : nat) : out (text * route) :=
  if (at_text path idx =? c_slash)%N then
    let '(pre, rest) := scan (fun c => c =? c_open)%N (drop idx path) in
    let i := match rest with [] => idx + length pre | _ => idx + length pre - 1 end in
    match parseParams true (S (length path)) (drop i path) with
    | Ok ps => Ok (take i path, Route methods (drop idx (take i path)) ps false fn)
    | Abort => Abort
    | Oob => Oob
    | Stuck => Stuck
    end
  else Abort.
(** The blanks behind a method name, http.cxy:687-688. *)
Fixpoint blanks (s : text) : nat :=
  match s with c :: s => if (c =? c_space)%N then S (blanks s) else O | [] => O end.
(** http.cxy:679-692 *)
Definition parse_route (path : text) (fn : nat) : out (text * route) :=
  if (at_text path 0 =? c_slash)%N then make_route (N.shiftl 1 (method_value Get)) path 0 fn
  else
    match methodFromString path with
    | (Unknown, _) => Abort
    | (m, idx) => make_route (N.shiftl 1 (method_value m)) path (idx + blanks (drop idx path)) fn
    end.

(** server(text, handler)(methods).setAttrs(...): http.cxy:1124-1126.  The trie holds the
    route object itself, so what is set on it afterwards is seen by every request. *)
Record registration := Reg {
  g_text : text; g_methods : list method; g_static : bool; g_handler : nat
}.
Definition router := node route.
Definition register (t : router) (g : registration) : out router :=
  match parse_route (g_text g) (g_handler g) with
  | Ok (key, r) =>
    match TrieModel.add t key (set_static (allow r (g_methods g)) (g_static g)) with
    | Some t => Ok t
    | None => Abort
    end
  | Abort => Abort
  | Oob => Oob
  | Stuck => Stuck
  end.
Fixpoint register_all (t : router) (gs : list registration) : out router :=
  match gs with
  | [] => Ok t
  | g :: gs => match register t g with Ok t => register_all t gs | r => r end
  end.

(** http.cxy:772-794: the request's parameters, or [None] for a bad request.  The map of
    parameters (a HashMap, hash.cxy) is a finite map. *)
Definition arg_end (c : N) : bool := (c =? c_slash)%N || (c =? c_query)%N.
Fixpoint parseRouteArgs (params : list text) (p : text) (req : gmap text text) : option (gmap text text) :=
  match params with
  | [] => match p with
          | [] => Some req
          | c :: _ => if (c =? c_query)%N then Some req else None
          end
  | n :: params =>
    match p with
    | c :: p => if (c =? c_slash)%N then
                  let '(value, rest) := scan arg_end p in parseRouteArgs params rest (<[n := value]> req)
                else None
    | [] => None
    end
  end.

(** What becomes of a request: the handler is called with the parameters and the uri, or an
    error status is sent. *)
Inductive answer := Call (handler : nat) (params : gmap text text) (uri : option text) | Status (code : N).
(** http.cxy:722-755 *)
Definition find_route (t : router) (m : method) (path : text) : answer :=
  match find_prefix t path with
  | None => Status 404
  | Some (consumed, r) =>
    if isMethodSupported r m then
      let args := drop consumed path in
      if r_static r then Call (r_handler r) ∅ (Some args)
      else match parseRouteArgs (r_params r) args ∅ with
           | Some b => Call (r_handler r) b None
           | None => Status 400
           end
    else Status 404
  end.
(** http.cxy:858-878 without middlewares: the status set by [find] is replaced. *)
Definition handleConnection (t : router) (m : method) (path : text) : answer :=
  match find_route t m path with
  | Status _ => Status 404
  | a => a
  end.
