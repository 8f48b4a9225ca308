(** Routes as users write them and the requests they match.  Only the
    enumeration of methods and the registration calls are taken from the model. *)
From Coq Require Import NArith String Ascii.
From stdpp Require Import numbers list gmap.
From Verif Require Import HttpModel.

(** A pattern: a literal part followed by parameters, written "/lit/{a}/{b}". *)
Record pattern := Pattern { literal : list N; names : list (list N) }.
Definition pattern_text (p : pattern) : list N :=
  literal p ++ concat (map (fun n => [47; 123]%N ++ n ++ [125]%N) (names p)).
Definition no_zero (s : list N) : Prop := 0%N ∉ s.
(** The literal part starts with a slash and has no brace; it may be left out in front of
    parameters. *)
Definition good_pattern (p : pattern) : Prop :=
  no_zero (literal p) /\ 123%N ∉ literal p /\
  ((exists l, literal p = 47%N :: l) \/ (literal p = [] /\ names p <> [])) /\
  Forall (fun n => no_zero n /\ 125%N ∉ n) (names p).

(** The path has the literal part, then one slash and value for each parameter, then
    perhaps a query. *)
Definition matches (p : pattern) (path : list N) (values : list (list N)) : Prop :=
  length values = length (names p) /\
  Forall (fun v => 47%N ∉ v /\ 63%N ∉ v) values /\
  exists query, (query = [] \/ exists q, query = 63%N :: q) /\
    path = literal p ++ concat (map (fun v => 47%N :: v) values) ++ query.
(** The parameters a handler sees: each name has the value at its (last) place. *)
Definition bound (ns : list (list N)) (values : list (list N)) : gmap (list N) (list N) :=
  list_to_map (reverse (zip ns values)).

Definition is_prefix (k s : list N) : Prop := exists t, s = k ++ t.

(** Names of methods. *)
Definition case_equal (a b : list N) : Prop :=
  Forall2 (fun x y => x = y \/ (97 <= x <= 122 /\ y = x - 32) \/ (97 <= y <= 122 /\ x = y - 32))%N a b.

(** A route as registered: its pattern, the methods added to GET, whether it takes
    everything below its literal part, and its handler. *)
Record entry := Entry { e_pattern : pattern; e_methods : list method; e_static : bool; e_handler : nat }.
Definition reg_of (e : entry) : registration :=
  Reg (pattern_text (e_pattern e)) (e_methods e) (e_static e) (e_handler e).
(** The route with the longest literal part in front of the path. *)
Definition selected (es : list entry) (path : list N) (e : entry) : Prop :=
  e ∈ es /\ literal (e_pattern e) <> [] /\ is_prefix (literal (e_pattern e)) path /\
  forall e', e' ∈ es -> is_prefix (literal (e_pattern e')) path ->
    length (literal (e_pattern e')) <= length (literal (e_pattern e)).
(** The call a route gets for a request: the values of its parameters, or (static) what is
    behind its literal part. *)
Definition called (e : entry) (m : method) (path : list N) (b : gmap text text) (u : option text) : Prop :=
  (m = Get \/ m ∈ e_methods e) /\
  if e_static e then b = ∅ /\ exists rest, u = Some rest /\ path = literal (e_pattern e) ++ rest
  else u = None /\ exists values, matches (e_pattern e) path values /\ b = bound (names (e_pattern e)) values.
