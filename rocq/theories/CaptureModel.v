(** Model of closure captures: the capture set of a closure
    (src/cxy/lang/frontend/capture.c) and the part of the binder that fills it
    (src/cxy/lang/middle/bind/resolve.c).

    Simplifications: names are numbers (the table compares and hashes the
    characters, so equal names are equal keys; the hash is a parameter).  The
    binder's environment is a list of frames, innermost first: C51 shows that
    env.c behaves as one.  The language is cut down to what matters for
    captures: uses of a name, variable declarations, statements in sequence,
    scopes (block, if, while, for, switch), a case of a match statement with a
    variable, closures.  An error that the compiler reports (undefined name,
    name defined twice in a scope) ends the run with [None]; the binder goes on,
    but compilation fails.  Struct fields, this and super, default values of
    closure parameters, and compile-time variables are left out.  A symbol
    stands for its declaration node. *)
From stdpp Require Import list numbers.
From Verif Require Import HTableModel KTableModel.

(** A declaration: identity, name, the flag TopLevelDecl, and the node stored in
    its field parentScope (NULL unless the node was visited). *)
Record sym := Sym { s_id : N; s_name : N; s_top : bool; s_parent : option N }.

Section capture.
Context (hashs : N → N).

(** ClosureCapture, ast.h (table, index) and Capture, capture.h:13-18 (the
    fields node and id). *)
Record cset := CSet { c_table : option (ktable N (sym * N)); c_index : N }.
Definition cset_new : cset := CSet None 0.

(** capture.c:24-47, [addClosureCapture]; the answer is the id found. The
    caller dereferences it, so NULL counts as a failure. *)
Definition add_capture (set : cset) (node : sym) : tres (cset * N) :=
  let cap := (node, (c_index set mod 2 ^ 32)%N) in
  let table := match c_table set with Some t => t | None => kt_new end in
  tbind (kt_insert N.eqb hashs table (s_name node) cap) (λ r,
  let index := if snd r then ((c_index set + 1) mod 2 ^ 64)%N else c_index set in
  tbind (kt_find N.eqb hashs (fst r) (s_name node) cap) (λ f,
  match f with
  | Some (_, (node', id)) =>
    if (s_id node' =? s_id node)%N then TOk (CSet (Some (fst r)) index, id) else TAssert
  | None => TAssert
  end)).

(** capture.c:54-63, [populateOrderedCapture], on the array of captures, whose
    elements are uninitialised ([None]) at first. *)
Definition populate (count : N) (captures : list (option sym)) (elem : sym * N) : list (option sym) :=
  if (snd elem <? count)%N then <[N.to_nat (snd elem) := Some (fst elem)]> captures else captures.
(** capture.c:65-80, [getOrderedCapture], as called by resolve.c:598-604 with
    an array of [index] elements: the array and the count returned. *)
Definition get_ordered (set : cset) : list (option sym) * N :=
  let capture := repeat None (N.to_nat (c_index set)) in
  match c_table set with
  | Some t => (foldl (populate (c_index set)) capture (map snd (kt_enumerate t)), c_index set)
  | None => (capture, 0%N)
  end.

(** A sequence of calls of [addClosureCapture] and the ids answered. *)
Fixpoint add_all (set : cset) (nodes : list sym) : tres (cset * list N) :=
  match nodes with
  | [] => TOk (set, [])
  | n :: rest =>
    tbind (add_capture set n) (λ r,
    tbind (add_all (fst r) rest) (λ r', TOk (fst r', snd r :: snd r')))
  end.

(** The cut-down language. *)
Inductive term :=
  | TSkip
  | TUse (x : N)
  | TLet (x : N) (e : term)
  | TSeq (a b : term)
  | TScope (t : term)
  | TCase (x : N) (t : term)
  | TClosure (ps : list N) (t : term).

(** A scope: its node, the capture set if the node is a closure, and the names
    defined in it. *)
Record frame := Frame { f_node : N; f_set : option cset; f_names : list (N * sym) }.
(** BindContext (bind.h:16-37) with the counters that make nodes unique and what
    is produced: the capture arrays of the closures finished so far and, for
    every use, the symbol found and the closure whose field it resolves to. *)
Record bstate := BState {
  b_env : list frame; b_nsym : N; b_nscope : N; b_closure : option N;
  b_out : list (N * (list (option sym) * N)); b_uses : list (N * option N) }.

Fixpoint assoc (x : N) (l : list (N * sym)) : option sym :=
  match l with [] => None | (y, s) :: l' => if (y =? x)%N then Some s else assoc x l' end.
(** env.c, [findSymbol]: innermost scope first. *)
Fixpoint find_sym (env : list frame) (x : N) : option sym :=
  match env with
  | [] => None
  | f :: env' => match assoc x (f_names f) with Some s => Some s | None => find_sym env' x end
  end.
(** env.c, [defineSymbol] in the innermost scope; [None] if defined already. *)
Definition define_sym (env : list frame) (s : sym) : option (list frame) :=
  match env with
  | [] => None
  | f :: env' =>
    match assoc (s_name s) (f_names f) with
    | Some _ => None
    | None => Some (Frame (f_node f) (f_set f) ((s_name s, s) :: f_names f) :: env')
    end
  end.

(** resolve.c:73-102, the loop of [captureSymbol]: from the scope of the use
    outwards to the scope stored in the symbol, adding the symbol to the set of
    every closure on the way; the answer is the last (outermost) closure. *)
Fixpoint walk (env : list frame) (s : sym) (captured : option N) : tres (list frame * option N) :=
  match env with
  | [] => TOk ([], captured)
  | f :: env' =>
    if (match s_parent s with Some p => (p =? f_node f)%N | None => false end) then TOk (env, captured)
    else match f_set f with
    | Some set =>
      tbind (add_capture set s) (λ r,
      tbind (walk env' s (Some (f_node f))) (λ r',
      TOk (Frame (f_node f) (Some (fst r)) (f_names f) :: fst r', snd r')))
    | None => tbind (walk env' s captured) (λ r', TOk (f :: fst r', snd r'))
    end
  end.
(** resolve.c:51-71, [shouldCaptureSymbol] and the start of [captureSymbol]. *)
Definition capture_symbol (env : list frame) (closure : option N) (s : sym) : tres (list frame * option N) :=
  match closure with
  | None => TOk (env, None)
  | Some c => if s_top s then TOk (env, None) else walk env s None
  end.

(** Scope nodes and parameters: resolve.c:345-353 (bindFuncParam). *)
Fixpoint define_params (env : list frame) (n scope : N) (ps : list N) : option (list frame * N) :=
  match ps with
  | [] => Some (env, n)
  | p :: ps' =>
    match define_sym env (Sym n p false (Some scope)) with
    | Some env' => define_params env' (n + 1) scope ps'
    | None => None
    end
  end.
Definition top_node (env : list frame) : option N :=
  match env with f :: _ => Some (f_node f) | [] => None end.
(** What is left of the frames when a scope is popped. *)
Definition pop_frame (env : list frame) : list frame := match env with _ :: env' => env' | [] => [] end.
Definition top_set (env : list frame) : cset :=
  match env with f :: _ => match f_set f with Some s => s | None => cset_new end | [] => cset_new end.

(** resolve.c:180-290 (bindPath), 390-401 (bindVarDecl), 628-660 (bindBlockStmt
    and the other statements with a scope), 712-727 (bindCaseStmt), 585-606
    (bindClosureExpr); 788-806 (withParentScope) sets parentScope to the
    current scope on entry and restores currentClosure on exit. *)
Fixpoint bind (t : term) (st : bstate) : tres (option bstate) :=
  match t with
  | TSkip => TOk (Some st)
  | TUse x =>
    match find_sym (b_env st) x with
    | None => TOk None
    | Some s =>
      tbind (capture_symbol (b_env st) (b_closure st) s) (λ r,
      TOk (Some (BState (fst r) (b_nsym st) (b_nscope st) (b_closure st) (b_out st)
                        (b_uses st ++ [(s_id s, snd r)]))))
    end
  | TLet x e =>
    tbind (bind e st) (λ o, match o with
    | None => TOk None
    | Some st =>
      TOk (match define_sym (b_env st) (Sym (b_nsym st) x false (top_node (b_env st))) with
           | None => None
           | Some env => Some (BState env (b_nsym st + 1) (b_nscope st) (b_closure st) (b_out st) (b_uses st))
           end)
    end)
  | TSeq a b => tbind (bind a st) (λ o, match o with None => TOk None | Some st => bind b st end)
  | TScope t =>
    let env := Frame (b_nscope st) None [] :: b_env st in
    tbind (bind t (BState env (b_nsym st) (b_nscope st + 1) (b_closure st) (b_out st) (b_uses st))) (λ o,
    TOk (match o with None => None | Some st' =>
      Some (BState (pop_frame (b_env st')) (b_nsym st') (b_nscope st') (b_closure st) (b_out st') (b_uses st')) end))
  | TCase x t =>
    (* the variable is defined, but not visited: its parentScope stays NULL *)
    let env := Frame (b_nscope st) None [(x, Sym (b_nsym st) x false None)] :: b_env st in
    tbind (bind t (BState env (b_nsym st + 1) (b_nscope st + 1) (b_closure st) (b_out st) (b_uses st))) (λ o,
    TOk (match o with None => None | Some st' =>
      Some (BState (pop_frame (b_env st')) (b_nsym st') (b_nscope st') (b_closure st) (b_out st') (b_uses st')) end))
  | TClosure ps t =>
    let me := b_nscope st in
    match define_params (Frame me (Some cset_new) [] :: b_env st) (b_nsym st) me ps with
    | None => TOk None
    | Some (env, n) =>
      tbind (bind t (BState env n (me + 1) (Some me) (b_out st) (b_uses st))) (λ o,
      TOk (match o with None => None | Some st' =>
        Some (BState (pop_frame (b_env st')) (b_nsym st') (b_nscope st') (b_closure st)
                     (b_out st' ++ [(me, get_ordered (top_set (b_env st')))]) (b_uses st')) end))
    end
  end.

(** The state in which the body of a function is bound: the top level [tops]
    defines the names 0 .. (node 0), the function its parameters (node 1). *)
Fixpoint tops_from (i : N) (tops : list N) : list (N * sym) :=
  match tops with [] => [] | x :: rest => (x, Sym i x true None) :: tops_from (i + 1) rest end.
Definition bind_function (tops params : list N) (body : term) : tres (option bstate) :=
  match define_params [Frame 1 None []; Frame 0 None (tops_from 0 tops)] (N.of_nat (length tops)) 1 params with
  | None => TOk None
  | Some (env, n) => bind body (BState env n 2 None [] [])
  end.
End capture.
