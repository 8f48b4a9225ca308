(** Model of the scopes of the name binder (src/cxy/lang/middle/bind/scope.c,
    lang/middle/scope.h).

    Simplifications: names are interned strings, identified by their pointers
    (numbers); AST nodes are numbers too.  Of a node the model keeps its tag,
    the flags ForwardDecl and Public (fixed: nothing here changes them), and
    the fields this file writes: [funcDecl.index], [list.link], [list.first]
    and [definition].  Error messages are dropped, except that the answer
    tells whether one was logged.  The hash of a pointer is a parameter. *)
From stdpp Require Import list numbers.
From Verif Require Import HTableModel KTableModel.

(** Outcome of a call: done, failed assertion, read or write through NULL, or
    an endless probe of the hash table. *)
Inductive sres (A : Type) := SOk (a : A) | SAssert | SNull | SHang.
Arguments SOk {A} a. Arguments SAssert {A}. Arguments SNull {A}. Arguments SHang {A}.
Definition sbind {A B} (r : sres A) (f : A → sres B) : sres B :=
  match r with SOk a => f a | SAssert => SAssert | SNull => SNull | SHang => SHang end.
Definition of_table {A} (r : tres A) : sres A :=
  match r with TOk a => SOk a | THang => SHang | TAssert => SAssert end.

(** The tags scope.c asks about (lang/frontend/ast.h); the others are [TgOther]. *)
Inductive tag := TgWhile | TgFor | TgSwitch | TgClosure | TgFunc | TgError | TgException
  | TgStruct | TgClass | TgInterface | TgBlock | TgMacro | TgType | TgOther.
Definition tag_eqb (a b : tag) : bool :=
  match a, b with
  | TgWhile, TgWhile | TgFor, TgFor | TgSwitch, TgSwitch | TgClosure, TgClosure
  | TgFunc, TgFunc | TgError, TgError | TgException, TgException | TgStruct, TgStruct
  | TgClass, TgClass | TgInterface, TgInterface | TgBlock, TgBlock | TgMacro, TgMacro
  | TgType, TgType | TgOther, TgOther => true
  | _, _ => false
  end.

(** What never changes about the nodes. *)
Record program := Program { tag_of : N → tag; is_fwd : N → bool; is_public : N → bool;
  (** [findBuiltinDecl] (lang/middle/builtins.c:67-77) when the builtins are
      initialised; [None] also when they are not. *)
  builtin : N → option N;
  (** core/utils.h:290-293: the name is the single character underscore. *)
  ignored : N → bool }.

(** scope.h:14-19; the name is the key of the table. *)
Record symbol := Symbol { s_index : N; s_node : N; s_last : option N }.
(** scope.h:21-26, without the level, which is never read. *)
Record scope := Scope { sc_syms : ktable N symbol; sc_node : N }.
(** The fields of nodes written here (ast.h:217-220 and [funcDecl]). *)
Record fields := Fields { f_index : N → N; f_link : N → option N; f_first : N → option N;
  f_def : N → option N }.
(** scope.h:28-31.  The scopes ever created form one doubly linked list
    starting at [first]; [e_depth] is the number of the current one counted
    from 1, 0 standing for [env->scope == NULL]. *)
Record env := Env { e_chain : list scope; e_depth : nat; e_fields : fields }.

Definition set_at {A} (f : N → A) (n : N) (a : A) : N → A := λ m, if (m =? n)%N then a else f m.

Section scopes.
Context (P : program) (hashp : N → N).

Definition syms_insert (t : ktable N symbol) (k : N) (s : symbol) :=
  of_table (kt_insert N.eqb hashp t k s).
Definition syms_find (t : ktable N symbol) (k : N) (s : symbol) :=
  of_table (kt_find N.eqb hashp t k s).

(** The current scope; every define asserts that there is one (scope.c:105). *)
Definition current (e : env) : option scope :=
  match e_depth e with O => None | S d => e_chain e !! d end.
Definition put_syms (e : env) (sc : scope) (t : ktable N symbol) : env :=
  Env (<[pred (e_depth e) := Scope t (sc_node sc)]> (e_chain e)) (e_depth e) (e_fields e).
Definition put_fields (e : env) (f : fields) : env := Env (e_chain e) (e_depth e) f.

(** scope.c:20-31: only for a new scope at the end of the list. *)
Definition new_scope (node : N) : scope := Scope kt_new node.

(** scope.c:391-400. *)
Definition push_scope (e : env) (node : N) : env :=
  match e_chain e !! e_depth e with
  | Some sc => Env (<[e_depth e := Scope (sc_syms sc) node]> (e_chain e)) (S (e_depth e)) (e_fields e)
  | None => Env (e_chain e ++ [new_scope node]) (S (e_depth e)) (e_fields e)
  end.

(** scope.c:422-427. *)
Definition pop_scope (e : env) : sres env :=
  match current e with
  | None => SAssert
  | Some sc =>
    let e' := put_syms e sc (kt_clear (sc_syms sc)) in
    SOk (Env (e_chain e') (pred (e_depth e)) (e_fields e'))
  end.

(** scope.c:429-434, with the fields of fresh nodes all zero. *)
Definition env_init (node : N) : env :=
  push_scope (Env [new_scope 0%N] 0
    (Fields (λ _, 0%N) (λ _, None) (λ _, None) (λ _, None))) node.

(** scope.c:103-127.  The answer is the value returned. *)
Definition define_symbol (e : env) (name node : N) : sres (env * bool) :=
  match current e with
  | None => SAssert
  | Some sc =>
    if ignored P name then SOk (e, false) else
    sbind (syms_insert (sc_syms sc) name (Symbol 0 node None)) (λ r,
    SOk (put_syms e sc (fst r), snd r))
  end.

(** scope.c:129-161, with ast.c:2602-2618 [setForwardDeclDefinition]. *)
Definition define_forward (e : env) (name node : N) : sres (env * bool) :=
  match current e with
  | None => SAssert
  | Some sc =>
    if ignored P name then SOk (e, true) else
    sbind (syms_insert (sc_syms sc) name (Symbol 0 node None)) (λ r,
    if snd r then SOk (put_syms e sc (fst r), true) else
    sbind (syms_find (fst r) name (Symbol 0 node None)) (λ f,
    match f with
    | None => SNull
    | Some (i, prev) =>
      if negb (is_fwd P (s_node prev)) then SOk (put_syms e sc (fst r), false) else
      match tag_of P (s_node prev) with
      | TgFunc | TgMacro | TgType =>
        let fl := e_fields e in
        SOk (put_fields
               (put_syms e sc (kt_store (fst r) i (name, Symbol (s_index prev) node (s_last prev))))
               (Fields (f_index fl) (f_link fl) (f_first fl)
                       (set_at (f_def fl) (s_node prev) (Some node))), true)
      | _ => SAssert
      end
    end))
  end.

(** scope.c:163-182. *)
Definition update_symbol (e : env) (name node : N) : sres env :=
  match current e with
  | None => SAssert
  | Some sc =>
    if ignored P name then SOk e else
    sbind (syms_insert (sc_syms sc) name (Symbol 0 node None)) (λ r,
    if snd r then SOk (put_syms e sc (fst r)) else
    sbind (syms_find (fst r) name (Symbol 0 node None)) (λ f,
    match f with
    | None => SNull
    | Some (i, prev) =>
      SOk (put_syms e sc (kt_store (fst r) i (name, Symbol (s_index prev) node (s_last prev))))
    end))
  end.

(** scope.c:184-218, called with a log.  The answer is false when the error
    was logged.  [index] is a u16. *)
Definition define_function (e : env) (name node : N) : sres (env * bool) :=
  match current e with
  | None => SAssert
  | Some sc =>
    if ignored P name then SOk (e, true) else
    sbind (syms_insert (sc_syms sc) name (Symbol 0 node None)) (λ r,
    sbind (syms_find (fst r) name (Symbol 0 node None)) (λ f,
    match f with
    | None => SAssert
    | Some (i, sym) =>
      let fl := e_fields e in
      let next := ((s_index sym + 1) mod 2 ^ 16)%N in
      let finish index link last ok :=
        SOk (put_fields
               (put_syms e sc (kt_store (fst r) i (name, Symbol next (s_node sym) last)))
               (Fields index link (set_at (f_first fl) node (Some (s_node sym))) (f_def fl)), ok) in
      if snd r then finish (f_index fl) (f_link fl) (Some node) true else
      if negb (tag_eqb (tag_of P (s_node sym)) TgFunc) then
        finish (f_index fl) (f_link fl) (s_last sym) false
      else
        match s_last sym with
        | None => SNull
        | Some last =>
          finish (set_at (f_index fl) node (s_index sym)) (set_at (f_link fl) last (Some node))
                 (Some node) true
        end
    end))
  end.

(** scope.c:220-250: the scopes from the current one outwards, then the public
    builtins. *)
Fixpoint find_in (scopes : list scope) (name : N) : sres (option N) :=
  match scopes with
  | [] =>
    SOk (match builtin P name with
         | Some n => if is_public P n then Some n else None
         | None => None
         end)
  | sc :: outer =>
    sbind (syms_find (sc_syms sc) name (Symbol 0 0 None)) (λ f,
    match f with
    | Some (_, s) => SOk (Some (s_node s))
    | None => find_in outer name
    end)
  end.
(** The scopes reached through [prev] from the current one. *)
Definition open_scopes (e : env) : list scope := rev (take (e_depth e) (e_chain e)).
Definition find_symbol (e : env) (name : N) : sres (option N) := find_in (open_scopes e) name.

(** scope.c:270-297. *)
Definition find_enclosing (e : env) (t1 t2 t3 : tag) : option N :=
  match List.find (λ sc, tag_eqb (tag_of P (sc_node sc)) t1 || tag_eqb (tag_of P (sc_node sc)) t2 ||
                         tag_eqb (tag_of P (sc_node sc)) t3) (open_scopes e) with
  | Some sc => Some (sc_node sc)
  | None => None
  end.
(** scope.c:299-306, 308-321, 323-333, 335-342. *)
Definition enclosing_loop e := find_enclosing e TgWhile TgFor TgError.
Definition enclosing_loop_or_switch e := find_enclosing e TgWhile TgFor TgSwitch.
Definition enclosing_function_or_closure e := find_enclosing e TgClosure TgFunc TgException.
Definition enclosing_function e := find_enclosing e TgFunc TgFunc TgError.
(** scope.c:362-369. *)
Definition enclosing_interface e := find_enclosing e TgClass TgClass TgError.
(** scope.c:371-383, 401-409. *)
Definition enclosing_class_or_struct e := find_enclosing e TgStruct TgClass TgError.
Definition enclosing_block e := find_enclosing e TgBlock TgBlock TgError.

(** The overloads a call considers, from [list.first] along [list.link]
    (lang/middle/sema/function.c:78-83).  None when the fuel does not suffice. *)
Fixpoint along (fuel : nat) (fl : fields) (n : option N) : option (list N) :=
  match n with
  | None => Some []
  | Some m =>
    match fuel with
    | O => None
    | S fuel' => match along fuel' fl (f_link fl m) with Some l => Some (m :: l) | None => None end
    end
  end.
Definition overloads (fuel : nat) (e : env) (decl : N) : option (list N) :=
  along fuel (e_fields e)
    (match f_first (e_fields e) decl with Some f => Some f | None => Some decl end).

(** What the binder does with its environment. *)
Inductive sop :=
  | OPush (node : N) | OPop | ODefine (name node : N) | OForward (name node : N)
  | OUpdate (name node : N) | OFunction (name node : N) | OFind (name : N)
  | OEnclosing (t1 t2 t3 : tag).
Inductive sout := RDone | RBool (b : bool) | RNode (o : option N).

Definition sstep (e : env) (o : sop) : sres (env * sout) :=
  match o with
  | OPush n => SOk (push_scope e n, RDone)
  | OPop => sbind (pop_scope e) (λ e', SOk (e', RDone))
  | ODefine x n => sbind (define_symbol e x n) (λ r, SOk (fst r, RBool (snd r)))
  | OForward x n => sbind (define_forward e x n) (λ r, SOk (fst r, RBool (snd r)))
  | OUpdate x n => sbind (update_symbol e x n) (λ e', SOk (e', RDone))
  | OFunction x n => sbind (define_function e x n) (λ r, SOk (fst r, RBool (snd r)))
  | OFind x => sbind (find_symbol e x) (λ r, SOk (e, RNode r))
  | OEnclosing a b c => SOk (e, RNode (find_enclosing e a b c))
  end.
Fixpoint srun (e : env) (ops : list sop) : sres (env * list sout) :=
  match ops with
  | [] => SOk (e, [])
  | o :: rest =>
    sbind (sstep e o) (λ r, sbind (srun (fst r) rest) (λ r', SOk (fst r', snd r :: snd r')))
  end.
End scopes.
