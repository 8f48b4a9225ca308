(** Model of the edits of AST node lists: src/cxy/lang/frontend/ast.c:1912-1954,
    2031-2069, 2446-2473 and the modifiers of src/cxy/lang/frontend/visitor.c:381-490.

    Simplifications: nodes are numbers.  Of a node the model keeps the field
    next and, for [replaceAstNode], everything else but parentScope as one
    number.  The loops that look for the end of a list take fuel; running out
    of it is [AFuel]. *)
From stdpp Require Import list numbers.

(** Outcome: done, dereference of NULL, failed assertion, out of fuel. *)
Inductive ares (A : Type) := AOk (a : A) | ANull | AAssert | AFuel.
Arguments AOk {A} a. Arguments ANull {A}. Arguments AAssert {A}. Arguments AFuel {A}.
Definition abind {A B} (r : ares A) (f : A → ares B) : ares B :=
  match r with AOk a => f a | ANull => ANull | AAssert => AAssert | AFuel => AFuel end.

(** The field next of every node. *)
Definition heap := N → option N.
Definition hset {A} (h : N → A) (n : N) (v : A) : N → A := λ m, if (m =? n)%N then v else h m.

Section edits.
Context (fuel : nat).

(** ast.c:1936-1941 on a node that is not NULL *)
Fixpoint last_from (k : nat) (h : heap) (n : N) : ares N :=
  match h n with
  | None => AOk n
  | Some m => match k with O => AFuel | S k => last_from k h m end
  end.
(** [getLastAstNode(node)->next = v] *)
Definition set_last (h : heap) (node v : option N) : ares (heap * N) :=
  match node with
  | None => ANull
  | Some n => abind (last_from fuel h n) (λ l, AOk (hset h l v, l))
  end.
(** ast.c:1912-1918 *)
Fixpoint count_nodes (k : nat) (h : heap) (node : option N) : ares N :=
  match node with
  | None => AOk 0%N
  | Some n => match k with O => AFuel | S k => abind (count_nodes k h (h n)) (λ c, AOk (c + 1)%N) end
  end.
(** ast.c:1943-1954 *)
Fixpoint at_index (k : nat) (h : heap) (node : option N) (i index : N) : ares (option N) :=
  match node with
  | None => AOk None
  | Some n =>
    if (i =? index)%N then AOk (Some n)
    else match k with O => AFuel | S k => at_index k h (h n) (i + 1)%N index end
  end.

(** ast.c:2446-2450 *)
Definition insert_after (h : heap) (before : N) (after : option N) : ares heap :=
  abind (set_last h after (h before)) (λ r, AOk (hset (fst r) before after)).
(** AstNodeList, ast.h *)
Record nlist := NList { l_first : option N; l_last : option N }.
(** ast.c:2452-2465 *)
Definition insert_node (h : heap) (l : nlist) (node : option N) : ares (heap * nlist) :=
  match node with
  | None => AOk (h, l)
  | Some n =>
    let cont (h : heap) (first : option N) :=
      abind (last_from fuel h n) (λ last, AOk (h, NList first (Some last))) in
    match l_first l with
    | None => cont h (Some n)
    | Some f =>
      match l_last l with
      | None => ANull
      | Some last => cont (hset h last (Some n)) (Some f)
      end
    end
  end.
(** ast.c:2467-2473; the answer is the new head *)
Definition unlink_node (h : heap) (head : option N) (prev node : N) : heap * option N :=
  if (prev =? node)%N then (h, h node) else (hset h prev (h node), head).
(** ast.c:2041-2057: the loop over a list that does not start with [node] *)
Fixpoint replace_loop (k : nat) (h : heap) (prev : N) (it : option N) (node : N) (w : option N) : ares heap :=
  match it with
  | None => AOk h
  | Some i =>
    if (i =? node)%N then AOk (hset h prev w)
    else match k with O => AFuel | S k => replace_loop k h i (h i) node w end
  end.
Definition replace_in_list (h : heap) (head : option N) (node : N) (w : option N) : ares (heap * option N) :=
  match head with
  | None => ANull
  | Some f =>
    if (f =? node)%N then abind (set_last h w (h f)) (λ r, AOk (fst r, w))
    else abind (replace_loop fuel h f (h f) node w) (λ h, AOk (h, head))
  end.
(** ast.c:2031-2039; [body] is everything in a node but next and parentScope. *)
Definition replace_node (h : heap) (body : N → N) (node w : N) : ares (heap * (N → N)) :=
  let next := h node in
  let h := hset h node (h w) in
  abind (set_last h (Some node) next) (λ r, AOk (fst r, hset body node (body w))).

(** AstModifier, visitor.h, with the list of the parent and the variable of the
    loop that drives it; [m_program] tells a program from a block. *)
Inductive loopvar := ItStart (first : option N) | ItAt (i : option N).
Record modifier := Modifier {
  m_heap : heap; m_first : option N; m_program : bool;
  m_prev : option N; m_cur : option N; m_it : loopvar }.
(** visitor.c:381-386 *)
Definition mod_init (h : heap) (first : option N) (program : bool) : modifier :=
  Modifier h first program None None (ItStart first).
(** visitor.c:388-392, called by the loops [for (it = first; it; it = it->next)]
    (sema/check.c:128, shake.c:1068, simplify.c:583 and 1078, manage.c:685,
    finalize.c:248 and 286, defer.c:97); at the end of the list as in defer.c:103. *)
Definition mod_next (m : modifier) : modifier :=
  let it := match m_it m with
            | ItStart first => first
            | ItAt None => None
            | ItAt (Some i) => m_heap m i
            end in
  Modifier (m_heap m) (m_first m) (m_program m)
    (match m_cur m with Some c => Some c | None => m_prev m end) it (ItAt it).
(** visitor.c:394-409 *)
Definition mod_remove (m : modifier) : ares modifier :=
  match m_cur m with
  | None => AAssert
  | Some c =>
    match m_prev m with
    | Some p => AOk (Modifier (hset (m_heap m) p (m_heap m c)) (m_first m) (m_program m) (m_prev m) None (m_it m))
    | None => AOk (Modifier (m_heap m) (m_heap m c) (m_program m) None None (m_it m))
    end
  end.
(** visitor.c:411-430 *)
Definition mod_add (m : modifier) (node : option N) : ares modifier :=
  match node with
  | None => AOk m
  | Some n =>
    abind (set_last (m_heap m) node (m_cur m)) (λ r,
    AOk (match m_prev m with
         | Some p => Modifier (hset (fst r) p node) (m_first m) (m_program m) (Some (snd r)) (m_cur m) (m_it m)
         | None => Modifier (fst r) node (m_program m) (Some (snd r)) (m_cur m) (m_it m)
         end))
  end.
(** visitor.c:432-451 *)
Definition mod_add_next (m : modifier) (node : option N) : ares modifier :=
  match m_cur m with
  | Some c =>
    abind (set_last (m_heap m) node (m_heap m c)) (λ r,
    AOk (Modifier (hset (fst r) c node) (m_first m) (m_program m) (m_prev m) (Some c) (m_it m)))
  | None =>
    match m_first m with
    | None => AOk (Modifier (m_heap m) node (m_program m) (m_prev m) node (m_it m))
    | Some _ => AAssert
    end
  end.
(** visitor.c:453-471 *)
Definition mod_add_last (m : modifier) (node : option N) : ares modifier :=
  match m_cur m with
  | Some c =>
    abind (set_last (m_heap m) (Some c) node) (λ r,
    AOk (Modifier (fst r) (m_first m) (m_program m) (m_prev m) (Some c) (m_it m)))
  | None =>
    match m_first m with
    | None => AOk (Modifier (m_heap m) node (m_program m) (m_prev m) node (m_it m))
    | Some _ => AAssert
    end
  end.
(** visitor.c:473-488 *)
Definition mod_add_head (m : modifier) (node : option N) : ares modifier :=
  match node with
  | None => AOk m
  | Some n =>
    if m_program m then
      abind (set_last (m_heap m) node (m_first m)) (λ r,
      AOk (Modifier (fst r) node true (m_prev m) (m_cur m) (m_it m)))
    else
      (* the head is overwritten before it is read *)
      abind (set_last (m_heap m) node node) (λ r,
      AOk (Modifier (fst r) node false (m_prev m) (m_cur m) (m_it m)))
  end.

(** The calls a pass makes. *)
Inductive mop := MNext | MRemove | MAdd (n : option N) | MAddNext (n : option N)
  | MAddLast (n : option N) | MAddHead (n : option N).
Definition mod_step (m : modifier) (o : mop) : ares modifier :=
  match o with
  | MNext => AOk (mod_next m)
  | MRemove => mod_remove m
  | MAdd n => mod_add m n
  | MAddNext n => mod_add_next m n
  | MAddLast n => mod_add_last m n
  | MAddHead n => mod_add_head m n
  end.
Fixpoint mod_run (m : modifier) (ops : list mop) : ares modifier :=
  match ops with
  | [] => AOk m
  | o :: rest => abind (mod_step m o) (λ m, mod_run m rest)
  end.
End edits.
