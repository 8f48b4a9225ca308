(** What the scopes of the binder should be: a stack of frames, each giving
    names to lists of declarations (one, or the overloads of a function in the
    order of their declaration).  Only the types of nodes, operations and
    answers come from the model. *)
From stdpp Require Import list numbers.
From Verif Require Import ScopeModel.

(** A frame: the construct that opened it, and its names. *)
Definition frame : Type := N * (N → option (list N)).

Section spec.
Context (P : program).

Definition empty_frame (node : N) : frame := (node, λ _, None).
Definition with_entry (fr : frame) (x : N) (l : list N) : frame :=
  (fst fr, λ y, if (y =? x)%N then Some l else snd fr y).

(** The meaning of a name: its first declaration in the innermost frame that
    has one, or else the public builtin of that name. *)
Fixpoint meaning (fs : list frame) (x : N) : option N :=
  match fs with
  | [] => match builtin P x with
          | Some n => if is_public P n then Some n else None
          | None => None
          end
  | fr :: outer => match snd fr x with Some l => head l | None => meaning outer x end
  end.
(** The innermost enclosing construct of a kind. *)
Fixpoint innermost (want : tag → bool) (fs : list frame) : option N :=
  match fs with
  | [] => None
  | fr :: outer => if want (tag_of P (fst fr)) then Some (fst fr) else innermost want outer
  end.

(** A definition of [x] in the innermost frame: [f] says what the entry
    becomes, or that the definition is an error. *)
Definition declare (fs : list frame) (x : N) (ignored_answer : bool)
    (f : option (list N) → option (list N)) : option (list frame * bool) :=
  match fs with
  | [] => None
  | fr :: outer =>
    if ignored P x then Some (fs, ignored_answer) else
    match f (snd fr x) with
    | Some l => Some (with_entry fr x l :: outer, true)
    | None => Some (fs, false)
    end
  end.
Definition first_is (p : N → bool) (l : list N) : bool :=
  match l with [] => false | n :: _ => p n end.

Definition fstep (fs : list frame) (o : sop) : option (list frame * sout) :=
  let answer r := match r with Some (fs', b) => Some (fs', RBool b) | None => None end in
  match o with
  | OPush n => Some (empty_frame n :: fs, RDone)
  | OPop => match fs with [] => None | _ :: outer => Some (outer, RDone) end
  | ODefine x n =>
    answer (declare fs x false (λ old, match old with None => Some [n] | Some _ => None end))
  | OForward x n =>
    answer (declare fs x true (λ old,
      match old with
      | None => Some [n]
      | Some l => if first_is (is_fwd P) l then Some [n] else None
      end))
  | OUpdate x n =>
    match declare fs x true (λ _, Some [n]) with
    | Some (fs', _) => Some (fs', RDone) | None => None end
  | OFunction x n =>
    answer (declare fs x true (λ old,
      match old with
      | None => Some [n]
      | Some l => if first_is (λ m, tag_eqb (tag_of P m) TgFunc) l then Some (l ++ [n]) else None
      end))
  | OFind x => Some (fs, RNode (meaning fs x))
  | OEnclosing a b c =>
    Some (fs, RNode (innermost (λ t, tag_eqb t a || tag_eqb t b || tag_eqb t c) fs))
  end.
Fixpoint frun (fs : list frame) (ops : list sop) : option (list frame * list sout) :=
  match ops with
  | [] => Some (fs, [])
  | o :: rest =>
    match fstep fs o with
    | None => None
    | Some (fs1, out) =>
      match frun fs1 rest with None => None | Some (fs2, outs) => Some (fs2, out :: outs) end
    end
  end.

(** Functions are entered with [defineFunctionDecl] and only functions are. *)
Definition functions_as_functions (o : sop) : Prop :=
  match o with
  | ODefine _ n | OForward _ n | OUpdate _ n => tag_of P n ≠ TgFunc
  | OFunction _ n => tag_of P n = TgFunc
  | _ => True
  end.
(** Only functions, macros and types are ever declared forward (the parser,
    lang/frontend/parser.c:3275, does so for types only). *)
Definition forwards_completable : Prop :=
  ∀ n, is_fwd P n = true → tag_of P n = TgFunc ∨ tag_of P n = TgMacro ∨ tag_of P n = TgType.
(** The functions entered by a history. *)
Definition functions_of (ops : list sop) : list N :=
  flat_map (λ o, match o with OFunction _ n => [n] | _ => [] end) ops.

(** Work inside a scope: every scope opened is closed again, and the scope
    itself is not. *)
Inductive inside : list sop → Prop :=
  | inside_nil : inside []
  | inside_op o ops : (∀ n, o ≠ OPush n) → o ≠ OPop → inside ops → inside (o :: ops)
  | inside_block n ops1 ops2 : inside ops1 → inside ops2 →
      inside (OPush n :: ops1 ++ OPop :: ops2).
End spec.
