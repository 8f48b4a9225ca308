(** * Model of the memory pass: where releases of owned variables are put

    Source: src/cxy/lang/middle/mem/manage.c and finalize.c, as run by the
    driver between simplification and the C backend.

    Simplifications.
    - Every variable here is an owned one (a class, or a type with a
      destructor): [nodeNeedsMemMgmt] (manage.c:155-164) is true of it.
      Temporaries, top-level variables and references, which the pass skips,
      do not appear.
    - Variables are numbered; a number stands for one declaration node.
    - Conditions of [if], [while] and [switch] neither move nor assign.
      [while (c) { b }] reaches the pass as
      [while (true) { if (c) { b } else { break } }] (shake.c:533-560), so
      only endless loops appear. Bodies of branches, loops and cases are
      blocks (shake.c:480-500, simplify.c:1137-1149). An [if] without [else]
      is written with an empty one: the pass uses the state before the
      statement for it (manage.c:740-750), which is what an empty block
      leaves. Loops with an update statement, assignments to members, and
      [delete] are left out.
    - A failed assertion of the pass stops the compiler, as an error does. *)
From stdpp Require Import numbers list gmap.

(** ** Programs as the pass receives them *)

(** What a declaration is initialised from: a call or [new], another
    variable (copied), or another variable moved with [&&]. *)
Inductive dsrc := DFresh | DCopy (y : nat) | DMove (y : nat).

(** What is assigned to a variable: a call, another variable by name,
    another variable moved, or a call that is given a variable. *)
Inductive asrc := AFresh | AName (y : nat) | AMove (y : nat) | AUsing (y : nat).

(** What is returned: nothing (or a literal), a fresh value, a variable. *)
Inductive rsrc := RNone | RFresh | RVar (x : nat).

Inductive stmt :=
| SDecl (x : nat) (init : option dsrc)
| SAssign (x : nat) (src : asrc)
| SNull (x : nat)                    (* x = null *)
| SMove (x : nat)                    (* f(&&x) *)
| SUse (x : nat)                     (* f(x) *)
| SIf (a b : block)
| SLoop (b : block)
| SBlock (b : block)
| SSwitch (cs : cases)
| SBreak
| SContinue
| SReturn (r : rsrc)
with block := BNil | BCons (s : stmt) (b : block)
with cases := CNil | CCons (b : block) (cs : cases).

(** ** Programs as the C backend receives them *)

Inductive tstmt :=
| TDecl (x : nat) (init : option dsrc)
| TSet (x : nat) (src : asrc)
| TGive (x : nat)
| TUse (x : nat)
| TDrop (x : nat)                    (* released whatever the flag *)
| TDropIf (x : nat)                  (* released if the drop flag is set *)
| TFlag (x : nat) (b : bool)         (* drop flag set or cleared *)
| TKeep (x : nat)                    (* _rt = x *)
| TKeepNew                           (* _rt = f() *)
| TIf (a b : list tstmt)
| TLoop (b : list tstmt)
| TBlock (b : list tstmt)
| TSwitch (cs : list (list tstmt))
| TBreak
| TContinue
| TReturn.

(** ** The state of the pass *)

(** ast.h:153-159 *)
Inductive vstate := Uninit | Assigned | Maybe | Moved | Dropped.

Global Instance vstate_eq_dec : EqDecision vstate.
Proof. solve_decision. Defined.

(** [VariableTrace] (manage.c:12-20), without [variable] (the key of the
    table), [used] (for a warning), [destroyed] (never set) and [dropFlags],
    which is [m_flags] below. Blocks are numbered. *)
Record trace := Trace {
  t_state : vstate;
  t_scope : option nat;
  t_drop : option nat;
}.

(** [MemContext] (manage.c:42-62). [m_scopes] has the innermost scope first;
    the locals of its head are [ctx->locals]. [m_next] numbers the blocks;
    [m_sealed] is [blockStmt.sealed] of the current block. *)
Record mst := Mst {
  m_vars : gmap nat trace;
  m_flags : gset nat;
  m_scopes : list (list nat * bool);
  m_next : nat;
  m_sealed : bool;
}.

Definition set_vars (v : gmap nat trace) (m : mst) : mst :=
  Mst v (m_flags m) (m_scopes m) (m_next m) (m_sealed m).

Definition set_state (x : nat) (s : vstate) (m : mst) : mst :=
  set_vars (alter (λ t, Trace s (t_scope t) (t_drop t)) x (m_vars m)) m.

(** ** States of variables at joins *)

(** [captureVariableState] (manage.c:105-120) *)
Definition capture (m : mst) : gmap nat vstate := t_state <$> m_vars m.

(** [restoreVariableState], [updateVariableStates] (manage.c:122-132,
    353-361): only the states are written back. *)
Definition restore (st : gmap nat vstate) (m : mst) : mst :=
  set_vars (map_imap (λ x t,
    Some (Trace (default (t_state t) (st !! x)) (t_scope t) (t_drop t)))
    (m_vars m)) m.

(** manage.c:227-235 *)
Definition join (a b : vstate) : vstate :=
  if decide (a = b) then a
  else if decide (a = Assigned ∨ b = Assigned ∨ a = Maybe ∨ b = Maybe)
  then Maybe else Uninit.

(** manage.c:141-147 *)
Definition join_switch (a b : vstate) : vstate :=
  if decide (a = b) then a
  else if decide (a = Assigned ∨ b = Assigned) then Maybe else Uninit.

Definition join_with (f : vstate → vstate → vstate)
    (a b : gmap nat vstate) : gmap nat vstate :=
  map_imap (λ x s, Some (f s (default s (b !! x)))) a.

(** [mergeUpdateVariableStates] (manage.c:219-244): the joined states are
    written back and every variable that is maybe assigned gets drop flags
    ([vtNeedsDropFlags], [insertedDropFlags], manage.c:181-217). Where the
    flag is declared is part of [finalize] below. *)
Definition with_flags (m : mst) : mst :=
  Mst (m_vars m)
    (m_flags m ∪ dom
       (filter (λ kv, t_state kv.2 = Maybe) (m_vars m)))
    (m_scopes m) (m_next m) (m_sealed m).

Definition merge_update (a b : gmap nat vstate) (m : mst) : mst :=
  with_flags (restore (join_with join a b) m).

(** ** Releases *)

(** [vtIsUpdatedInChildScopeLoop], [vtNeedsMemMgmt] (manage.c:166-179) *)
Definition in_child_loop (cur : nat) (inl : bool) (t : trace) : bool :=
  inl && bool_decide (t_scope t ≠ Some cur) && bool_decide (t_drop t ≠ Some cur).

Definition needs_drop (cur : nat) (inl : bool) (t : trace) : bool :=
  match t_state t with
  | Assigned | Maybe => true
  | _ => in_child_loop cur inl t
  end.

(** [makeDropVariable] (manage.c:246-264): a release of [x], and the block
    it is in is remembered. *)
Definition drop_var (cur : nat) (inl : bool) (x : nat) (m : mst)
    : list tstmt * mst :=
  match m_vars m !! x with
  | Some t =>
      if needs_drop cur inl t
      then ([TDrop x],
            set_vars (<[x := Trace (t_state t) (t_scope t) (Some cur)]> (m_vars m)) m)
      else ([], m)
  | None => ([], m)
  end.

Fixpoint drop_vars (cur : nat) (inl : bool) (xs : list nat) (m : mst)
    : list tstmt * mst :=
  match xs with
  | [] => ([], m)
  | x :: xs =>
      let '(c, m) := drop_var cur inl x m in
      let '(c', m) := drop_vars cur inl xs m in
      (c ++ c', m)
  end.

(** The variables visited by [sealCurrentJumpPoint] (manage.c:323-336):
    scopes from the innermost outward, for [break] and [continue] up to the
    body of the loop. *)
Fixpoint jump_vars (ret : bool) (scopes : list (list nat * bool)) : list nat :=
  match scopes with
  | [] => []
  | (xs, is_loop) :: rest =>
      xs ++ (if negb ret && is_loop then [] else jump_vars ret rest)
  end.

Definition seal (cur : nat) (inl ret : bool) (m : mst) : list tstmt * mst :=
  let '(c, m) := drop_vars cur inl (jump_vars ret (m_scopes m)) m in
  (c, Mst (m_vars m) (m_flags m) (m_scopes m) (m_next m) true).

(** ** The pass *)

(** [visitIdentifier], [reportUseUnassigned] (manage.c:363-394, 420-431).
    [strict]: the warning for a variable that may be unassigned counts as an
    error. *)
Definition use (strict : bool) (x : nat) (m : mst) : option mst :=
  match m_vars m !! x with
  | Some t =>
      match t_state t with
      | Assigned => Some m
      | Maybe => if strict then None else Some m
      | _ => None
      end
  | None => None
  end.

(** [insertVariableTrace] and the push on the locals (manage.c:94-103,
    413-414) *)
Definition declare (cur : option nat) (x : nat) (s : vstate) (m : mst)
    : option mst :=
  match m_vars m !! x, m_scopes m with
  | None, (xs, l) :: rest =>
      Some (Mst (<[x := Trace s cur None]> (m_vars m)) (m_flags m)
                ((xs ++ [x], l) :: rest) (m_next m) (m_sealed m))
  | _, _ => None
  end.

(** [opMove] of [visitUnaryExpr] (manage.c:433-448) *)
Definition move (strict : bool) (y : nat) (m : mst) : option mst :=
  set_state y Moved <$> use strict y m.

(** Entering and leaving a block (manage.c:663-684, 709-733). *)
Definition enter (is_loop : bool) (m : mst) : mst :=
  Mst (m_vars m) (m_flags m) (([], is_loop) :: m_scopes m) (S (m_next m)) false.

Definition locals (m : mst) : list nat :=
  match m_scopes m with [] => [] | (xs, _) :: _ => xs end.

(** [hmapRemove] of the locals (manage.c:715-729) *)
Definition forget (xs : list nat) (v : gmap nat trace) : gmap nat trace :=
  foldr delete v xs.

(** [astModifierAddAsNext] puts each release right after the last statement
    of the block, so the releases of [sealAndFinalizeCurrentBlock]
    (manage.c:340-351) come out last first. *)
Definition leave (cur : nat) (inl : bool) (sealed : bool) (m : mst)
    : list tstmt * mst :=
  let '(c, m') :=
    if m_sealed m then ([], m)
    else let '(c, m') := drop_vars cur inl (locals m) m in (reverse c, m') in
  (c, Mst (forget (locals m) (m_vars m')) (m_flags m')
          (tail (m_scopes m')) (m_next m') sealed).

(** [visitVariableDecl] (402-418), [visitAssignExpr] for a local variable
    (472-494), [visitReturnStmt] (590-639), [visitBreakStmt] and
    [visitContinueStmt] (641-651), [visitBlockStmt] (653-734), [visitIfStmt]
    (736-753), [visitWhileStmt] (755-769), [visitSwitch] (771-785), all of
    manage.c. The code that takes the place of the statement is returned. *)
Fixpoint manage_stmt (strict : bool) (cur : nat) (inl : bool) (s : stmt)
    (m : mst) {struct s} : option (list tstmt * mst) :=
  match s with
  | SDecl x init =>
      m ← declare (Some cur) x (if init then Assigned else Uninit) m;
      m ← match init with
          | Some (DCopy y) => use strict y m
          | Some (DMove y) => move strict y m
          | _ => Some m
          end;
      Some ([TDecl x init], m)
  | SAssign x src =>
      m ← match src with
          | AFresh => Some m
          | AName y | AUsing y => use strict y m
          | AMove y => move strict y m
          end;
      match m_vars m !! x with
      | None => None
      | Some _ =>
          let '(c, m) := drop_var cur inl x m in
          Some (c ++ [TSet x src], set_state x Assigned m)
      end
  | SNull x =>
      match m_vars m !! x with
      | None => None
      | Some _ =>
          let '(c, m) := drop_var cur inl x m in
          Some (c, set_state x Dropped m)
      end
  | SMove x => m ← move strict x m; Some ([TGive x], m)
  | SUse x => m ← use strict x m; Some ([TUse x], m)
  | SIf a b =>
      let pre := capture m in
      '(ca, m) ← manage_block strict inl false a m;
      let post_a := capture m in
      '(cb, m) ← manage_block strict inl false b (restore pre m);
      Some ([TIf ca cb], merge_update post_a (capture m) m)
  | SLoop b =>
      let pre := capture m in
      '(c, m) ← manage_block strict true true b m;
      Some ([TLoop c], merge_update (capture m) pre m)
  | SBlock b =>
      '(c, m) ← manage_block strict inl false b m;
      Some ([TBlock c], with_flags m)
  | SSwitch cs =>
      let pre := capture m in
      '(c, m, post) ← manage_cases strict inl pre cs pre m;
      Some ([TSwitch c], restore post m)
  | SBreak => let '(c, m) := seal cur inl false m in Some (c ++ [TBreak], m)
  | SContinue => let '(c, m) := seal cur inl false m in Some (c ++ [TContinue], m)
  | SReturn r =>
      '(k, m) ← match r with
                | RNone => Some ([], m)
                | RFresh => Some ([TKeepNew], m)
                | RVar x => m ← move strict x m; Some ([TKeep x], m)
                end;
      let '(c, m) := seal cur inl true m in
      Some (k ++ c ++ [TReturn], m)
  end
with manage_stmts (strict : bool) (cur : nat) (inl : bool) (b : block) (m : mst)
    {struct b} : option (list tstmt * mst) :=
  match b with
  | BNil => Some ([], m)
  | BCons s b =>
      '(c, m) ← manage_stmt strict cur inl s m;
      '(c', m) ← manage_stmts strict cur inl b m;
      Some (c ++ c', m)
  end
with manage_block (strict : bool) (inl is_loop : bool) (b : block) (m : mst)
    {struct b} : option (list tstmt * mst) :=
  let cur := m_next m in
  '(c, m') ← match b with
             | BNil => Some ([], enter is_loop m)
             | BCons s b =>
                 '(c, m) ← manage_stmt strict cur inl s (enter is_loop m);
                 '(c', m) ← manage_stmts strict cur inl b m;
                 Some (c ++ c', m)
             end;
  let '(d, m') := leave cur inl (m_sealed m) m' in
  Some (c ++ d, m')
with manage_cases (strict inl : bool) (pre : gmap nat vstate) (cs : cases)
    (acc : gmap nat vstate) (m : mst) {struct cs}
    : option (list (list tstmt) * mst * gmap nat vstate) :=
  match cs with
  | CNil => Some ([], m, acc)
  | CCons b cs =>
      '(c, m) ← manage_block strict inl false b m;
      let post := capture m in
      '(c', m, acc) ← manage_cases strict inl pre cs
                        (join_with join_switch acc post) (restore pre m);
      Some (c :: c', m, acc)
  end.

(** A function: parameters are traced as assigned locals of the body, before
    the body becomes the current block (manage.c:675-684, 787-821). *)
Definition start (params : list nat) : option mst :=
  foldl (λ m p, m ← m; declare None p Assigned m)
    (Some (enter false (Mst ∅ ∅ [] 0 false))) params.

Definition manage_fun (strict : bool) (params : list nat) (body : block)
    : option (list tstmt * gset nat) :=
  m ← start params;
  '(c, m) ← manage_stmts strict 0 false body m;
  let '(d, m) := leave 0 false false m in
  Some (c ++ d, m_flags m).

(** ** Drop flags *)

(** A drop flag is declared right after its variable, set if the variable
    has an initialiser; that of a parameter is declared at the head of the
    body, cleared (manage.c:189-217). After a statement that releases or
    moves such a variable the flag is cleared, after an assignment it is set,
    and every release of it looks at the flag (finalize.c:119-144, 198-241). *)
Definition flag (F : gset nat) (x : nat) (b : bool) : list tstmt :=
  if decide (x ∈ F) then [TFlag x b] else [].

Fixpoint finalize (F : gset nat) (s : tstmt) : list tstmt :=
  let go := flat_map (finalize F) in
  match s with
  | TDecl x init =>
      TDecl x init ::
      match init with Some (DMove y) => flag F y false | _ => [] end ++
      flag F x (if init then true else false)
  | TSet x src =>
      TSet x src ::
      match src with AMove y => flag F y false | _ => [] end ++ flag F x true
  | TGive x => TGive x :: flag F x false
  | TDrop x =>
      if decide (x ∈ F) then [TDropIf x; TFlag x false] else [TDrop x]
  | TIf a b => [TIf (go a) (go b)]
  | TLoop b => [TLoop (go b)]
  | TBlock b => [TBlock (go b)]
  | TSwitch cs => [TSwitch (map go cs)]
  | _ => [s]
  end.

Definition compile (strict : bool) (params : list nat) (body : block)
    : option (list tstmt) :=
  '(c, F) ← manage_fun strict params body;
  Some (flat_map (λ p, flag F p false) params ++ flat_map (finalize F) c).
