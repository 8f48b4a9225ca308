(** Model of the exceptions of the compiler, src/cxy/core/e4c.c and e4c.h, by which the parser
    recovers from syntax errors (parser.c:192, 203, 1395-1402, 3690-3707).

    [setjmp] stores a number that stands for one entry into a try block; [longjmp] is the outcome
    [Jump] with the number found in the slot.  A jump to a try block which has been left already is
    a jump that no try block around answers to: that is undefined behaviour once the function has
    returned, and runs the code behind the try block again otherwise.  Messages, file, line
    and the context pointer of exceptions are left out; e4c_throw is never given a null type. *)
From Coq Require Import List Bool Arith.
Import ListNotations.

(** What stands between the braces.  [Leave] is a [break] (parser.c:1401): the macro E4C_TRY is a
    [while] loop, so it leaves the innermost try block.  A try block without E4C_FINALLY has
    [Skip] there. *)
Inductive prog :=
| Skip
| Act (n : nat)
| Throw (t : nat)
| Leave
| Seq (p q : prog)
| Try (body : prog) (catches : clauses) (fin : prog)
with clauses :=
| CNil
| CCons (t : nat) (p : prog) (cs : clauses).

(** e4c.h:95-101, as numbers *)
Definition beginning := 0.
Definition trying := 1.
Definition catching := 2.
Definition finalizing := 3.
Definition done := 4.
(** e4c.h:20-22 *)
Definition MAX_FRAMES := 16.

(** e4c.h:102-110, with [m_next] to number entries and [m_out] the actions so far. *)
Record mach := Mach {
  m_frames : nat;
  m_frame : nat -> nat * bool;     (* stage, uncaught *)
  m_jump : nat -> nat;
  m_err : nat;
  m_next : nat;
  m_out : list nat;
}.
Definition upd {A} (f : nat -> A) (i : nat) (x : A) : nat -> A := fun j => if j =? i then x else f j.
Definition set_frames (n : nat) (m : mach) : mach :=
  Mach n (m_frame m) (m_jump m) (m_err m) (m_next m) (m_out m).
Definition set_frame (i : nat) (x : nat * bool) (m : mach) : mach :=
  Mach (m_frames m) (upd (m_frame m) i x) (m_jump m) (m_err m) (m_next m) (m_out m).
Definition set_err (t : nat) (m : mach) : mach :=
  Mach (m_frames m) (m_frame m) (m_jump m) t (m_next m) (m_out m).
Definition emit (n : nat) (m : mach) : mach :=
  Mach (m_frames m) (m_frame m) (m_jump m) (m_err m) (m_next m) (m_out m ++ [n]).
Definition init : mach := Mach 0 (fun _ => (0, false)) (fun _ => 0) 0 0 [].

(** [Exit]: exit(EXIT_FAILURE), e4c.c:37.  [Stuck]: a try block goes round for ever (the bound of
    [rounds] is used up). *)
Inductive outcome :=
| Done (m : mach)
| Jump (tok : nat) (m : mach)
| Broke (m : mach)
| Exit (m : mach)
| Stuck.

(** e4c.c:19-38 *)
Definition propagate (m : mach) : outcome :=
  let m := set_frame (m_frames m) (fst (m_frame m (m_frames m)), true) m in
  if 0 <? m_frames m then Jump (m_jump m (m_frames m - 1)) m else Exit m.

(** e4c.c:99-124 *)
Definition throw (t : nat) (m : mach) : outcome := propagate (set_err t m).

(** e4c.c:55-84 with is_catch = 0.  [Go]: 1 is returned; [End]: 0 is returned, or the
    exception is propagated. *)
Inductive hooked := Go (m : mach) | End (o : outcome).
Definition hook0 (m : mach) : hooked :=
  let i := m_frames m in
  let '(stage, uncaught) := m_frame m i in
  let s := S stage in
  let s := if (s =? catching) && negb uncaught then S s else s in
  let m := set_frame i (s, uncaught) m in
  if s <? done then Go m
  else let m := set_frames (i - 1) m in
       End (if uncaught then propagate m else Done m).

(** e4c.c:60-63 *)
Definition hook1 (m : mach) : mach := set_frame (m_frames m) (fst (m_frame m (m_frames m)), false) m.

Section run.
(** The supertype of each type (e4c.h:39-43); type 0 is RuntimeException, its own supertype. *)
Context (sup : nat -> nat).

(** e4c.c:86-97, at most [fuel] rounds *)
Fixpoint extends (fuel child parent : nat) : bool :=
  match fuel with
  | 0 => false
  | S f => if sup child =? child then false
           else if sup child =? parent then true
           else extends f (sup child) parent
  end.
(** e4c.h:66-67.  The number of rounds is enough when supertypes have smaller numbers. *)
Definition instance (t parent : nat) : bool := (t =? parent) || extends (S t) t parent.

(** The loop [while (e4c_hook(0))] of E4C_TRY (e4c.h:70-73): [branch] is the chain of [if]s in it,
    [tok] the entry its setjmp stands for.  A jump there goes back to the test of the loop. *)
Fixpoint rounds (fuel : nat) (tok : nat) (branch : mach -> outcome) (m : mach) : outcome :=
  match fuel with
  | 0 => Stuck
  | S f =>
    let back (o : outcome) :=
      match o with
      | Done m => rounds f tok branch m
      | Jump t m => if t =? tok then rounds f tok branch m else Jump t m
      | Broke m => Done m
      | o => o
      end in
    match hook0 m with
    | Go m => back (branch m)
    | End (Jump t m) => if t =? tok then rounds f tok branch m else Jump t m
    | End o => o
    end
  end.
Definition max_rounds := 200.

(** e4c.h:70-78 and e4c.c:40-53 *)
Fixpoint exec (p : prog) (m : mach) {struct p} : outcome :=
  match p with
  | Skip => Done m
  | Act n => Done (emit n m)
  | Throw t => throw t m
  | Leave => Broke m
  | Seq p q => match exec p m with Done m => exec q m | o => o end
  | Try b cs f =>
      if MAX_FRAMES <=? m_frames m then throw 0 m
      else
        let i := S (m_frames m) in
        let tok := m_next m in
        let m := Mach i (upd (m_frame m) i (beginning, false)) (upd (m_jump m) (i - 1) tok)
                   (m_err m) (S tok) (m_out m) in
        rounds max_rounds tok (fun m =>
          let stage := fst (m_frame m (m_frames m)) in
          if stage =? trying then exec b m
          else if stage =? catching then handle cs m
          else if stage =? finalizing then exec f m
          else Done m) m
  end
with handle (cs : clauses) (m : mach) {struct cs} : outcome :=
  match cs with
  | CNil => Done m
  | CCons t p cs => if instance (m_err m) t then exec p (hook1 m) else handle cs m
  end.
End run.

(** How a whole program ends. *)
Inductive final := Finished | Killed (t : nat) | Astray.
Definition run (sup : nat -> nat) (p : prog) : list nat * final :=
  match exec sup p init with
  | Done m => (m_out m, Finished)
  | Exit m => (m_out m, Killed (m_err m))
  | Jump _ m | Broke m => (m_out m, Astray)
  | Stuck => ([], Astray)
  end.

(** The parser as a user of it.  A source is what the parser meets: [Good] parses, [Bad] is a syntax error
    (parser.c:183-193), and blocks contain statements.  The numbers of actions tell statements that
    were parsed (even) from errors that were reported (odd).  What [synchronize] skips is left
    out: parsing goes on behind the block or the declaration in error. *)
Inductive stmt :=
| Good (n : nat)
| Bad (n : nat)
| Block (ss : stmts)
with stmts :=
| SNil
| SCons (s : stmt) (ss : stmts).
Definition ParserException := 1.
Definition parser_sup (t : nat) : nat := 0.

(** parser.c:1387-1411.  The [break] leaves the try block, not the loop around it; the loop ends since
    [synchronizeUntil] has moved to the closing brace, so the statements after the error are not
    looked at. *)
Fixpoint stmt_prog (s : stmt) : prog :=
  match s with
  | Good n => Act (2 * n)
  | Bad n => Seq (Act (2 * n + 1)) (Throw ParserException)
  | Block ss => block_prog ss
  end
with block_prog (ss : stmts) : prog :=
  match ss with
  | SNil => Skip
  | SCons s ss =>
      let t := Try (stmt_prog s) (CCons ParserException Leave CNil) Skip in
      match s with Bad _ => t | _ => Seq t (block_prog ss) end
  end.
(** The parts of one declaration: errors between its blocks are errors of the declaration. *)
Fixpoint parts_prog (ss : stmts) : prog :=
  match ss with SNil => Skip | SCons s ss => Seq (stmt_prog s) (parts_prog ss) end.
(** parser.c:3701-3708 *)
Definition decl_prog (ss : stmts) : prog := Try (parts_prog ss) (CCons ParserException Skip CNil) Skip.
Fixpoint file_prog (ds : list stmts) : prog :=
  match ds with [] => Skip | d :: ds => Seq (decl_prog d) (file_prog ds) end.
Definition parse (ds : list stmts) : list nat * final := run parser_sup (file_prog ds).
