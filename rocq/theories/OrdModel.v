(** Model of what the compiler does to the order of evaluation: the temporaries of the arguments of calls
    and of indices, which simplify/simplify.c:53-66, 604-735, 1070-1137 puts before the current statement of the
    block; the blocks made of the bodies of statements (shake/shake.c:448-562); and the C code of the
    backend (backend/c/generate.c:871-905), where the compiler of C is free in the order of operands.

    Variables are numbers, one for each declaration.  What calls do, the globals and the arrays are those
    of a host program, which may be any.  Integers do not overflow.  Left out: members of structures and references
    ([simplify.c:960-1012], same temporaries), virtual calls, conversions of arguments, groups. *)
From Coq Require Import ZArith List Bool Arith.
Import ListNotations.
Open Scope Z_scope.

(** The world outside of the local variables: globals, arrays that may be read at some indices only, functions
    that may fail, the tag of a value of a union. *)
Record host := Host {
  world : Type;
  glob : world -> nat -> Z;
  elem : world -> nat -> Z -> option Z;
  put : nat -> Z -> Z -> world -> option world;
  call : nat -> list Z -> world -> option (Z * world);
  tag : Z -> nat
}.

Inductive op := Add | Lt | Div.

Inductive expr :=
| Num (z : Z)
| Var (x : nat)
| Glob (g : nat)
| Elem (g : nat) (i : expr)
| Neg (e : expr)
(** [x++] *)
| Inc (x : nat)
| Bin (o : op) (a b : expr)
(** [a && b] *)
| And (a b : expr)
(** [c ? a : b] *)
| Cond (c a b : expr)
(** [e as T], [e] of a union and [T] its member with this number *)
| Cast (k : nat) (e : expr)
| Call (f : nat) (a : args)
with args := ANil | ACons (e : expr) (r : args).

Inductive stmt :=
| Skip
| Do (e : expr)
| Assign (x : nat) (e : expr)
| Store (g : nat) (i e : expr)
| If (c : expr) (p q : stmt)
| While (c : expr) (p : stmt)
| Block (b : block)
| Break
| Continue
| Return (e : expr)
(** the assertion that the tag of [e] is [k] *)
| Assert (k : nat) (e : expr)
with block := BNil | BCons (s : stmt) (b : block).

(** ast.c:3037-3064 [nodeIsLeftValue] *)
Fixpoint left_value (e : expr) : bool :=
  match e with Var _ | Glob _ | Elem _ _ => true | Cast _ e => left_value e | _ => false end.

(** ast.c:1683-1727 [isLiteralExprExt] *)
Fixpoint literal (e : expr) : bool :=
  match e with Num _ => true | Neg e => literal e | Cast _ e => literal e | _ => false end.

(** simplify.c:53-66 [nodeNeedsTemporaryVar] *)
Definition needs_temp (e : expr) : bool :=
  if left_value e || literal e then false
  else match e with Neg _ | Inc _ => false | _ => true end.

(** The visit of an expression with [n] the number of the next temporary: the next number, the statements put before
    the current statement, the expression that is left. *)
Fixpoint low (e : expr) (n : nat) {struct e} : nat * list stmt * expr :=
  match e with
  | Num _ | Var _ | Glob _ | Inc _ => (n, [], e)
  (* simplify.c:676-698 visitIndexExpr *)
  | Elem g i =>
      let '(n1, d, i') := low i n in
      if needs_temp i then (S n1, d ++ [Assign n1 i'], Elem g (Var n1)) else (n1, d, Elem g i')
  | Neg e => let '(n1, d, e') := low e n in (n1, d, Neg e')
  (* visitor.c:197-212 *)
  | Bin o a b =>
      let '(n1, d1, a') := low a n in
      let '(n2, d2, b') := low b n1 in (n2, d1 ++ d2, Bin o a' b')
  | And a b =>
      let '(n1, d1, a') := low a n in
      let '(n2, d2, b') := low b n1 in (n2, d1 ++ d2, And a' b')
  | Cond c a b =>
      let '(n1, d1, c') := low c n in
      let '(n2, d2, a') := low a n1 in
      let '(n3, d3, b') := low b n2 in (n3, d1 ++ d2 ++ d3, Cond c' a' b')
  (* simplify.c:604-674 visitCastExpr: the assertion gets a copy; the cast that is left reads the member *)
  | Cast k e => let '(n1, d, e') := low e n in (n1, d ++ [Assert k e'], e')
  (* simplify.c:700-735 visitCallExpr *)
  | Call f a =>
      let '(n1, d1) := low_first a n in
      let '(n2, d2, a') := low_second a n n1 in (n2, d1 ++ d2, Call f a')
  end
(** simplify.c:712-731: the temporaries of the arguments *)
with low_first (a : args) (n : nat) {struct a} : nat * list stmt :=
  match a with
  | ANil => (n, [])
  | ACons e r =>
      if needs_temp e then
        let '(n1, d1, e') := low e n in
        let '(n2, d2) := low_first r (S n1) in (n2, d1 ++ Assign n1 e' :: d2)
      else low_first r n
  end
(** simplify.c:741: the other arguments; [m] runs through the numbers of the temporaries again *)
with low_second (a : args) (m n : nat) {struct a} : nat * list stmt * args :=
  match a with
  | ANil => (n, [], ANil)
  | ACons e r =>
      if needs_temp e then
        let '(m1, _, _) := low e m in
        let '(n2, d2, r') := low_second r (S m1) n in (n2, d2, ACons (Var m1) r')
      else
        let '(n1, d1, e') := low e n in
        let '(n2, d2, r') := low_second r m n1 in (n2, d1 ++ d2, ACons e' r')
  end.

Fixpoint prefix (d : list stmt) (b : block) : block :=
  match d with [] => b | s :: d => BCons s (prefix d b) end.

(** shake.c:482-488, 533-539: a statement as a block *)
Definition blk (s : stmt) : stmt := match s with Block b => Block b | s => Block (BCons s BNil) end.

(** shake.c:448-562: bodies become blocks, except an [if] after [else]; the condition of a loop moves into it.
    A missing [else] is [Skip]. *)
Fixpoint shake (s : stmt) : stmt :=
  match s with
  | If c p q => If c (blk (shake p)) (match q with If _ _ _ | Skip => shake q | _ => blk (shake q) end)
  | While c p =>
      match literal c with
      | true => While c (blk (shake p))
      | false => While (Num 1) (Block (BCons (If c (blk (shake p)) (Block (BCons Break BNil))) BNil))
      end
  | Block b => Block (shake_block b)
  | s => s
  end
with shake_block (b : block) : block :=
  match b with BNil => BNil | BCons s b => BCons (shake s) (shake_block b) end.

(** The visit of a statement, as that of an expression.  simplify.c:1070-1103 visitBlockStmt: what the statements of a
    block put before them stays in the block. *)
Fixpoint low_stmt (s : stmt) (n : nat) {struct s} : nat * list stmt * stmt :=
  match s with
  | Skip | Break | Continue => (n, [], s)
  | Do e => let '(n1, d, e') := low e n in (n1, d, Do e')
  | Assign x e => let '(n1, d, e') := low e n in (n1, d, Assign x e')
  | Store g i e =>
      let '(n1, d1, i') := low i n in
      let '(n2, d2, i2) := if needs_temp i then (S n1, [Assign n1 i'], Var n1) else (n1, [], i') in
      let '(n3, d3, e') := low e n2 in (n3, d1 ++ d2 ++ d3, Store g i2 e')
  (* simplify.c:1105-1115 visitIfStmt *)
  | If c p q =>
      let '(n1, d1, c') := low c n in
      let '(n2, d2, p') := low_stmt p n1 in
      let '(n3, d3, q') := low_stmt q n2 in (n3, d1 ++ d2 ++ d3, If c' p' q')
  (* simplify.c:1125-1137 visitWhileStmt *)
  | While c p =>
      let '(n1, d1, c') := low c n in
      let '(n2, d2, p') := low_stmt p n1 in (n2, d1 ++ d2, While c' p')
  | Block b => let '(n1, b') := low_block b n in (n1, [], Block b')
  | Return e => let '(n1, d, e') := low e n in (n1, d, Return e')
  | Assert k e => let '(n1, d, e') := low e n in (n1, d, Assert k e')
  end
with low_block (b : block) (n : nat) {struct b} : nat * block :=
  match b with
  | BNil => (n, BNil)
  | BCons s b =>
      let '(n1, d, s') := low_stmt s n in
      let '(n2, b') := low_block b n1 in (n2, prefix d (BCons s' b'))
  end.

(** The body of a function whose variables are below [n] *)
Definition compile (b : block) (n : nat) : block := snd (low_block (shake_block b) n).

(** * What programs do *)
Section Run.
Variable h : host.

Record state := State { loc : nat -> Z; wd : world h }.

Definition comp (A : Type) := state -> option (A * state).
Definition ret {A} (a : A) : comp A := fun s => Some (a, s).
Definition bind {A B} (m : comp A) (k : A -> comp B) : comp B :=
  fun s => match m s with Some (a, s') => k a s' | None => None end.
Definition set_loc (x : nat) (z : Z) (s : state) : state :=
  State (fun y => if Nat.eqb x y then z else loc s y) (wd s).

Definition apply (o : op) (a b : Z) : comp Z := fun s =>
  match o with
  | Add => Some (a + b, s)
  | Lt => Some (if a <? b then 1 else 0, s)
  | Div => if b =? 0 then None else Some (Z.quot a b, s)
  end.

Definition read_elem (g : nat) (i : Z) : comp Z := fun s =>
  match elem h (wd s) g i with Some z => Some (z, s) | None => None end.
Definition do_call (f : nat) (l : list Z) : comp Z := fun s =>
  match call h f l (wd s) with Some (z, w) => Some (z, State (loc s) w) | None => None end.
Definition check (k : nat) (z : Z) : comp Z := fun s =>
  if Nat.eqb (tag h z) k then Some (z, s) else None.
Definition assign (x : nat) (z : Z) : comp unit := fun s => Some (tt, set_loc x z s).
Definition store (g : nat) (i z : Z) : comp unit := fun s =>
  match put h g i z (wd s) with Some w => Some (tt, State (loc s) w) | None => None end.

(** Both operands, the right one first if [right] *)
Definition both {A B} (right : bool) (m : comp A) (k : comp B) : comp (A * B) :=
  if right then bind k (fun b => bind m (fun a => ret (a, b)))
  else bind m (fun a => bind k (fun b => ret (a, b))).

(** The value of an expression; [pick] says where the right operand comes first, by the right operand. *)
Fixpoint eval (pick : expr -> bool) (pick_args : args -> bool) (e : expr) : comp Z :=
  match e with
  | Num z => ret z
  | Var x => fun s => Some (loc s x, s)
  | Glob g => fun s => Some (glob h (wd s) g, s)
  | Elem g i => bind (eval pick pick_args i) (read_elem g)
  | Neg e => bind (eval pick pick_args e) (fun z => ret (- z))
  | Inc x => fun s => Some (loc s x, set_loc x (loc s x + 1) s)
  | Bin o a b =>
      bind (both (pick b) (eval pick pick_args a) (eval pick pick_args b)) (fun '(x, y) => apply o x y)
  | And a b =>
      bind (eval pick pick_args a) (fun x =>
        if x =? 0 then ret 0 else bind (eval pick pick_args b) (fun y => ret (if y =? 0 then 0 else 1)))
  | Cond c a b =>
      bind (eval pick pick_args c) (fun x => if x =? 0 then eval pick pick_args b else eval pick pick_args a)
  | Cast k e => bind (eval pick pick_args e) (check k)
  | Call f a => bind (eval_args pick pick_args a) (do_call f)
  end
with eval_args (pick : expr -> bool) (pick_args : args -> bool) (a : args) : comp (list Z) :=
  match a with
  | ANil => ret []
  | ACons e r =>
      bind (both (pick_args r) (eval pick pick_args e) (eval_args pick pick_args r)) (fun '(z, l) => ret (z :: l))
  end.

Inductive signal := Next | Brk | Cont | Ret (z : Z).
(** [Undef]: undefined, or a call that does not come back; [More]: a loop has not ended in so many rounds. *)
Inductive res := Undef | More | Done (g : signal) (s : state).

Definition look {A} (o : option (A * state)) (k : A -> state -> res) : res :=
  match o with Some (a, s) => k a s | None => Undef end.

Fixpoint iter (n : nat) (round : state -> res) (s : state) : res :=
  match n with
  | O => More
  | S n =>
      match round s with
      | Done Next s' | Done Cont s' => iter n round s'
      | Done Brk s' => Done Next s'
      | r => r
      end
  end.

Section Exec.
Variables (pick : expr -> bool) (pick_args : args -> bool) (fuel : nat).
Notation ev := (eval pick pick_args).

(** Runs a statement in which no loop makes more than [fuel] rounds. *)
Fixpoint exec (s : stmt) (t : state) {struct s} : res :=
  match s with
  | Skip => Done Next t
  | Do e => look (ev e t) (fun _ t => Done Next t)
  | Assign x e => look (bind (ev e) (assign x) t) (fun _ t => Done Next t)
  | Store g i e => look (bind (both (pick e) (ev i) (ev e)) (fun '(x, y) => store g x y) t) (fun _ t => Done Next t)
  | If c p q => look (ev c t) (fun z t => if z =? 0 then exec q t else exec p t)
  | While c p => iter fuel (fun t => look (ev c t) (fun z t => if z =? 0 then Done Brk t else exec p t)) t
  | Block b => exec_block b t
  | Break => Done Brk t
  | Continue => Done Cont t
  | Return e => look (ev e t) (fun z t => Done (Ret z) t)
  | Assert k e => look (bind (ev e) (check k) t) (fun _ t => Done Next t)
  end
with exec_block (b : block) (t : state) {struct b} : res :=
  match b with
  | BNil => Done Next t
  | BCons s b => match exec s t with Done Next t' => exec_block b t' | r => r end
  end.
End Exec.
End Run.
Arguments State {h}.
Arguments loc {h}.
Arguments wd {h}.
Arguments Done {h}.
Arguments Undef {h}.
Arguments More {h}.
Arguments ret {h A}.
Arguments bind {h A B}.
Arguments look {h A}.
Arguments iter {h}.
Arguments both {h A B}.
Arguments set_loc {h}.
