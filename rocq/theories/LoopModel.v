(** Model of the lowering of [for] loops, src/cxy/lang/middle/simplify/simplify.c:121-347, and of the
    [while] loops and jumps the C backend makes of it (backend/c/generate.c:1518-1637).

    Variables, arrays and strings are numbers or values of the model; identifiers are resolved before this pass, so a
    number stands for one declaration.  Left out: the loops over custom ranges, which sema/for.c turns into
    [while] loops before; conversions between the types of the bounds (all values of a range are
    values of the type of the range); a missing body. *)
From Coq Require Import ZArith List Bool.
Import ListNotations.
Open Scope Z_scope.

(** Expressions: [Emit e] is a call that shows the value of [e] and returns it. *)
Inductive expr :=
| Num (z : Z)
| Var (v : nat)
| Add (a b : expr)
| Ne (a b : expr)
| Lt (a b : expr)
| Elem (a : nat) (i : expr)
| Emit (e : expr).

Record ity := Ity { i_signed : bool; i_bits : Z }.
Definition i64 := Ity true 64.
Definition u64 := Ity false 64.

(** Programs before the pass.  A [for] loop over a range has the type of the range. *)
Inductive stmt :=
| Skip
| Expr (e : expr)
| Assign (v : nat) (e : expr)
| Store (a : nat) (i e : expr)
| Seq (p q : stmt)
| If (e : expr) (p q : stmt)
| While (e : expr) (p : stmt)
| Switch (e : expr) (z : Z) (p q : stmt)
| Break
| Continue
| Return
| For (t : ity) (v : nat) (start stop : expr) (step : option expr) (body : stmt)
| ForArr (v i : nat) (a len : nat) (body : stmt)
| ForStr (v i : nat) (s : list Z) (body : stmt).

(** Programs after it.  [TLet v e p] is a block that declares [v]; [TStep t v e] is [v += e] at type
    [t]; a loop has an update (ast.c:967-987). *)
Inductive tstmt :=
| TSkip
| TExpr (e : expr)
| TAssign (v : nat) (e : expr)
| TStore (a : nat) (i e : expr)
| TStep (t : ity) (v : nat) (e : expr)
| TSeq (p q : tstmt)
| TIf (e : expr) (p q : tstmt)
| TWhile (e : expr) (p update : tstmt)
| TSwitch (e : expr) (z : Z) (p q : tstmt)
| TBreak
| TContinue
| TReturn
| TLet (v : nat) (e : expr) (p : tstmt)
(** [v = s[i]] for a string *)
| TChar (v : nat) (s : list Z) (i : expr).

(** simplify.c:315-330: the element is assigned before the body; in front of an empty block the advance that
    is linked behind the assignment stays there. *)
Definition with_element (assign advance body : tstmt) : tstmt :=
  match body with TSkip => TSeq assign advance | _ => TSeq assign body end.

(** The length a loop over a string reads: [array.len] of the type of strings, of which only the tag is set
    (simplify.c:243-246, ttable.c:508). *)
Definition string_type_len : Z := 0.

Fixpoint lower (p : stmt) : tstmt :=
  match p with
  | Skip => TSkip
  | Expr e => TExpr e
  | Assign v e => TAssign v e
  | Store a i e => TStore a i e
  | Seq p q => TSeq (lower p) (lower q)
  | If e p q => TIf e (lower p) (lower q)
  | While e p => TWhile e (lower p) TSkip
  | Switch e z p q => TSwitch e z (lower p) (lower q)
  | Break => TBreak
  | Continue => TContinue
  | Return => TReturn
  (* simplify.c:121-187; the flag [down] is not looked at *)
  | For t v start stop step body =>
      TLet v start
        (TWhile (Ne (Var v) stop) (lower body)
           (TStep t v (match step with Some e => e | None => Num 1 end)))
  (* simplify.c:189-347 *)
  | ForArr v i a len body =>
      let advance := TStep u64 i (Num 1) in
      TLet v (Num 0) (TLet i (Num 0)
        (TWhile (Lt (Var i) (Num (Z.of_nat len)))
           (with_element (TAssign v (Elem a (Var i))) advance (lower body)) advance))
  | ForStr v i s body =>
      let advance := TStep u64 i (Num 1) in
      TLet v (Num 0) (TLet i (Num 0)
        (TWhile (Lt (Var i) (Num string_type_len))
           (with_element (TChar v s (Var i)) advance (lower body)) advance))
  end.

(** Running the result. *)
Record state := State { s_var : nat -> Z; s_arr : nat -> list Z; s_out : list Z }.
Definition upd {A} (f : nat -> A) (i : nat) (x : A) : nat -> A := fun j => if Nat.eqb j i then x else f j.
Definition set_var (v : nat) (z : Z) (s : state) : state := State (upd (s_var s) v z) (s_arr s) (s_out s).
Definition set_arr (a : nat) (l : list Z) (s : state) : state := State (s_var s) (upd (s_arr s) a l) (s_out s).
Definition emit (k : Z) (s : state) : state := State (s_var s) (s_arr s) (s_out s ++ [k]).

(** The values of a type; signed arithmetic outside of them is undefined, unsigned arithmetic wraps
    around. *)
Definition lo (t : ity) : Z := if i_signed t then - 2 ^ (i_bits t - 1) else 0.
Definition hi (t : ity) : Z := if i_signed t then 2 ^ (i_bits t - 1) else 2 ^ i_bits t.
Definition fits (t : ity) (z : Z) : bool := (lo t <=? z) && (z <? hi t).
Definition plus (t : ity) (a b : Z) : option Z :=
  if i_signed t then (if fits t (a + b) then Some (a + b) else None)
  else Some ((a + b) mod 2 ^ i_bits t).

Definition nth_z {A} (l : list A) (i : Z) : option A :=
  if 0 <=? i then nth_error l (Z.to_nat i) else None.
Fixpoint replace {A} (l : list A) (i : nat) (x : A) : option (list A) :=
  match l, i with
  | [], _ => None
  | _ :: l, O => Some (x :: l)
  | y :: l, S i => option_map (cons y) (replace l i x)
  end.
Definition truth (b : bool) : Z := if b then 1 else 0.

(** [None] is undefined behaviour. *)
Fixpoint eval (e : expr) (s : state) : option (Z * state) :=
  match e with
  | Num z => Some (z, s)
  | Var v => Some (s_var s v, s)
  | Add a b => match eval a s with
               | Some (x, s) => match eval b s with
                                | Some (y, s) => option_map (fun z => (z, s)) (plus i64 x y)
                                | None => None end
               | None => None end
  | Ne a b => match eval a s with
              | Some (x, s) => match eval b s with
                               | Some (y, s) => Some (truth (negb (x =? y)), s)
                               | None => None end
              | None => None end
  | Lt a b => match eval a s with
              | Some (x, s) => match eval b s with
                               | Some (y, s) => Some (truth (x <? y), s)
                               | None => None end
              | None => None end
  | Elem a i => match eval i s with
                | Some (x, s) => option_map (fun z => (z, s)) (nth_z (s_arr s a) x)
                | None => None end
  | Emit e => match eval e s with
                | Some (x, s) => Some (x, emit x s)
                | None => None end
  end.

Inductive signal := Next | Brk | Cont | Ret.
(** [More]: not finished within the given number of steps. *)
Inductive res := End (g : signal) (s : state) | Undef | More.

Definition with_value (o : option (Z * state)) (k : Z -> state -> res) : res :=
  match o with Some (z, s) => k z s | None => Undef end.

(** Assignments, which both sides share *)
Definition assign (v : nat) (o : option (Z * state)) : res :=
  with_value o (fun z s => End Next (set_var v z s)).
Definition store (a : nat) (i e : expr) (s : state) : res :=
  with_value (eval i s) (fun x s => with_value (eval e s) (fun y s =>
    if 0 <=? x then match replace (s_arr s a) (Z.to_nat x) y with
                    | Some l => End Next (set_arr a l s)
                    | None => Undef end
    else Undef)).
(** The end of the scope of [v] *)
Definition unlet (v : nat) (old : Z) (r : res) : res :=
  match r with End g s => End g (set_var v old s) | r => r end.

(** generate.c:1518-1548, 1616-1637: [continue] is a jump to the update; [break] is that of C, which
    leaves a switch as well. *)
Fixpoint texec (fuel : nat) (p : tstmt) (s : state) : res :=
  match fuel with
  | O => More
  | S f =>
    match p with
    | TSkip => End Next s
    | TExpr e => with_value (eval e s) (fun _ s => End Next s)
    | TAssign v e => assign v (eval e s)
    | TStore a i e => store a i e s
    | TStep t v e => with_value (eval e s) (fun y s =>
        match plus t (s_var s v) y with Some z => End Next (set_var v z s) | None => Undef end)
    | TSeq p q => match texec f p s with End Next s => texec f q s | r => r end
    | TIf e p q => with_value (eval e s) (fun z s => if z =? 0 then texec f q s else texec f p s)
    | TWhile e p u => with_value (eval e s) (fun z s =>
        if z =? 0 then End Next s
        else match texec f p s with
             | End Next s | End Cont s =>
                 match texec f u s with End Next s => texec f (TWhile e p u) s | r => r end
             | End Brk s => End Next s
             | r => r
             end)
    | TSwitch e z p q => with_value (eval e s) (fun x s =>
        match (if x =? z then texec f p s else texec f q s) with
        | End Brk s => End Next s
        | r => r end)
    | TBreak => End Brk s
    | TContinue => End Cont s
    | TReturn => End Ret s
    | TLet v e p => with_value (eval e s) (fun z s' =>
        unlet v (s_var s' v) (texec f p (set_var v z s')))
    | TChar v l i => with_value (eval i s) (fun x s =>
        match nth_z l x with Some z => End Next (set_var v z s) | None => Undef end)
    end
  end.
