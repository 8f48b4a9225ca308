(** Model of compile-time evaluation of literal expressions:
    src/cxy/lang/middle/eval/binary.c, unary.c, literal.c and eval.c (the preprocessor's
    preprocess/evaluate.c does the same arithmetic on the same literals).
    Simplifications: string, null and enum literals, types and paths are left out; float
    literals only appear as operands of prefix operators; warnings are not recorded. *)
From Coq Require Import ZArith.
From stdpp Require Import numbers list.
From Verif Require Import PrimModel LlvmModel.
Local Open Scope Z_scope.

(** Conversion of an integer to f64: round to nearest, ties to even, 53 bits. The numbers
    met here stay far below the largest float. *)
Definition rnd (z : Z) : Z :=
  let a := Z.abs z in
  if a <=? 2 ^ 53 then z
  else
    let m := 2 ^ (Z.log2 a - 52) in
    let q := a / m in
    let r := a mod m in
    let q' := if 2 * r <? m then q else if m <? 2 * r then q + 1 else if Z.even q then q else q + 1 in
    Z.sgn z * (q' * m).

Inductive lit :=
  | LInt (v : Z)                    (* value as integerLiteralValue reads it, ast.h:1614 *)
  | LBool (b : bool)
  | LChar (c : Z)
  | LFloat (n : Z) (d : positive).  (* n/d *)
(** [Err]: an error was reported. [UB]: undefined behaviour in the compiler. [Crash]:
    unreachable(). *)
Inductive res (A : Type) := Ok (a : A) | Err | UB | Crash.
Arguments Ok {A} a. Arguments Err {A}. Arguments UB {A}. Arguments Crash {A}.
Definition bind {A B} (x : res A) (f : A -> res B) : res B :=
  match x with Ok a => f a | Err => Err | UB => UB | Crash => Crash end.

(** literal.c:11-27, on integers, booleans and characters *)
Definition num (l : lit) : res Z :=
  match l with LInt v => Ok (rnd v) | LBool b => Ok (b2z b) | LChar c => Ok c | LFloat _ _ => Err end.
(** Conversions from a float holding the integer [v] *)
Definition f_to_i64 (v : Z) : res Z := if (- 2 ^ 63 <=? v) && (v <? 2 ^ 63) then Ok v else UB.
Definition f_to_u64 (v : Z) : res Z := if (0 <=? v) && (v <? 2 ^ 64) then Ok v else UB.
(** literal.c:55-60: with the sign flag set from the value; the word is read as signed *)
Definition flagged_result (v : Z) : res lit :=
  if v <? 0 then bind (f_to_i64 v) (fun x => Ok (LInt x)) else bind (f_to_u64 v) (fun x => Ok (LInt (to_i64 x))).
(** literal.c:85-97: the sign flag is not set; it overlays the low byte of the node's [lhs]
    pointer (ast.h:370-378, 636-641), and [low] says whether that byte is not 0. *)
Definition int_result (low : bool) (v : Z) : res lit :=
  bind (f_to_i64 v) (fun x => if low then Ok (LInt x) else bind (f_to_u64 v) (fun y => Ok (LInt (to_i64 y)))).
(** literal.c:47-106 *)
Definition set_num (low : bool) (lhs rhs : lit) (v : Z) : res lit :=
  match lhs, rhs with
  | LBool _, LBool _ => Ok (LBool (v =? 0))
  | LBool _, (LChar _ | LInt _) => flagged_result v
  | LChar _, (LBool _ | LChar _) => if (0 <=? v) && (v <? 2 ^ 32) then Ok (LChar v) else UB
  | LChar _, LInt _ => flagged_result v
  | LInt _, (LInt _ | LBool _ | LChar _) => int_result low v
  | _, _ => Err
  end.

(** C operators on i64 *)
Definition i64_op (o : op) (x y : Z) : res Z :=
  match o with
  | Div => if (y =? 0) || ((x =? - 2 ^ 63) && (y =? -1)) then UB else Ok (Z.quot x y)
  | Mod => if (y =? 0) || ((x =? - 2 ^ 63) && (y =? -1)) then UB else Ok (Z.rem x y)
  | Shl => if (y <? 0) || (64 <=? y) || (x <? 0) || (2 ^ 63 <=? x * 2 ^ y) then UB else Ok (x * 2 ^ y)
  | Shr => if (y <? 0) || (64 <=? y) then UB else Ok (x / 2 ^ y)
  | BAnd => Ok (Z.land x y)
  | BOr => Ok (Z.lor x y)
  | BXor => Ok (Z.lxor x y)
  | _ => Err
  end.
(** binary.c:90-300, 385-440 *)
Definition fold_op (low : bool) (o : op) (l r : lit) : res lit :=
  match o with
  | Add | Sub | Mul =>
    match o, l, r with
    | Add, LBool _, LBool _ => Err
    | _, _, _ =>
      bind (num l) (fun x => bind (num r) (fun y =>
        set_num low l r (rnd (match o with Add => x + y | Sub => x - y | _ => x * y end))))
    end
  | Div | Mod | Shl | Shr | BAnd | BOr | BXor =>
    bind (num l) (fun x => bind (num r) (fun y => bind (f_to_i64 x) (fun x' => bind (f_to_i64 y) (fun y' =>
      bind (i64_op o x' y') (fun v => set_num low l r (rnd v))))))
  | Lt => bind (num l) (fun x => bind (num r) (fun y => Ok (LBool (x <? y))))
  | Gt => bind (num l) (fun x => bind (num r) (fun y => Ok (LBool (y <? x))))
  | Le => bind (num l) (fun x => bind (num r) (fun y => Ok (LBool (x <=? y))))
  | Ge => bind (num l) (fun x => bind (num r) (fun y => Ok (LBool (y <=? x))))
  | Eq => bind (num l) (fun x => bind (num r) (fun y => Ok (LBool (x =? y))))
  | Ne => bind (num l) (fun x => bind (num r) (fun y => Ok (LBool (negb (x =? y)))))
  end.
(** binary.c:302-343 *)
Definition fold_logic (conj : bool) (l r : lit) : res lit :=
  bind (num l) (fun x => bind (num r) (fun y =>
    Ok (LBool (if conj then negb (x =? 0) && negb (y =? 0) else negb (x =? 0) || negb (y =? 0))))).

Inductive unop := Neg | Plus | Not | Compl.
(** literal.c:109-160 *)
Definition as_bool (l : lit) : bool :=
  match l with LBool b => b | LInt v => negb (v =? 0) | LChar c => negb (c =? 0) | LFloat n _ => negb (n =? 0) end.
(** unary.c:40-92, 109-144. The node itself is never a float literal, so that the result of
    a prefix minus is always an integer. *)
Definition fold_unary (u : unop) (l : lit) : res lit :=
  match u, l with
  | Neg, LInt v => flagged_result (- rnd v)
  | Plus, LInt v => flagged_result (rnd v)
  | Neg, LFloat n d => flagged_result (Z.quot (- n) (Z.pos d))
  | Plus, LFloat n d => flagged_result (Z.quot n (Z.pos d))
  | Not, _ => Ok (LBool (negb (as_bool l)))
  | _, _ => Err
  end.

(** Expressions; [low] as in [int_result]. *)
Inductive expr :=
  | Lit (l : lit)
  | Group (e : expr)
  | Un (u : unop) (e : expr)
  | Bin (low : bool) (o : op) (e1 e2 : expr)
  | And (e1 e2 : expr)
  | Or (e1 e2 : expr).
(** ast.c:1659-1681 *)
Fixpoint is_literal (e : expr) : bool :=
  match e with Lit _ => true | Group e => is_literal e | Un _ e => is_literal e | _ => false end.
(** What is left in a node after its evaluation: a literal, or a parenthesised literal. *)
Inductive node := NLit (l : lit) | NGroup.
Definition lit_of (n : node) : res lit := match n with NLit l => Ok l | NGroup => Crash end.
(** eval.c:103-111 evaluates no literal, and takes a group around a literal for one;
    eval.c:23-32, unary.c:109-, binary.c:490-533. *)
Fixpoint eval (e : expr) : res node :=
  match e with
  | Lit l => Ok (NLit l)
  | Group e => if is_literal e then Ok NGroup else eval e
  | Un u e =>
    bind (eval e) (fun n => match n with NLit l => bind (fold_unary u l) (fun x => Ok (NLit x)) | NGroup => Err end)
  | Bin low o e1 e2 =>
    bind (eval e1) (fun n1 => bind (eval e2) (fun n2 =>
      bind (lit_of n1) (fun l => bind (lit_of n2) (fun r => bind (fold_op low o l r) (fun x => Ok (NLit x))))))
  | And e1 e2 =>
    bind (eval e1) (fun n1 => bind (eval e2) (fun n2 =>
      bind (lit_of n1) (fun l => bind (lit_of n2) (fun r => bind (fold_logic true l r) (fun x => Ok (NLit x))))))
  | Or e1 e2 =>
    bind (eval e1) (fun n1 => bind (eval e2) (fun n2 =>
      bind (lit_of n1) (fun l => bind (lit_of n2) (fun r => bind (fold_logic false l r) (fun x => Ok (NLit x))))))
  end.
