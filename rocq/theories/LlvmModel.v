(** Model of the instructions the LLVM backend picks for casts and binary operators on
    primitive types: src/cxy/lang/backend/llvm/context.cpp and binary.cpp, with the
    semantics of those instructions on integers from the LLVM language reference.
    Simplifications: rounding of floats is left out (a conversion to a float is described by
    the number that is converted, a float by the fraction it stands for); optimisation of
    undefined behaviour is left out, undefined results are the value [Undefined]. *)
From Coq Require Import ZArith.
From stdpp Require Import numbers list.
From Verif Require Import PrimModel.
Local Open Scope Z_scope.

(** llvm.cpp:111-134: the widths of the LLVM types *)
Definition width (p : prim) : Z := match p with Bool => 1 | _ => 8 * size p end.
(** A register holds a number below 2^width; signed instructions read it as signed. *)
Definition trunc_to (n x : Z) : Z := x mod 2 ^ n.
Definition as_signed (n x : Z) : Z := if x <? 2 ^ (n - 1) then x else x - 2 ^ n.
(** How a value of a primitive type is kept, and what a register stands for. *)
Definition enc (p : prim) (v : Z) : Z := trunc_to (width p) v.
Definition dec (p : prim) (x : Z) : Z := if is_signed_int p then as_signed (width p) x else x.

(** types.c:375-409, isTypeCastAssignable on primitive types *)
Definition castable (to from : prim) : bool :=
  if decide (to = from) then true
  else if is_integer to then bool_decide (from = Bool) || is_numeric from
  else if is_float to then is_numeric from
  else match to with
       | WChar => (is_unsigned from && (size from <=? 4)) || bool_decide (from = CChar)
       | CChar => (is_unsigned from && (size from <=? 4)) || bool_decide (from = WChar)
       | _ => false
       end.

(** context.cpp:404-458 *)
Inductive cast_op := Same | FPTrunc | FPExt | SIToFP | UIToFP | ZExtOrTrunc | SExtOrTrunc | FPToUI | FPToSI | Unreachable.
Definition cast_instr (to from : prim) : cast_op :=
  if decide (to = from) then Same
  else if is_float to then
    if is_float from then if size to <? size from then FPTrunc else FPExt
    else if is_unsigned from || is_char from then SIToFP
    else UIToFP
  else if is_integer to || is_char to then
    if is_unsigned from || is_char from then ZExtOrTrunc
    else if is_signed_int from then SExtOrTrunc
    else if is_float from then if is_unsigned to then FPToUI else FPToSI
    else Unreachable
  else Unreachable.

(** Values: an integer register, a float standing for the fraction [n/d], an undefined
    value, or a compiler that stopped. *)
Inductive value := Reg (x : Z) | Flt (n : Z) (d : positive) | Undefined | Invalid.
Definition int_or_undefined (lo hi x : Z) (r : Z) : value := if (lo <=? x) && (x <=? hi) then Reg r else Undefined.
Definition run_cast (to from : prim) (v : value) : value :=
  match cast_instr to from, v with
  | Same, _ => v
  | (FPTrunc | FPExt), Flt n d => Flt n d
  | SIToFP, Reg x => Flt (as_signed (width from) x) 1
  | UIToFP, Reg x => Flt x 1
  | ZExtOrTrunc, Reg x => Reg (trunc_to (width to) x)
  | SExtOrTrunc, Reg x => Reg (trunc_to (width to) (as_signed (width from) x))
  | FPToUI, Flt n d => let t := Z.quot n (Z.pos d) in int_or_undefined 0 (2 ^ width to - 1) t t
  | FPToSI, Flt n d => let t := Z.quot n (Z.pos d) in
      int_or_undefined (- 2 ^ (width to - 1)) (2 ^ (width to - 1) - 1) t (trunc_to (width to) t)
  | _, Undefined => Undefined
  | _, _ => Invalid
  end.

(** Binary operators *)
Inductive op := Add | Sub | Mul | Div | Mod | BAnd | BOr | BXor | Shl | Shr | Lt | Gt | Le | Ge | Eq | Ne.
Definition is_comparison (o : op) : bool := match o with Lt | Gt | Le | Ge | Eq | Ne => true | _ => false end.
(** types.c:440-457 *)
Definition bigger (lhs rhs : prim) : bool :=
  if is_float lhs then negb (is_float rhs) || (size rhs <? size lhs)
  else if is_float rhs then false else size rhs <? size lhs.
(** sema/binary.c:262-345: the type of the node *)
Definition node_type (o : op) (left right : prim) : option prim :=
  match promote left right with None => None | Some t => Some (if is_comparison o then Bool else t) end.
(** binary.cpp:89-113: the type both operands are brought to, and the type that decides
    the instruction (the type of the node when the operands have the same type). *)
Definition operand_type (left right : prim) : prim :=
  if decide (left = right) then left else if bigger left right then left else right.
Definition deciding_type (o : op) (left right : prim) (node : prim) : prim :=
  if decide (left = right) then node else operand_type left right.
(** binary.cpp:115-209: an instruction on floats, or on integers read as signed or not *)
Inductive flavour := FloatOp | SignedOp | UnsignedOp.
Definition instr_flavour (o : op) (t : prim) : flavour :=
  match o with
  | Add | Sub | Mul | Eq | Ne => if is_float t then FloatOp else UnsignedOp
  | BAnd | BOr | BXor | Shl | Shr => UnsignedOp
  | Div | Mod | Lt | Gt | Le | Ge => if is_float t then FloatOp else if is_signed t then SignedOp else UnsignedOp
  end.
Definition b2z (b : bool) : Z := if b then 1 else 0.
(** LLVM language reference: integer instructions of width [n]; [s] reads a register for
    the signed or unsigned variant. Right shifts are [lshr]. *)
Definition run_int (n : Z) (signed : bool) (o : op) (x y : Z) : value :=
  let s := if signed then as_signed n else (fun z => z) in
  match o with
  | Add => Reg (trunc_to n (x + y))
  | Sub => Reg (trunc_to n (x - y))
  | Mul => Reg (trunc_to n (x * y))
  | Div => if (y =? 0) || (signed && (s x =? - 2 ^ (n - 1)) && (s y =? -1)) then Undefined else Reg (trunc_to n (Z.quot (s x) (s y)))
  | Mod => if (y =? 0) || (signed && (s x =? - 2 ^ (n - 1)) && (s y =? -1)) then Undefined else Reg (trunc_to n (Z.rem (s x) (s y)))
  | BAnd => Reg (Z.land x y)
  | BOr => Reg (Z.lor x y)
  | BXor => Reg (Z.lxor x y)
  | Shl => if y <? n then Reg (trunc_to n (x * 2 ^ y)) else Undefined
  | Shr => if y <? n then Reg (x / 2 ^ y) else Undefined
  | Lt => Reg (b2z (s x <? s y))
  | Gt => Reg (b2z (s y <? s x))
  | Le => Reg (b2z (s x <=? s y))
  | Ge => Reg (b2z (s y <=? s x))
  | Eq => Reg (b2z (x =? y))
  | Ne => Reg (b2z (negb (x =? y)))
  end.
(** binary.cpp:93-: both operands cast, then the instruction; an integer instruction on
    float registers is no valid code. Operations on floats are not computed here. *)
Definition run_binary (o : op) (left right : prim) (l r : value) : value :=
  match node_type o left right with
  | None => Invalid
  | Some node =>
    let t := operand_type left right in
    match instr_flavour o (deciding_type o left right node), run_cast t left l, run_cast t right r with
    | SignedOp, Reg x, Reg y => run_int (width t) true o x y
    | UnsignedOp, Reg x, Reg y => run_int (width t) false o x y
    | _, _, _ => Invalid
    end
  end.

(** FCmpU..: true when either side is not a number. Floats are not a number ([None]) or
    ordered like the integers given. *)
Definition run_fcmp (o : op) (x y : option Z) : bool :=
  match x, y with
  | Some a, Some b =>
    match o with Lt => a <? b | Gt => b <? a | Le => a <=? b | Ge => b <=? a | Eq => a =? b | _ => negb (a =? b) end
  | _, _ => true
  end.
