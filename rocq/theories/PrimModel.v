(** Model of how the compiler treats primitive types: src/cxy/lang/frontend/types.c and
    ttable.c. What the LLVM backend does with them is in LlvmModel.v.
    Wrapped, aliased and enum types are seen through by these functions before anything
    else, and are not here; nor are non-primitive types. *)
From Coq Require Import ZArith.
From stdpp Require Import numbers list.
Local Open Scope Z_scope.

(** types.h:24-55 *)
Inductive prim := Bool | WChar | CChar | U8 | U16 | U32 | U64 | I8 | I16 | I32 | I64 | F32 | F64.
Global Instance prim_eq_dec : EqDecision prim. Proof. solve_decision. Defined.
Definition size (p : prim) : Z :=
  match p with
  | Bool | CChar | U8 | I8 => 1
  | U16 | I16 => 2
  | WChar | U32 | I32 | F32 => 4
  | U64 | I64 | F64 => 8
  end.
(** types.c:459-479, 510-612, 628-638 *)
Definition is_signed_int (p : prim) : bool := match p with I8 | I16 | I32 | I64 => true | _ => false end.
Definition is_unsigned (p : prim) : bool := match p with U8 | U16 | U32 | U64 => true | _ => false end.
Definition is_integer (p : prim) : bool := is_signed_int p || is_unsigned p.
Definition is_float (p : prim) : bool := match p with F32 | F64 => true | _ => false end.
Definition is_signed (p : prim) : bool := is_signed_int p || is_float p.
Definition is_char (p : prim) : bool := match p with WChar | CChar => true | _ => false end.
Definition is_numeric (p : prim) : bool := negb (bool_decide (p = Bool)).

(** types.c:159-235 on primitive types *)
Definition assignable (to from : prim) : bool :=
  if decide (to = from) then true
  else if is_signed_int to then
    if is_integer from then
      if is_unsigned from then size from <? size to else size from <=? size to
    else false
  else if is_unsigned to then is_integer from && (size from <=? size to)
  else if is_float to then is_float from || is_integer from
  else if is_char to then is_char from
  else bool_decide (to = from).

(** ttable.c:1336-1390 on primitive types; the float cases fall through to the case of
    wide characters. *)
Definition promote (left right : prim) : option prim :=
  let wide_char := if is_integer right then Some (if 4 <=? size right then right else U32) else None in
  if decide (left = right) then Some left
  else if is_integer left then
    if is_integer right then Some (if size right <=? size left then left else right)
    else if is_float right then Some right
    else if decide (right = WChar) then Some (if 4 <=? size left then left else U32)
    else None
  else if is_float left then
    if is_float right then Some (if size right <=? size left then left else right)
    else if is_integer right || bool_decide (right = WChar) then Some left
    else wide_char
  else if decide (left = WChar) then wide_char
  else None.

(** Integer literals, ast.h:370-380 and parser.c:475-487: [raw] is the token, a 64-bit
    number, and [neg] whether a minus sign is folded in. *)
Definition wrap64 (z : Z) : Z := z mod 2 ^ 64.
Definition to_i64 (z : Z) : Z := let m := z mod 2 ^ 64 in if m <? 2 ^ 63 then m else m - 2 ^ 64.
(** ast.h:1614-1619 *)
Definition literal_value (neg : bool) (raw : Z) : Z := if neg then to_i64 (- raw) else to_i64 raw.
(** ttable.c:1444-1454 *)
Definition type_for_literal (v : Z) : prim :=
  if (-128 <=? v) && (v <=? 127) then I8
  else if (-32768 <=? v) && (v <=? 32767) then I16
  else if (-2147483648 <=? v) && (v <=? 2147483647) then I32
  else I64.
Definition literal_type (neg : bool) (raw : Z) : prim := type_for_literal (literal_value neg raw).

(** types.c:1066-1091; the minimum is an i64 and the maximum a u64. *)
Definition min_max (p : prim) : option (Z * Z) :=
  match p with
  | Bool => Some (0, 1) | CChar => Some (0, 255) | WChar => Some (0, 4294967295)
  | I8 => Some (-128, 127) | U8 => Some (0, 255)
  | I16 => Some (-32768, 32767) | U16 => Some (0, 65535)
  | I32 => Some (-2147483648, 2147483647) | U32 => Some (0, 4294967295)
  | I64 => Some (-9223372036854775808, 9223372036854775807) | U64 => Some (0, 18446744073709551615)
  | F32 | F64 => None
  end.
(** ttable.c:1456-1464; [None] when an assertion fails *)
Definition in_range (p : prim) (min max : Z) : option bool :=
  if min <=? max then
    match min_max p with
    | None => None
    | Some (f, s) =>
      Some (if is_signed p then (min <=? to_i64 s) && (f <=? max) else (wrap64 min <=? s) && (f <=? max))
    end
  else None.

(** sema/cast.c:10-45: a cast of an integer literal; the literal is its sign flag and its
    64-bit word. *)
Definition cast_word (to : prim) (w : Z) : Z :=
  match to with
  | U8 => w mod 2 ^ 8 | U16 => w mod 2 ^ 16 | U32 => w mod 2 ^ 32
  | I8 => wrap64 ((w + 2 ^ 7) mod 2 ^ 8 - 2 ^ 7)
  | I16 => wrap64 ((w + 2 ^ 15) mod 2 ^ 16 - 2 ^ 15)
  | I32 => wrap64 ((w + 2 ^ 31) mod 2 ^ 32 - 2 ^ 31)
  | _ => w
  end.
(** The literal after the cast keeps its sign flag; its value is read by ast.h:1614-1619,
    which in both cases gives the word as a signed number. *)
Definition cast_literal (to : prim) (neg : bool) (raw : Z) : Z :=
  to_i64 (cast_word to (wrap64 (if neg then - raw else raw))).
