(** Model of the buffered stream and of the printing of integers,
    src/cxy/runtime/builtins.cxy:980-1024 and 572-582, 646-647.  [flush] is the
    virtual method that delivers bytes; what it was given is collected in [o_out]. *)
From Coq Require Import ZArith.
From stdpp Require Import numbers list.
From Verif Require Import FormatModel.
Local Open Scope nat_scope.

Record ostream := OStream { o_cap : nat; o_buf : list N; o_out : list N }.
(** builtins.cxy:985-989 *)
Definition o_new (capacity : nat) : ostream := OStream capacity [] [].
(** builtins.cxy:991 (the implementations write all they get). *)
Definition flush (s : ostream) (d : list N) : ostream := OStream (o_cap s) (o_buf s) (o_out s ++ d).
(** builtins.cxy:993-998 *)
Definition sync (s : ostream) : ostream :=
  if 0 <? length (o_buf s) then OStream (o_cap s) [] (o_out (flush s (o_buf s))) else s.
(** builtins.cxy:1000-1015 *)
Definition o_append (s : ostream) (d : list N) : ostream :=
  let room := o_cap s - length (o_buf s) in
  let '(s, room) := if (room <? length d) && (0 <? length (o_buf s)) then (sync s, o_cap s) else (s, room) in
  if length d <? room then OStream (o_cap s) (o_buf s ++ d) (o_out s)
  else flush s d.

Inductive oop := OAppend (d : list N) | OSync.
Definition o_step (s : ostream) (o : oop) : ostream :=
  match o with OAppend d => o_append s d | OSync => sync s end.
Definition o_run (cap : nat) (ops : list oop) : ostream := foldl o_step (o_new cap) ops.

(** ** Printing integers *)
(** sprintf %lld / %llu: [digits] prints a natural number in decimal. *)
Definition print_signed (z : Z) : list N :=
  if (z <? 0)%Z then 45%N :: digits 20 (Z.to_N (- z)) else digits 20 (Z.to_N z).
(** The cast to i64 of [<<], builtins.cxy:646-647. *)
Definition to_i64 (z : Z) : Z := ((z + 2 ^ 63) mod 2 ^ 64 - 2 ^ 63)%Z.
Definition print_integer (z : Z) : list N := print_signed (to_i64 z).
