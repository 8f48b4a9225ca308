(** Model of the string view [__string] and the comparison of [String] of the
    runtime, src/cxy/runtime/builtins.cxy:384-549 and 886-898.  A view is the list
    of its [_size] bytes ([N] below 256); the memory in front of and behind it is
    not readable.  Sizes stay below 2^63. *)
From Coq Require Import ZArith.
From stdpp Require Import numbers list.
Local Open Scope nat_scope.

(** [SOob]: a read outside the view; [SAssert]: a failed assert!. *)
Inductive sres (A : Type) : Type := SOk (a : A) | SOob | SAssert.
Arguments SOk {A} a. Arguments SOob {A}. Arguments SAssert {A}.

(** The C library: memcmp(s + j, part, |part|) == 0. *)
Definition memcmp_at (s : list N) (j : nat) (part : list N) : sres bool :=
  if j + length part <=? length s
  then SOk (bool_decide (take (length part) (drop j s) = part)) else SOob.

(** The C library: strncmp over [n] bytes, stopping at a NUL. *)
Fixpoint strncmp (n : nat) (a b : list N) : sres Z :=
  match n with
  | O => SOk 0%Z
  | S n =>
    match a, b with
    | x :: a, y :: b =>
      if negb (x =? y)%N then SOk (Z.of_N x - Z.of_N y)%Z
      else if (x =? 0)%N then SOk 0%Z else strncmp n a b
    | _, _ => SOob
    end
  end.

(** builtins.cxy:427-434 *)
Definition str_compare (a b : list N) : sres Z :=
  if length a =? length b then strncmp (length a) a b
  else if length a <? length b then SOk (-1)%Z else SOk 1%Z.

(** builtins.cxy:477-485 *)
Fixpoint indexOf_loop (s : list N) (ch : N) (i : nat) : option nat :=
  match s with
  | [] => None
  | c :: s => if (c =? ch)%N then Some i else indexOf_loop s ch (S i)
  end.
Definition indexOf (s : list N) (ch : N) : option nat := indexOf_loop s ch 0.

(** builtins.cxy:487-498: the loop stops before index 0. *)
Fixpoint rIndexOf_loop (s : list N) (ch : N) (i : nat) : option nat :=
  match i with
  | O => None
  | S i' => if bool_decide (s !! i = Some ch) then Some i else rIndexOf_loop s ch i'
  end.
Definition rIndexOf (s : list N) (ch : N) : option nat :=
  if length s =? 0 then None else rIndexOf_loop s ch (length s - 1).

(** builtins.cxy:454-462, with [count] = -1 as [None]. *)
Definition substr (s : list N) (start : nat) (count : option nat) : sres (list N) :=
  if start <=? length s then
    match count with
    | None => SOk (take (length s - start) (drop start s))
    | Some c => if c <=? length s - start then SOk (take c (drop start s)) else SAssert
    end
  else SAssert.

(** builtins.cxy:500-510 *)
Definition str_eq (a b : list N) : sres bool :=
  match str_compare a b with SOk c => SOk (c =? 0)%Z | SOob => SOob | SAssert => SAssert end.
Definition endswith (s suffix : list N) : sres bool :=
  if length s <? length suffix then SOk false
  else match substr s (length s - length suffix) None with
       | SOk t => str_eq t suffix | SOob => SOob | SAssert => SAssert end.
Definition startswith (s prefix : list N) : sres bool :=
  if length s <? length prefix then SOk false
  else match substr s 0 (Some (length prefix)) with
       | SOk t => str_eq t prefix | SOob => SOob | SAssert => SAssert end.

(** builtins.cxy:512-526; [part] is not empty, so [i] never goes below 0. *)
Fixpoint find_loop (s part : list N) (i j : nat) : sres (option nat) :=
  match i with
  | O => SOk None
  | S i' =>
    if length part <=? i then
      match memcmp_at s j part with
      | SOk true => SOk (Some j)
      | SOk false => find_loop s part i' (S j)
      | SOob => SOob | SAssert => SAssert
      end
    else SOk None
  end.
Definition find (s part : list N) : sres (option nat) :=
  if length part =? 0 then SOk (if length s =? 0 then None else Some (length s - 1))
  else find_loop s part (length s) 0.

(** builtins.cxy:528-542 *)
Fixpoint rfind_loop (s part : list N) (n : nat) : sres (option nat) :=   (* j = n - 1 *)
  match n with
  | O => SOk None
  | S j => match memcmp_at s j part with
           | SOk true => SOk (Some j)
           | SOk false => rfind_loop s part j
           | SOob => SOob | SAssert => SAssert
           end
  end.
Definition rfind (s part : list N) : sres (option nat) :=
  if length part <=? length s then
    if length part =? 0 then SOk (if length s =? 0 then None else Some (length s - 1))
    else rfind_loop s part (S (length s - length part))
  else SOk None.

(** isspace in the C locale *)
Definition isSpace (c : N) : bool := ((9 <=? c) && (c <=? 13) || (c =? 32))%N.
(** builtins.cxy:402-425 *)
Fixpoint trimLeft (s : list N) : list N :=
  match s with
  | c :: s' => if isSpace c then trimLeft s' else s
  | [] => []
  end.
Fixpoint trimRight_loop (s : list N) (i : nat) : nat :=
  match i with
  | O => O
  | S i' => match s !! i' with
            | Some c => if isSpace c then trimRight_loop s i' else i
            | None => i
            end
  end.
Definition trimRight (s : list N) : list N := take (trimRight_loop s (length s)) s.
Definition trim (s : list N) : list N := trimRight (trimLeft s).

(** ** class String *)
(** <i32>: the low 32 bits of a u64 difference, as a signed number. *)
Definition to_i32 (z : Z) : Z := ((z + 2 ^ 31) mod 2 ^ 32 - 2 ^ 31)%Z.
(** A [char] is signed (C char on x86). *)
Definition schar (c : N) : Z := if (c <? 128)%N then Z.of_N c else (Z.of_N c - 256)%Z.
(** builtins.cxy:886-898 (the range loop walks both texts in step). *)
Fixpoint bytes_compare (a b : list N) : Z :=
  match a, b with
  | x :: a, y :: b => if (x =? y)%N then bytes_compare a b else (schar x - schar y)%Z
  | _, _ => 0%Z
  end.
(** Only the sizes matter when they differ, so the sizes are kept apart. *)
Definition size_compare (n m : Z) : Z := to_i32 (n - m).
Definition String_compare (a b : list N) : Z :=
  if length a =? length b then bytes_compare a b
  else size_compare (Z.of_nat (length a)) (Z.of_nat (length b)).
