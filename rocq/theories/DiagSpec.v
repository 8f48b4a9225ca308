(** What a diagnostic is to quote. *)
From stdpp Require Import numbers list.
From Verif Require Import FormatSpec.

(** [text] is the line of [f] that holds the position [off]; it begins at [b].  A line break
    belongs to the line it ends. *)
Definition is_line (f : list N) (off b : nat) (text : list N) : Prop :=
  exists pre post, f = pre ++ text ++ post /\ b = length pre /\
    (pre = [] \/ last pre = Some 10%N) /\ 10%N ∉ text /\ (post = [] \/ head post = Some 10%N) /\
    b <= off <= b + length text.
Definition blanks (n : nat) : list N := replicate n 32%N.
Definition carets (n : nat) : list N := replicate n 94%N.
(** The quotation of one line: a gutter, the line behind its number [num] (right-aligned to
    [w]), and markers below the columns from [col] on. *)
Definition gutter (w : nat) : list N := blanks (w + 1) ++ [124%N].
Definition numbered (w : nat) (num text : list N) : list N :=
  blanks (w - length num) ++ num ++ [32; 124]%N ++ text ++ [10%N].
Definition marked (w col n : nat) : list N := gutter w ++ blanks col ++ carets n ++ [10%N].
