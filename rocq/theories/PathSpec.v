(** Path texts: runs of separators count as one. *)
From Coq Require Import NArith.
From stdpp Require Import numbers list.

Notation sep := 47%N.
Fixpoint collapse (p : list N) : list N :=
  match p with
  | [] => []
  | c :: r => match r with
              | d :: _ => if decide (c = sep /\ d = sep) then collapse r else c :: collapse r
              | [] => [c]
              end
  end.
(** Two texts which name the same file under every file system. *)
Definition same_path (p q : list N) : Prop := collapse p = collapse q.
Definition doubled (p : list N) : Prop := exists a b, p = a ++ [sep; sep] ++ b.
