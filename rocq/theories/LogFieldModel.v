(** Model of the fixed-width field of src/cxy/stdlib/log.cxy and of what it uses from
    src/cxy/runtime/builtins.cxy. *)
From Coq Require Import NArith.
From stdpp Require Import numbers list.
Local Open Scope N_scope.

(** builtins.cxy:1247 *)
Definition min (a b : N) : N := if a <? b then a else b.
(** builtins.cxy:455-463 with an explicit count; [None] when an assertion fails. *)
Definition substr (s : list N) (start count : N) : option (list N) :=
  if (start <=? N.of_nat (length s)) && (count <=? N.of_nat (length s) - start)
  then Some (take (N.to_nat count) (drop (N.to_nat start) s)) else None.
(** builtins.cxy:1425-1435, an ASCII character is printed as one byte. *)
Definition repeat_char (c : N) (count : N) : list N := replicate (N.to_nat count) c.
(** log.cxy:18-32: the bytes [os << FixedWidth(s, count)] prints. *)
Definition fixed_width (s : list N) (count : N) : option (list N) :=
  match substr s 0 (min count (N.of_nat (length s))) with
  | None => None
  | Some t => Some (t ++ if N.of_nat (length s) <? count then repeat_char 32 (count - N.of_nat (length s)) else [])
  end.
(** log.cxy:6-17: the levels in the order of their declaration, with their texts. *)
Inductive level : Type := TRACE | DEBUG | INFO | WARNING | ERROR.
Definition level_num (l : level) : N := match l with TRACE => 0 | DEBUG => 1 | INFO => 2 | WARNING => 3 | ERROR => 4 end.
Definition level_text (l : level) : list N :=
  match l with
  | TRACE => [84; 82; 67] | DEBUG => [68; 66; 71] | INFO => [73; 78; 70] | WARNING => [87; 82; 78] | ERROR => [69; 82; 82]
  end.
(** log.cxy:56-60 and the macro 65: what a log statement prints; [time] is the formatted
    time, [msg] the printed message. *)
Definition log (current lvl : level) (time tag msg : list N) : option (list N) :=
  if level_num current <=? level_num lvl then
    match fixed_width tag 10 with
    | Some field => Some (time ++ [32] ++ level_text lvl ++ [32] ++ field ++ [32] ++ msg ++ [10])
    | None => None
    end
  else Some [].
