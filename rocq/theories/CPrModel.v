(** Model of how the C backend writes expressions, backend/c/generate.c:64-81, 796-811, 871-1003, 1046-1069, on the
    trees of the parser (C41). Text is a list of characters of operators, spaces and words (names, numbers, types).
    Left out: tuples, symbols, members, literals but integers, union casts and casts of references (950-972), and
    the operators [is], [catch], [..], [await], [delete], [&&] (move) and [ptrof], which do not reach the backend or are
    written as others. The name of a type is one word. *)
From stdpp Require Import numbers list.
From Verif Require Import ParseModel.

Inductive char :=
  | Csp | Cplus | Cminus | Cstar | Cslash | Cpercent | Camp | Cbar | Ccaret | Clt | Cgt | Ceq | Cbang | Ctilde
  | Cquest | Ccolon | Clpar | Crpar | Clbr | Crbr | Ccomma.
Global Instance char_eq_dec : EqDecision char. Proof. solve_decision. Defined.

Inductive word := Name (x : nat) | Number (k : nat) | TypeName (t : nat).
Inductive piece := W (w : word) | Ch (c : char).

(** operator.c:27-37 [getBinaryOpString] with operator.h:15-54 *)
Definition op_string (o : op) : list char :=
  match o with
  | Add => [Cplus] | Sub => [Cminus] | Mul => [Cstar] | Div => [Cslash] | Mod => [Cpercent]
  | BAnd => [Camp] | BOr => [Cbar] | BXor => [Ccaret] | Shl => [Clt; Clt] | Shr => [Cgt; Cgt]
  | Eq => [Ceq; Ceq] | Ne => [Cbang; Ceq] | Gt => [Cgt] | Lt => [Clt] | Geq => [Cgt; Ceq] | Leq => [Clt; Ceq]
  | LAnd => [Camp; Camp] | LOr => [Cbar; Cbar]
  | Is | Range | Catch => []
  end.
(** operator.c:39-49 [getAssignOpString] *)
Definition assign_string (o : option op) : list char :=
  match o with Some o => op_string o ++ [Ceq] | None => [Ceq] end.
(** operator.c:9-19 [getUnaryOpString] with operator.h:62-76 *)
Definition un_string (u : unop) : list char :=
  match u with
  | PreDec => [Cminus; Cminus] | PreInc => [Cplus; Cplus] | Minus => [Cminus] | Plus => [Cplus] | Deref => [Cstar]
  | Not => [Cbang] | Compl => [Ctilde] | Refof => [Camp]
  | Move | Await | Delete | Ptrof => []
  end.

Definition chars (l : list char) : list piece := map Ch l.
(** generate.c:64-81 *)
Definition separated (ls : list (list piece)) : list piece :=
  match ls with [] => [] | l :: ls => l ++ concat (map (app (chars [Ccomma; Csp])) ls) end.

Fixpoint print (e : expr) : list piece :=
  match e with
  | EId x => [W (Name x)]
  (* generate.c:796-811 *)
  | EInt neg k => if neg then [Ch Cminus; W (Number k)] else [W (Number k)]
  (* 983-989 *)
  | EGroup e => Ch Clpar :: print e ++ [Ch Crpar]
  (* 977-980 *)
  | ECast t e => Ch Clpar :: W (TypeName t) :: Ch Crpar :: print e
  (* 1062-1069 *)
  | EIndex a i => print a ++ Ch Clbr :: print i ++ [Ch Crbr]
  (* 999-1003 *)
  | ECall f es => print f ++ Ch Clpar :: separated (map print es) ++ [Ch Crpar]
  (* 902-923, 1053-1060 *)
  | EPost inc e => print e ++ chars (if inc then [Cplus; Cplus] else [Cminus; Cminus])
  | EUn u e => chars (un_string u) ++ print e
  (* 871-879 *)
  | EBin o l r => print l ++ chars (Csp :: op_string o ++ [Csp]) ++ print r
  (* 881-889 *)
  | EAssign o l r => print l ++ chars (Csp :: assign_string o ++ [Csp]) ++ print r
  (* 891-902 *)
  | ETern c a b => print c ++ Ch Cquest :: Ch Csp :: print a ++ Ch Ccolon :: Ch Csp :: print b
  | EElvis c b => print c ++ Ch Cquest :: Ch Ccolon :: Ch Csp :: print b
  | ESym _ | ETuple _ | EDiscard => []
  end.
