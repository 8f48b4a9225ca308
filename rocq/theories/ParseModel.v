(** Model of the expression parser, src/cxy/lang/frontend/parser.c:669-932, 999-1011,
    1266-1290, 1356-1390, 1702-1752, 1791-1800 and 335-354 with the operator table of operator.h, on lists of
    tokens. Modelled: identifiers, integers, symbols, prefix and postfix operators, index
    and call expressions, parentheses and tuples, casts, binary operators, assignment and
    the conditional operator. Left out: other literals, paths, macros, member access,
    structs, closures, types (a cast names its type by one identifier), attributes, and
    error messages. *)
From stdpp Require Import numbers list.

(** operator.h:15-54 *)
Inductive op :=
  | Add | Sub | Mul | Div | Mod | BAnd | BOr | BXor | Shl | Shr
  | Eq | Ne | Is | Gt | Lt | Geq | Leq | LAnd | LOr | Range | Catch.
(** operator.h:62-76, without Spread *)
Inductive unop := PreDec | PreInc | Minus | Plus | Deref | Not | Compl | Refof | Move | Await | Delete | Ptrof.
(** The assignment operators: = and those with an operator (operator.h:56-60) *)
Inductive tok :=
  | TId (x : nat) | TInt (k : nat)
  | TPlus | TMinus | TMult | TDiv | TMod | TBAnd | TBOr | TBXor | TShl | TShr
  | TEqual | TNotEqual | TIs | TGreater | TLess | TGreaterEqual | TLessEqual
  | TLAnd | TLOr | TDotDot | TCatch
  | TPlusPlus | TMinusMinus | TLNot | TBNot | TAwait | TDelete | TPtrof
  | TAssign (o : option op)
  | TQuestion | TColon | TLParen | TRParen | TComma | TIndex | TRBracket | TDiscard | TFunc.
Global Instance op_eq_dec : EqDecision op. Proof. solve_decision. Defined.
Global Instance tok_eq_dec : EqDecision tok. Proof. solve_decision. Defined.
(** operator.c:84-97 with the precedences of operator.h *)
Definition prec (o : op) : nat :=
  match o with
  | Mul | Div | Mod => 2
  | Add | Sub => 3
  | Shl | Shr => 4
  | Gt | Lt | Geq | Leq => 5
  | Eq | Ne | Is => 6
  | BAnd => 7 | BXor => 8 | BOr => 9
  | Catch => 10 | LAnd => 11 | LOr => 12 | Range => 13
  end.
(** operator.c:64-82 *)
Definition max_prec : nat := 14.
(** operator.c:136-146 *)
Definition binop_of (t : tok) : option op :=
  match t with
  | TPlus => Some Add | TMinus => Some Sub | TMult => Some Mul | TDiv => Some Div | TMod => Some Mod
  | TBAnd => Some BAnd | TBOr => Some BOr | TBXor => Some BXor | TShl => Some Shl | TShr => Some Shr
  | TEqual => Some Eq | TNotEqual => Some Ne | TIs => Some Is | TGreater => Some Gt | TLess => Some Lt
  | TGreaterEqual => Some Geq | TLessEqual => Some Leq | TLAnd => Some LAnd | TLOr => Some LOr
  | TDotDot => Some Range | TCatch => Some Catch
  | _ => None
  end.
(** operator.c:112-122 *)
Definition prefix_of (t : tok) : option unop :=
  match t with
  | TMinusMinus => Some PreDec | TPlusPlus => Some PreInc | TMinus => Some Minus | TPlus => Some Plus
  | TMult => Some Deref | TLNot => Some Not | TBNot => Some Compl | TBAnd => Some Refof | TLAnd => Some Move
  | TAwait => Some Await | TDelete => Some Delete | TPtrof => Some Ptrof
  | _ => None
  end.

Inductive expr :=
  | EId (x : nat)
  | EInt (neg : bool) (k : nat)
  | ESym (x : nat)
  | EGroup (e : expr)
  | ETuple (es : list expr)
  | ECast (t : nat) (e : expr)
  | EIndex (e i : expr)
  | ECall (f : expr) (args : list expr)
  | EPost (inc : bool) (e : expr)
  | EUn (u : unop) (e : expr)
  | EBin (o : op) (l r : expr)
  | EDiscard
  | EAssign (o : option op) (l r : expr)
  | ETern (c a b : expr)
  | EElvis (c b : expr).

(** Results: [None]: out of fuel; [Some None]: a syntax error (or something left out). *)
Definition result : Type := option (option (expr * list tok)).
Definition ok (e : expr) (ts : list tok) : result := Some (Some (e, ts)).
Definition err : result := Some None.
Definition bind (r : result) (f : expr -> list tok -> result) : result :=
  match r with None => None | Some None => Some None | Some (Some (e, ts)) => f e ts end.
(** One constructor for each function; [MPost e] and [MLoop p l] are the loops of [postfix]
    and [binary], [MMore es] that of [parenExpr], [MArgs es] that of [parseMany]. *)
Inductive mode :=
  | MTern | MAssign | MBin (p : nat) | MLoop (p : nat) (l : expr) | MPrefix | MPost (e : expr)
  | MPrimary | MMore (es : list expr) | MArgs (es : list expr).
Fixpoint parse (n : nat) (m : mode) (ts : list tok) : result :=
  match n with
  | O => None
  | S n =>
    match m with
    | MTern =>                                                    (* parser.c:910-932 *)
      bind (parse n MAssign ts) (fun c ts =>
        match ts with
        | TQuestion :: TColon :: ts => bind (parse n MTern ts) (fun b ts => ok (EElvis c b) ts)
        | TQuestion :: ts =>
          bind (parse n MTern ts) (fun a ts =>
            match ts with
            | TColon :: ts => bind (parse n MTern ts) (fun b ts => ok (ETern c a b) ts)
            | _ => err
            end)
        | _ => ok c ts
        end)
    | MAssign =>                                                  (* parser.c:890-908 *)
      bind (parse n MPrefix ts) (fun l ts =>
        match ts with
        | TAssign o :: ts => bind (parse n MAssign ts) (fun r ts => ok (EAssign o l r) ts)
        | _ => parse n (MLoop max_prec l) ts
        end)
    | MBin p => bind (parse n MPrefix ts) (fun l ts => parse n (MLoop p l) ts)    (* 852-858 *)
    | MLoop p l =>                                                (* parser.c:860-887 *)
      match ts with
      | [] => ok l ts
      | t :: ts' =>
        if bool_decide (t = TMinus /\ head ts' = Some TFunc) then ok l ts
        else match binop_of t with
             | None => ok l ts
             | Some o =>
               if (p <=? prec o)%nat then ok l ts
               else if bool_decide (o = Catch /\ head ts' = Some TDiscard)
               then parse n (MLoop p (EBin o l EDiscard)) (tail ts')
               else bind (parse n (MBin (prec o)) ts') (fun r ts => parse n (MLoop p (EBin o l r)) ts)
             end
      end
    | MPrefix =>                                                  (* parser.c:765-848 *)
      match ts with
      | TMinus :: TInt k :: ts => ok (EInt true k) ts
      | TPlus :: TInt k :: ts => ok (EInt false k) ts
      | TColon :: TId x :: ts => ok (ESym x) ts
      | TColon :: _ => err
      | t :: ts' =>
        match prefix_of t with
        | Some u => bind (parse n MPrefix ts') (fun e ts => ok (EUn u e) ts)
        | None => bind (parse n MPrimary ts) (fun e ts => parse n (MPost e) ts)
        end
      | [] => err
      end
    | MPost e =>                                                  (* parser.c:682-752 *)
      match ts with
      | TPlusPlus :: ts => ok (EPost true e) ts
      | TMinusMinus :: ts => ok (EPost false e) ts
      | TIndex :: ts =>
        bind (parse n MTern ts) (fun i ts =>
          match ts with TRBracket :: ts => parse n (MPost (EIndex e i)) ts | _ => err end)
      | TLParen :: ts =>
        bind (parse n (MArgs []) ts) (fun a ts =>
          match a with ETuple es => parse n (MPost (ECall e es)) ts | _ => err end)
      | TLNot :: _ => err                                         (* macros, left out *)
      | _ => ok e ts
      end
    | MPrimary =>                                                 (* parser.c:1702-1752, 1266-1290 *)
      match ts with
      | TInt k :: ts => ok (EInt false k) ts
      | TId x :: ts => ok (EId x) ts
      | TLParen :: ts =>
        bind (parse n MTern ts) (fun e ts =>
          match ts with
          | TRParen :: ts => ok (EGroup e) ts
          | TComma :: _ => parse n (MMore [e]) ts
          | _ => err
          end)
      | TLess :: TId t :: TGreater :: ts => bind (parse n MTern ts) (fun e ts => ok (ECast t e) ts)  (* 999-1011 *)
      | _ => err
      end
    | MMore es =>                                                 (* parser.c:1281-1290 *)
      match ts with
      | TComma :: ts => bind (parse n MTern ts) (fun e ts => parse n (MMore (es ++ [e])) ts)
      | TRParen :: ts => ok (ETuple es) ts
      | _ => err
      end
    | MArgs es =>                                                 (* parser.c:335-354, 1374-1390 *)
      match ts with
      | [] => err
      | TRParen :: ts => ok (ETuple es) ts
      | _ =>
        bind (parse n MTern ts) (fun e ts =>
          match ts with
          | TComma :: ts => parse n (MArgs (es ++ [e])) ts
          | TRParen :: _ => parse n (MArgs (es ++ [e])) ts
          | _ => err
          end)
      end
    end
  end.
(** parser.c:1791-1800 on a complete input *)
Definition parse_expr (ts : list tok) : option expr :=
  match parse (9 * length ts + 9) MTern ts with
  | Some (Some (e, [])) => Some e
  | _ => None
  end.
