(** Model of the analysis of returns in the type checker: [ctx->returnState] (sema/check.c, if.c, for.c, switch.c,
    match.c, binary.c, function.c), the code it drops as unreachable, and the return it adds to functions of type [!void].
    Simplified: types and errors are left out (programs are accepted ones); bodies of if, loops and cases are always
    lists of statements (one statement is a list of one: nothing follows it, so nothing is dropped); functions
    and closures inside are analysed by themselves (function.c:382-390, closure.c:407-420) and are atoms here. *)
From Coq Require Import Bool List.

(** parser.c:1490-1511, 2555-2570: return and raise are one kind of node, [isRaise] tells them apart; the return that is
    added (check.c:176-191) is marked as if it were a raise. *)
Inductive kind := KReturn | KRaise | KImplicit.
Definition is_raise (k : kind) : bool := match k with KReturn => false | _ => true end.

(** Expressions as far as statements can hide in them (parser.c:1266-1288, 1722-1725: a block is a primary expression).
    [EConst]: no expression, or
    a constant; [EAtom]: any other expression without statements; [EBoth]: both operands run; [ELogic]: && and ||; [ETern]: ? :;
    [ECatch]: catch. *)
Inductive expr :=
| EConst
| EAtom (n : nat)
| EBoth (a b : expr)
| ELogic (a b : expr)
| ETern (c a b : expr)
| ECatch (a h : expr)
| EBlock (l : stmts)
with stmt :=
| SExpr (e : expr)
| SVar (e : expr)
| SReturn (e : expr) (k : kind)
| SIf (c : expr) (a : stmts)
| SIfElse (c : expr) (a b : stmts)
| SWhile (c : expr) (b : stmts)
| SFor (r : expr) (b : stmts)
| SSwitch (e : expr) (cs : cases)
| SMatch (e : expr) (cs : cases)
| SBlock (l : stmts)
| SBreak | SContinue
| SDefer (e : expr)
with stmts := SNil | SCons (s : stmt) (r : stmts)
with cases := CNil | CCons (l : stmts) (r : cases).

(** check.c:64-69 [hasUnreachable]: only after these three kinds of statements *)
Definition has_unreachable (state : bool) (s : stmt) (next : stmts) : bool :=
  state && match next with SNil => false | _ => true end
  && match s with SReturn _ _ | SBlock _ | SExpr _ => true | _ => false end.

(** The state after an expression, and the expression with the code it keeps. check.c:766-770 (ternary), 603-622 (blocks
    in expressions): the state runs through the operands in order; binary.c:167-168, 182-194, 248-251: a catch sets it back. *)
Fixpoint check_e (state : bool) (e : expr) : bool * expr :=
  match e with
  | EConst => (state, EConst)
  | EAtom n => (state, EAtom n)
  | EBoth a b => let '(s1, a') := check_e state a in let '(s2, b') := check_e s1 b in (s2, EBoth a' b')
  | ELogic a b => let '(s1, a') := check_e state a in let '(s2, b') := check_e s1 b in (s2, ELogic a' b')
  | ETern c a b =>
      let '(s0, c') := check_e state c in let '(s1, a') := check_e s0 a in
      let '(s2, b') := check_e s1 b in (s2, ETern c' a' b')
  | ECatch a h => let '(s1, a') := check_e state a in let '(_, h') := check_e s1 h in (state, ECatch a' h')
  | EBlock l => let '(s1, l') := check_l state l in (s1, EBlock l')
  end
(** check.c:197-205 (return), 361-371 (defer), 373-377 (break), 418-421 (while), if.c:45-62, for.c:426-429, switch.c:
    228-253 (starts with false and can only stay so), match.c:92-116. *)
with check_s (state : bool) (s : stmt) : bool * stmt :=
  match s with
  | SExpr e => let '(s1, e') := check_e state e in (s1, SExpr e')
  | SVar e => let '(s1, e') := check_e state e in (s1, SVar e')
  | SReturn e k => let '(s1, e') := check_e state e in (s1 || negb (is_raise k), SReturn e' k)
  | SIf c a =>
      let '(cur, c') := check_e state c in let '(s1, a') := check_l false a in (s1 && cur, SIf c' a')
  | SIfElse c a b =>
      let '(_, c') := check_e state c in let '(s1, a') := check_l false a in
      let '(s2, b') := check_l false b in (s1 && s2, SIfElse c' a' b')
  | SWhile c b => let '(cur, c') := check_e state c in let '(_, b') := check_l false b in (cur, SWhile c' b')
  | SFor r b => let '(cur, r') := check_e state r in let '(_, b') := check_l false b in (cur, SFor r' b')
  | SSwitch e cs =>
      let '(_, e') := check_e state e in let '(s1, cs') := check_c cs in (false && s1, SSwitch e' cs')
  | SMatch e cs =>
      let '(cur, e') := check_e state e in let '(s1, cs') := check_c cs in ((false && s1) || cur, SMatch e' cs')
  | SBlock l => let '(s1, l') := check_l state l in (s1, SBlock l')
  | SBreak => (state, SBreak)
  | SContinue => (state, SContinue)
  | SDefer e => let '(s1, e') := check_e state e in (s1, SDefer e')
  end
(** check.c:126-171: the statements of a block; after the first of the three kinds that ends with the state set, the
    rest is cut off (52-62 [reportUnreachable]). *)
with check_l (state : bool) (l : stmts) : bool * stmts :=
  match l with
  | SNil => (state, SNil)
  | SCons s r =>
      let '(s1, s') := check_s state s in
      if has_unreachable s1 s r then (s1, SCons s' SNil)
      else let '(s2, r') := check_l s1 r in (s2, SCons s' r')
  end
(** switch.c:230-252, match.c:95-114: each case starts with false; the states are joined by and. *)
with check_c (cs : cases) : bool * cases :=
  match cs with
  | CNil => (true, CNil)
  | CCons l r => let '(s1, l') := check_l false l in let '(s2, r') := check_c r in (s1 && s2, CCons l' r')
  end.

Fixpoint snoc (l : stmts) (s : stmt) : stmts :=
  match l with SNil => SCons s SNil | SCons a r => SCons a (snoc r s) end.

(** check.c:173-191 with function.c:375-392: the body of a function starts with false; if the function has the type [!void]
    and the state is not set, a return is added; its value (check.c:36-50 [makeVoidReturnValue]) is a constant. *)
Definition check_body (void_result : bool) (l : stmts) : stmts :=
  let '(s, l') := check_l false l in
  if void_result && negb s then snoc l' (SReturn EConst KImplicit) else l'.

(** function.c:375-425: whether the body is accepted, as far as returns matter. [ret_]: the type of the function;
    [ret]: the type written, if any; [body_]: the type of the block; [auto]: the type not known yet. Every return was
    compared with [ret] before (check.c:228-246). The state is not asked for. *)
Inductive ty := TVoid | TAuto | TOther (n : nat).
Definition ty_eqb (a b : ty) : bool :=
  match a, b with TVoid, TVoid | TAuto, TAuto => true | TOther n, TOther m => Nat.eqb n m | _, _ => false end.
Definition accept_body (assignable : ty -> ty -> bool) (ret_ : ty) (ret : option ty) (body_ : ty) : bool :=
  let body_ := match ret with Some t => t | None => body_ end in
  let body_ := match body_ with TAuto => TVoid | t => t end in
  ty_eqb ret_ body_ || assignable ret_ body_.
