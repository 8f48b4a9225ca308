(** The layered grammar of expressions: one level for each precedence, every binary operator
    associating to the left. [DBin p]: expressions whose outermost operator, if any, has a
    precedence (number) below [p]. *)
From stdpp Require Import numbers list.
From Verif Require Import ParseModel.

Inductive DPrim : expr -> list tok -> Prop :=
  | D_id x : DPrim (EId x) [TId x]
  | D_int k : DPrim (EInt false k) [TInt k]
  | D_group e ts : DTern e ts -> DPrim (EGroup e) (TLParen :: ts ++ [TRParen])
  | D_tuple e ts es us : DTern e ts -> es <> [] -> DMore es us -> DPrim (ETuple (e :: es)) (TLParen :: ts ++ us ++ [TRParen])
(** further elements of a tuple, each after a comma *)
with DMore : list expr -> list tok -> Prop :=
  | D_more_nil : DMore [] []
  | D_more_cons e ts es us : DTern e ts -> DMore es us -> DMore (e :: es) (TComma :: ts ++ us)
(** arguments, with an optional comma at the end *)
with DArgs : list expr -> list tok -> Prop :=
  | D_args_nil : DArgs [] []
  | D_args_one e ts : DTern e ts -> DArgs [e] ts
  | D_args_cons e ts es us : DTern e ts -> DArgs es us -> DArgs (e :: es) (ts ++ TComma :: us)
with DOper : expr -> list tok -> Prop :=
  | D_prim e ts : DPrim e ts -> DOper e ts
  | D_index e ts i us : DOper e ts -> DTern i us -> DOper (EIndex e i) (ts ++ TIndex :: us ++ [TRBracket])
  | D_call e ts es us : DOper e ts -> DArgs es us -> DOper (ECall e es) (ts ++ TLParen :: us ++ [TRParen])
with DPrefix : expr -> list tok -> Prop :=
  | D_oper e ts : DOper e ts -> DPrefix e ts
  | D_inc e ts : DOper e ts -> DPrefix (EPost true e) (ts ++ [TPlusPlus])
  | D_dec e ts : DOper e ts -> DPrefix (EPost false e) (ts ++ [TMinusMinus])
  | D_neg k : DPrefix (EInt true k) [TMinus; TInt k]
  | D_pos k : DPrefix (EInt false k) [TPlus; TInt k]
  | D_sym x : DPrefix (ESym x) [TColon; TId x]
  (* a sign in front of an integer belongs to the integer *)
  | D_un t u e ts : prefix_of t = Some u -> DPrefix e ts ->
      ~ ((t = TMinus \/ t = TPlus) /\ exists k, head ts = Some (TInt k)) -> DPrefix (EUn u e) (t :: ts)
with DBin : nat -> expr -> list tok -> Prop :=
  | D_prefix p e ts : DPrefix e ts -> DBin p e ts
  | D_bin p t o l ts r us : binop_of t = Some o -> prec o < p ->
      DBin (S (prec o)) l ts -> DBin (prec o) r us -> DBin p (EBin o l r) (ts ++ t :: us)
with DAssign : expr -> list tok -> Prop :=
  | D_binary e ts : DBin 14 e ts -> DAssign e ts
  | D_assign o l ts r us : DPrefix l ts -> DAssign r us -> DAssign (EAssign o l r) (ts ++ TAssign o :: us)
with DTern : expr -> list tok -> Prop :=
  | D_ass e ts : DAssign e ts -> DTern e ts
  | D_elvis c ts b us : DAssign c ts -> DTern b us -> DTern (EElvis c b) (ts ++ TQuestion :: TColon :: us)
  (* a colon behind the question mark is the operator ?: *)
  | D_tern c ts a us b vs : DAssign c ts -> DTern a us -> head us <> Some TColon -> DTern b vs ->
      DTern (ETern c a b) (ts ++ TQuestion :: us ++ TColon :: vs).

(** Trees without casts and without [catch discard]. *)
Fixpoint plain (e : expr) : bool :=
  match e with
  | EId _ | EInt _ _ | ESym _ => true
  | EGroup e | EPost _ e | EUn _ e => plain e
  | ETuple es => forallb plain es
  | ECast _ _ | EDiscard => false
  | EIndex a b | EBin _ a b | EAssign _ a b | EElvis a b => plain a && plain b
  | ECall f es => plain f && forallb plain es
  | ETern a b c => plain a && plain b && plain c
  end.
(** The tree without the parentheses. *)
Fixpoint strip (e : expr) : expr :=
  match e with
  | EGroup e => strip e
  | ETuple es => ETuple (map strip es)
  | ECast t e => ECast t (strip e)
  | EIndex a b => EIndex (strip a) (strip b)
  | ECall f es => ECall (strip f) (map strip es)
  | EPost i e => EPost i (strip e)
  | EUn u e => EUn u (strip e)
  | EBin o a b => EBin o (strip a) (strip b)
  | EAssign o a b => EAssign o (strip a) (strip b)
  | ETern a b c => ETern (strip a) (strip b) (strip c)
  | EElvis a b => EElvis (strip a) (strip b)
  | e => e
  end.

(** ** Writing a tree with only the parentheses it needs *)
Definition tok_of (o : op) : tok :=
  match o with
  | Add => TPlus | Sub => TMinus | Mul => TMult | Div => TDiv | Mod => TMod
  | BAnd => TBAnd | BOr => TBOr | BXor => TBXor | Shl => TShl | Shr => TShr
  | Eq => TEqual | Ne => TNotEqual | Is => TIs | Gt => TGreater | Lt => TLess
  | Geq => TGreaterEqual | Leq => TLessEqual | LAnd => TLAnd | LOr => TLOr
  | Range => TDotDot | Catch => TCatch
  end.
Definition tok_of_un (u : unop) : tok :=
  match u with
  | PreDec => TMinusMinus | PreInc => TPlusPlus | Minus => TMinus | Plus => TPlus
  | Deref => TMult | Not => TLNot | Compl => TBNot | Refof => TBAnd | Move => TLAnd
  | Await => TAwait | Delete => TDelete | Ptrof => TPtrof
  end.
(** every list but the first after a comma *)
Definition commas (ls : list (list tok)) : list tok :=
  match ls with [] => [] | l :: ls => l ++ concat (map (cons TComma) ls) end.
(** The tokens of a tree, exactly as it stands. *)
Fixpoint flat (e : expr) : list tok :=
  match e with
  | EId x => [TId x]
  | EInt neg k => if neg then [TMinus; TInt k] else [TInt k]
  | ESym x => [TColon; TId x]
  | EGroup e => TLParen :: flat e ++ [TRParen]
  | ETuple es => TLParen :: commas (map flat es) ++ [TRParen]
  | ECast t e => TLess :: TId t :: TGreater :: flat e
  | EIndex a i => flat a ++ TIndex :: flat i ++ [TRBracket]
  | ECall f es => flat f ++ TLParen :: commas (map flat es) ++ [TRParen]
  | EPost i e => flat e ++ [if i then TPlusPlus else TMinusMinus]
  | EUn u e => tok_of_un u :: flat e
  | EBin o l r => flat l ++ tok_of o :: flat r
  | EDiscard => [TDiscard]
  | EAssign o l r => flat l ++ TAssign o :: flat r
  | ETern c a b => flat c ++ TQuestion :: flat a ++ TColon :: flat b
  | EElvis c b => flat c ++ TQuestion :: TColon :: flat b
  end.
(** How loosely the outermost construct binds. *)
Definition lev (e : expr) : nat :=
  match e with
  | EPost _ _ | ESym _ | EUn _ _ => 1
  | EInt neg _ => if neg then 1 else 0
  | EBin o _ _ => prec o
  | EAssign _ _ _ => 15
  | ETern _ _ _ | EElvis _ _ => 16
  | _ => 0
  end.
(** Whether the leftmost thing written is an integer without sign, or a symbol. *)
Fixpoint head_int (e : expr) : bool :=
  match e with
  | EInt neg _ => negb neg
  | EIndex a _ | ECall a _ | EPost _ a | EBin _ a _ | EAssign _ a _ | ETern a _ _ | EElvis a _ => head_int a
  | _ => false
  end.
Fixpoint head_sym (e : expr) : bool :=
  match e with
  | ESym _ => true
  | EIndex a _ | ECall a _ | EPost _ a | EBin _ a _ | EAssign _ a _ | ETern a _ _ | EElvis a _ => head_sym a
  | _ => false
  end.
Definition is_sign (u : unop) : bool := match u with Minus | Plus => true | _ => false end.
Definition par (k : nat) (e : expr) : expr := if (lev e <=? k)%nat then e else EGroup e.
Definition par_if (b : bool) (e : expr) : expr := if b then EGroup e else e.
(** Parentheses where the level of an operand, a sign before an integer or a symbol behind a
    question mark asks for them, and nowhere else. *)
Fixpoint addp (e : expr) : expr :=
  match e with
  | EGroup e => EGroup (addp e)
  | ETuple es => ETuple (map addp es)
  | EIndex a i => EIndex (par 0 (addp a)) (addp i)
  | ECall f es => ECall (par 0 (addp f)) (map addp es)
  | EPost i e => EPost i (par 0 (addp e))
  | EUn u e => EUn u (let a := par 1 (addp e) in par_if (is_sign u && head_int a) a)
  | EBin o l r => EBin o (par (prec o) (addp l)) (par (pred (prec o)) (addp r))
  | EAssign o l r => EAssign o (par 1 (addp l)) (par 15 (addp r))
  | ETern c a b => ETern (par 15 (addp c)) (let a := addp a in par_if (head_sym a) a) (addp b)
  | EElvis c b => EElvis (par 15 (addp c)) (addp b)
  | e => e
  end.
(** Plain trees whose tuples have two elements or more. *)
Fixpoint wf (e : expr) : bool :=
  match e with
  | EId _ | EInt _ _ | ESym _ => true
  | EGroup e | EPost _ e | EUn _ e => wf e
  | ETuple es => forallb wf es && (2 <=? length es)%nat
  | ECast _ _ | EDiscard => false
  | EIndex a b | EBin _ a b | EAssign _ a b | EElvis a b => wf a && wf b
  | ECall f es => wf f && forallb wf es
  | ETern a b c => wf a && wf b && wf c
  end.
(** What may follow an expression without continuing it. *)
Definition ends (ts : list tok) : Prop :=
  match ts with
  | [] => True
  | t :: _ => binop_of t = None /\ t <> TPlusPlus /\ t <> TMinusMinus /\ t <> TIndex /\ t <> TLParen /\
              t <> TLNot /\ t <> TQuestion /\ (forall o, t <> TAssign o)
  end.
(** Inputs without the two forms outside this grammar: a cast and [catch discard]. *)
Definition clean (ts : list tok) : Prop :=
  (forall l r, ts <> l ++ TDiscard :: r) /\ (forall l x r, ts <> l ++ TLess :: TId x :: TGreater :: r).

(** The operators of the language from the tightest to the loosest level, written down
    independently of the parser's table. *)
Definition levels : list (list op) :=
  [[Mul; Div; Mod]; [Add; Sub]; [Shl; Shr]; [Lt; Gt; Leq; Geq]; [Eq; Ne; Is]; [BAnd]; [BXor]; [BOr];
   [Catch]; [LAnd]; [LOr]; [Range]].
