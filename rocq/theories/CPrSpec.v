(** How a C compiler reads an expression: tokens are as long as they can be (C11 6.4), then the grammar of 6.5, with
    the GNU operator [?:]. Left out: the comma operator, members, literals other than integers. *)
From stdpp Require Import numbers list.
From Verif Require Import ParseModel CPrModel.

(** ** Tokens *)
Inductive punct :=
  | PBin (o : op) | PAssign (o : option op) | PInc | PDec | PNot | PTilde | PQuest | PColon
  | PLPar | PRPar | PLBr | PRBr | PComma | PArrow.
Inductive ctok := KW (w : word) | KP (p : punct).

Definition spell (p : punct) : list char :=
  match p with
  | PBin Add => [Cplus] | PBin Sub => [Cminus] | PBin Mul => [Cstar] | PBin Div => [Cslash] | PBin Mod => [Cpercent]
  | PBin BAnd => [Camp] | PBin BOr => [Cbar] | PBin BXor => [Ccaret]
  | PBin Shl => [Clt; Clt] | PBin Shr => [Cgt; Cgt] | PBin Eq => [Ceq; Ceq] | PBin Ne => [Cbang; Ceq]
  | PBin Gt => [Cgt] | PBin Lt => [Clt] | PBin Geq => [Cgt; Ceq] | PBin Leq => [Clt; Ceq]
  | PBin LAnd => [Camp; Camp] | PBin LOr => [Cbar; Cbar]
  | PBin (Is | Range | Catch) => []
  | PAssign None => [Ceq]
  | PAssign (Some Add) => [Cplus; Ceq] | PAssign (Some Sub) => [Cminus; Ceq] | PAssign (Some Mul) => [Cstar; Ceq]
  | PAssign (Some Div) => [Cslash; Ceq] | PAssign (Some Mod) => [Cpercent; Ceq] | PAssign (Some BAnd) => [Camp; Ceq]
  | PAssign (Some BOr) => [Cbar; Ceq] | PAssign (Some BXor) => [Ccaret; Ceq]
  | PAssign (Some Shl) => [Clt; Clt; Ceq] | PAssign (Some Shr) => [Cgt; Cgt; Ceq]
  | PAssign (Some _) => []
  | PInc => [Cplus; Cplus] | PDec => [Cminus; Cminus] | PNot => [Cbang] | PTilde => [Ctilde]
  | PQuest => [Cquest] | PColon => [Ccolon] | PLPar => [Clpar] | PRPar => [Crpar] | PLBr => [Clbr] | PRBr => [Crbr]
  | PComma => [Ccomma] | PArrow => [Cminus; Cgt]
  end.
Definition ops : list op := [Add; Sub; Mul; Div; Mod; BAnd; BOr; BXor; Shl; Shr; Eq; Ne; Gt; Lt; Geq; Leq; LAnd; LOr].
Definition assign_ops : list op := [Add; Sub; Mul; Div; Mod; BAnd; BOr; BXor; Shl; Shr].
Definition puncts : list punct :=
  map PBin ops ++ PAssign None :: map (fun o => PAssign (Some o)) assign_ops ++
  [PInc; PDec; PNot; PTilde; PQuest; PColon; PLPar; PRPar; PLBr; PRBr; PComma; PArrow].
Definition punct_of (l : list char) : option punct := find (fun p => bool_decide (spell p = l)) puncts.

(** The tokens of a text; [cur] is the operator that is being read. *)
Definition emit (cur : list char) : list ctok := match punct_of cur with Some p => [KP p] | None => [] end.
Fixpoint lex_go (cur : list char) (ps : list piece) : list ctok :=
  match ps with
  | [] => emit cur
  | W w :: ps => emit cur ++ KW w :: lex_go [] ps
  | Ch Csp :: ps => emit cur ++ lex_go [] ps
  | Ch c :: ps =>
    match punct_of (cur ++ [c]) with
    | Some _ => lex_go (cur ++ [c]) ps
    | None => emit cur ++ lex_go [c] ps
    end
  end.
Definition lex : list piece -> list ctok := lex_go [].

(** ** Grammar *)
(** C11 6.5.5-6.5.14, the tightest first; 0 postfix, 1 unary, 2 cast, 13 conditional, 14 assignment *)
Definition cprec (o : op) : nat :=
  match o with
  | Mul | Div | Mod => 3
  | Add | Sub => 4
  | Shl | Shr => 5
  | Lt | Gt | Leq | Geq => 6
  | Eq | Ne => 7
  | BAnd => 8 | BXor => 9 | BOr => 10 | LAnd => 11 | LOr => 12
  | Is | Range | Catch => 0
  end.
(** The operators that C has *)
Definition c_op (o : op) : bool := match o with Is | Range | Catch => false | _ => true end.
Definition clev (e : expr) : nat :=
  match e with
  | EUn _ _ => 1
  | EInt neg _ => if neg then 1 else 0
  | ECast _ _ => 2
  | EBin o _ _ => cprec o
  | ETern _ _ _ | EElvis _ _ => 13
  | EAssign _ _ _ => 14
  | _ => 0
  end.
(** 6.5.3: [++] and [--] take a unary expression, the others a cast expression *)
Definition un_of (p : punct) : option (unop * bool) :=
  match p with
  | PInc => Some (PreInc, true) | PDec => Some (PreDec, true)
  | PBin BAnd => Some (Refof, false) | PBin Mul => Some (Deref, false) | PBin Add => Some (Plus, false)
  | PBin Sub => Some (Minus, false) | PTilde => Some (Compl, false) | PNot => Some (Not, false)
  | _ => None
  end.

Definition cresult : Type := option (option (expr * list ctok)).
Definition cok (e : expr) (ts : list ctok) : cresult := Some (Some (e, ts)).
Definition cerr : cresult := Some None.
Definition cbind (r : cresult) (f : expr -> list ctok -> cresult) : cresult :=
  match r with None => None | Some None => Some None | Some (Some (e, ts)) => f e ts end.
Inductive cmode :=
  | CExp | CCond | CBin (p : nat) | CLoop (p : nat) (l : expr) | CCast | CUnary | CPost (e : expr) | CPrim
  | CArgs (es : list expr).
(** [None]: not enough steps; [Some None]: no expression *)
Fixpoint cparse (n : nat) (m : cmode) (ts : list ctok) : cresult :=
  match n with
  | O => None
  | S n =>
    match m with
    | CExp =>                                                       (* 6.5.16 *)
      cbind (cparse n CCond ts) (fun l ts =>
        match ts with
        | KP (PAssign o) :: ts =>
          if (clev l <=? 1)%nat then cbind (cparse n CExp ts) (fun r ts => cok (EAssign o l r) ts) else cerr
        | _ => cok l ts
        end)
    | CCond =>                                                      (* 6.5.15 *)
      cbind (cparse n (CBin 13) ts) (fun c ts =>
        match ts with
        | KP PQuest :: KP PColon :: ts => cbind (cparse n CCond ts) (fun b ts => cok (EElvis c b) ts)
        | KP PQuest :: ts =>
          cbind (cparse n CExp ts) (fun a ts =>
            match ts with
            | KP PColon :: ts => cbind (cparse n CCond ts) (fun b ts => cok (ETern c a b) ts)
            | _ => cerr
            end)
        | _ => cok c ts
        end)
    | CBin p => cbind (cparse n CCast ts) (fun l ts => cparse n (CLoop p l) ts)
    | CLoop p l =>                                                  (* 6.5.5-6.5.14 *)
      match ts with
      | KP (PBin o) :: ts' =>
        if c_op o && (cprec o <? p)%nat then cbind (cparse n (CBin (cprec o)) ts') (fun r ts => cparse n (CLoop p (EBin o l r)) ts)
        else cok l ts
      | _ => cok l ts
      end
    | CCast =>                                                      (* 6.5.4 *)
      match ts with
      | KP PLPar :: KW (TypeName t) :: KP PRPar :: ts => cbind (cparse n CCast ts) (fun e ts => cok (ECast t e) ts)
      | _ => cparse n CUnary ts
      end
    | CUnary =>                                                     (* 6.5.3 *)
      match ts with
      | KP p :: ts' =>
        match un_of p with
        | Some (u, strict) =>
          cbind (cparse n (if strict : bool then CUnary else CCast) ts') (fun e ts => cok (EUn u e) ts)
        | None => cbind (cparse n CPrim ts) (fun e ts => cparse n (CPost e) ts)
        end
      | _ => cbind (cparse n CPrim ts) (fun e ts => cparse n (CPost e) ts)
      end
    | CPost e =>                                                    (* 6.5.2 *)
      match ts with
      | KP PInc :: ts => cparse n (CPost (EPost true e)) ts
      | KP PDec :: ts => cparse n (CPost (EPost false e)) ts
      | KP PLBr :: ts =>
        cbind (cparse n CExp ts) (fun i ts =>
          match ts with KP PRBr :: ts => cparse n (CPost (EIndex e i)) ts | _ => cerr end)
      | KP PLPar :: KP PRPar :: ts => cparse n (CPost (ECall e [])) ts
      | KP PLPar :: ts =>
        cbind (cparse n (CArgs []) ts) (fun a ts =>
          match a with ETuple es => cparse n (CPost (ECall e es)) ts | _ => cerr end)
      | _ => cok e ts
      end
    | CPrim =>                                                      (* 6.5.1 *)
      match ts with
      | KW (Name x) :: ts => cok (EId x) ts
      | KW (Number k) :: ts => cok (EInt false k) ts
      | KP PLPar :: ts =>
        cbind (cparse n CExp ts) (fun e ts => match ts with KP PRPar :: ts => cok (EGroup e) ts | _ => cerr end)
      | _ => cerr
      end
    | CArgs es =>
      cbind (cparse n CExp ts) (fun e ts =>
        match ts with
        | KP PComma :: ts => cparse n (CArgs (es ++ [e])) ts
        | KP PRPar :: ts => cok (ETuple (es ++ [e])) ts
        | _ => cerr
        end)
    end
  end.
(** The compiler reads the text as this expression. *)
Definition c_reads (ps : list piece) (e : expr) : Prop := exists n, cparse n CExp (lex ps) = cok e [].

(** ** Trees *)
(** A negative number is the operator [-] and a number. *)
Fixpoint cform (e : expr) : expr :=
  match e with
  | EInt true k => EUn Minus (EInt false k)
  | EGroup e => EGroup (cform e)
  | ECast t e => ECast t (cform e)
  | EIndex a b => EIndex (cform a) (cform b)
  | ECall f es => ECall (cform f) (map cform es)
  | EPost i e => EPost i (cform e)
  | EUn u e => EUn u (cform e)
  | EBin o a b => EBin o (cform a) (cform b)
  | EAssign o a b => EAssign o (cform a) (cform b)
  | ETern a b c => ETern (cform a) (cform b) (cform c)
  | EElvis a b => EElvis (cform a) (cform b)
  | e => e
  end.
Definition c_assign (o : option op) : bool :=
  match o with
  | None | Some (Add | Sub | Mul | Div | Mod | BAnd | BOr | BXor | Shl | Shr) => true
  | _ => false
  end.
Definition c_un (u : unop) : bool := match u with Move | Await | Delete | Ptrof => false | _ => true end.
(** Trees of operators that C has *)
Fixpoint in_c (e : expr) : bool :=
  match e with
  | EId _ | EInt _ _ => true
  | ESym _ | ETuple _ | EDiscard => false
  | EGroup e | ECast _ e | EPost _ e => in_c e
  | EUn u e => c_un u && in_c e
  | EIndex a b | EElvis a b => in_c a && in_c b
  | EBin o a b => c_op o && in_c a && in_c b
  | EAssign o a b => c_assign o && in_c a && in_c b
  | ECall f es => in_c f && forallb in_c es
  | ETern a b c => in_c a && in_c b && in_c c
  end.
(** Operands bind at least as tightly as C asks for. *)
Fixpoint fits (e : expr) : bool :=
  match e with
  | EGroup e => fits e
  | ECast _ e => (clev e <=? 2)%nat && fits e
  | EIndex a b => (clev a =? 0)%nat && fits a && fits b
  | ECall f es => (clev f =? 0)%nat && fits f && forallb fits es
  | EPost _ e => (clev e =? 0)%nat && fits e
  | EUn u e => (clev e <=? match u with PreInc | PreDec => 1 | _ => 2 end)%nat && fits e
  | EBin o a b => (clev a <=? cprec o)%nat && (clev b <? cprec o)%nat && fits a && fits b
  | EAssign _ a b => (clev a <=? 1)%nat && fits a && fits b
  | ETern a b c => (clev a <? 13)%nat && (clev c <=? 13)%nat && fits a && fits b && fits c
  | EElvis a c => (clev a <? 13)%nat && (clev c <=? 13)%nat && fits a && fits c
  | _ => true
  end.
(** The operator with which the text of an expression begins *)
Fixpoint first_op (e : expr) : option unop :=
  match e with
  | EInt true _ => Some Minus
  | EUn u _ => Some u
  | EIndex a _ | ECall a _ | EPost _ a | EBin _ a _ | EAssign _ a _ | ETern a _ _ | EElvis a _ => first_op a
  | _ => None
  end.
(** [- -], [+ +], [& &], [- --] and [+ ++] become one token or two others. *)
Definition glue (u : unop) (v : option unop) : bool :=
  match u, v with
  | Minus, Some (Minus | PreDec) | Plus, Some (Plus | PreInc) | Refof, Some Refof => true
  | _, _ => false
  end.
Fixpoint no_glue (e : expr) : bool :=
  match e with
  | EGroup e | ECast _ e | EPost _ e => no_glue e
  | EUn u e => negb (glue u (first_op e)) && no_glue e
  | EIndex a b | EBin _ a b | EAssign _ a b | EElvis a b => no_glue a && no_glue b
  | ECall f es => no_glue f && forallb no_glue es
  | ETern a b c => no_glue a && no_glue b && no_glue c
  | _ => true
  end.
(** No assignment is the condition or the last operand of [?:], where Cxy takes it and C does not. *)
Definition not_assign (e : expr) : bool := match e with EAssign _ _ _ => false | _ => true end.
Fixpoint tern_ok (e : expr) : bool :=
  match e with
  | EGroup e | ECast _ e | EPost _ e | EUn _ e => tern_ok e
  | EIndex a b | EBin _ a b | EAssign _ a b => tern_ok a && tern_ok b
  | ECall f es => tern_ok f && forallb tern_ok es
  | ETuple es => forallb tern_ok es
  | ETern a b c => not_assign a && not_assign c && tern_ok a && tern_ok b && tern_ok c
  | EElvis a c => not_assign a && not_assign c && tern_ok a && tern_ok c
  | _ => true
  end.
