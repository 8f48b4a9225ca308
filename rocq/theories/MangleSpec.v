(** Types as a program means them: a named type is a declaration, or the instance of a generic
    declaration for some arguments. *)
From Coq Require Import Strings.String.
From stdpp Require Import numbers list.
From Verif Require Import LexSpec MangleModel.
Local Open Scope N_scope.

Inductive kind := Plain | Generic (const : bool).
Record decl := Decl { d_ns : option (list N); d_name : list N; d_kind : kind }.
Inductive sty :=
  | SPrim (p : prim) | SStr | SArr (len : N) (e : sty) | STup (l : list sty) | SUni (l : list sty)
  | SFn (params : list sty) (ret : sty) | SPtr (t : sty) | SRef (t : sty) | SLit (l : lit)
  | SNamed (d : decl) | SInst (d : decl) (args : list sty) | SConst (t : sty).

(** What the compiler holds for it, when [idx] gives the place of a union in its type table: an
    instance has the mangled name of its generic (generics.c:381-386). *)
Fixpoint erase (idx : list sty -> N) (t : sty) : ty :=
  match t with
  | SPrim p => Prim p
  | SStr => Str
  | SArr n e => Arr n (erase idx e)
  | STup l => Tup (map (erase idx) l)
  | SUni l => Uni (idx l) (map (erase idx) l)
  | SFn ps r => Fn (map (erase idx) ps) (erase idx r)
  | SPtr t => Ptr (erase idx t)
  | SRef t => Ref (erase idx t)
  | SLit l => Lit l
  | SNamed d => Named (d_ns d) (d_name d)
  | SInst d args => Named (d_ns d) (makeMangledName (d_name d) (map (erase idx) args)
                                      match d_kind d with Generic c => c | Plain => false end)
  | SConst t => Wrap true 0 (erase idx t)
  end.

(** Literals that can be told apart: characters other than zero. *)
Definition good_lit (l : lit) : Prop :=
  match l with
  | LChar c => 0 < c < 0x110000
  | LInt true v => 2 ^ 63 <= v < 2 ^ 64
  | LInt false v => v < 2 ^ 64
  | LFloat i | LString i => i < 2 ^ 32
  | _ => True
  end.
Definition is_const (t : sty) : bool := match t with SConst _ => true | _ => false end.
(** The types the claim is about: over the declarations [ds], with [const] but without char
    when [cc], the other way round when not. *)
Fixpoint good (cc : bool) (ds : list decl) (t : sty) : Prop :=
  match t with
  | SPrim p => cc = true -> p <> CChar
  | SStr => True
  | SArr n e => n < 2 ^ 64 /\ good cc ds e
  | STup l | SUni l => foldr (fun t P => good cc ds t /\ P) True l
  | SFn ps r => foldr (fun t P => good cc ds t /\ P) True ps /\ good cc ds r
  | SPtr t | SRef t => good cc ds t
  | SLit l => good_lit l
  | SNamed d => d ∈ ds /\ d_kind d = Plain
  | SInst d args => d ∈ ds /\ (exists c, d_kind d = Generic c) /\ foldr (fun t P => good cc ds t /\ P) True args
  | SConst t => cc = true /\ is_const t = false /\ good cc ds t
  end.
(** Names: no underscore (nor zero), and no two declarations whose namespace and name, with
    the mark of a generic behind it, read the same. *)
Definition text (d : decl) : list N :=
  default [] (d_ns d) ++ d_name d ++ codes match d_kind d with Plain => "" | Generic false => "I" | Generic true => "Ic" end.
Definition plain_name (s : list N) : Prop := Forall (fun c => c <> 95 /\ c <> 0) s.
Definition good_decls (ds : list decl) : Prop :=
  Forall (fun d => plain_name (default [] (d_ns d)) /\ plain_name (d_name d)) ds /\
  forall d e, d ∈ ds -> e ∈ ds -> text d = text e -> d = e.
(** The table gives different unions different places. *)
Definition good_index (idx : list sty -> N) : Prop :=
  (forall l, idx l < 2 ^ 64) /\ forall l m, (3 < length l)%nat -> (3 < length m)%nat -> idx l = idx m -> l = m.
