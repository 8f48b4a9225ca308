(** Top level declarations and conditional blocks as they are meant: how they are written, what is to be compiled of them. *)
From Coq Require Import Bool List Arith.
Import ListNotations.
From Verif Require Import CondModel.

Record entity := Entity { e_name : nat; e_alias : option nat }.
Inductive entities := ENone | EOne (e : entity) | EMany (e : entity) (es : list entity).
Inductive decl :=
| DImport (test : bool) (es : entities) (m : nat) (alias : option nat)
| DCode (include : bool) (s : nat)
| DSource (s : nat)
| DLib (s : nat).

(** A module gets an alias only if it is imported as a whole. *)
Definition wf (d : decl) : Prop :=
  match d with DImport _ (EOne _) _ a | DImport _ (EMany _ _) _ a => a = None | _ => True end.

Definition w_entity (e : entity) : list tok :=
  KIdent (e_name e) :: match e_alias e with Some a => [KAs; KIdent a] | None => [] end.
Fixpoint w_more (es : list entity) : list tok :=
  match es with [] => [] | e :: es => KComma :: w_entity e ++ w_more es end.
Definition w_decl (d : decl) : list tok :=
  match d with
  | DImport t es m a =>
      KImport :: (if t then [KTest] else []) ++
      match es with
      | ENone => []
      | EOne e => w_entity e ++ [KFrom]
      | EMany e es => KLBrace :: w_entity e ++ w_more es ++ [KRBrace; KFrom]
      end ++ KStr m :: match a with Some a => [KAs; KIdent a] | None => [] end
  | DCode i s => [if i then KCInclude else KCDefine; KLParen; KStr s; KRParen]
  | DSource s => [KCBuild; KStr s]
  | DLib s => [KCBuild; KColon; KIdent 1; KStr s]
  end.
Fixpoint w_decls (ds : list decl) : list tok :=
  match ds with [] => [] | d :: ds => w_decl d ++ w_decls ds end.

Definition m_entity (e : entity) : nat * nat :=
  (e_name e, match e_alias e with Some a => a | None => e_name e end).
(** What is to be compiled of it; imports marked test only when testing *)
Definition m_decl (testing : bool) (d : decl) : list node :=
  match d with
  | DImport t es m a =>
      if t && negb testing then []
      else [NImport (match es with ENone => [] | EOne e => [m_entity e] | EMany e es => map m_entity (e :: es) end) m a]
  | DCode i s => [NCode i s]
  | DSource s => [NSource s]
  | DLib s => [NLib s]
  end.
Definition m_decls (testing : bool) (ds : list decl) : list node := flat_map (m_decl testing) ds.

(** ##if (b) { ... } else ##if (b) { ... } ... else { ... } *)
Inductive chain :=
| CIf (b : bool) (ds : list decl)
| CElse (b : bool) (ds es : list decl)
| CElif (b : bool) (ds : list decl) (c : chain).
Definition w_if (b : bool) (ds : list decl) : list tok :=
  [KDefine; KIf; KLParen; KCond b; KRParen; KLBrace] ++ w_decls ds ++ [KRBrace].
Fixpoint w_chain (c : chain) : list tok :=
  match c with
  | CIf b ds => w_if b ds
  | CElse b ds es => w_if b ds ++ KElse :: KLBrace :: w_decls es ++ [KRBrace]
  | CElif b ds c => w_if b ds ++ KElse :: w_chain c
  end.
(** The branch taken, and those passed over *)
Fixpoint taken (c : chain) : list decl :=
  match c with
  | CIf b ds => if b then ds else []
  | CElse b ds es => if b then ds else es
  | CElif b ds c => if b then ds else taken c
  end.
Fixpoint branches (c : chain) : list (list decl) :=
  match c with
  | CIf _ ds => [ds]
  | CElse _ ds es => [ds; es]
  | CElif _ ds c => ds :: branches c
  end.
Fixpoint passed (c : chain) : list (list decl) :=
  match c with
  | CIf b ds => if b then [] else [ds]
  | CElse b ds es => if b then [es] else [ds]
  | CElif b ds c => if b then branches c else ds :: passed c
  end.

(** No braces in it: no import of a list of entities *)
Definition braceless (d : decl) : Prop := match d with DImport _ (EMany _ _) _ _ => False | _ => True end.
(** An import marked test that can be left out: of one entity without alias, or of a module without alias *)
Definition plain (d : decl) : Prop :=
  match d with
  | DImport true ENone _ a => a = None
  | DImport true (EOne e) _ _ => e_alias e = None
  | DImport true (EMany _ _) _ _ => False
  | _ => True
  end.
Definition readable (testing : bool) (d : decl) : Prop := testing = true \/ plain d.
