(** When two types are the same, and the types a history asks for. *)
From stdpp Require Import list numbers.
From Verif Require Import InternModel.

(** A type without what does not belong to its identity: flags that do not apply to types, the
    name of an alias, of This and of an exception, the
    scope of the declaration of an unnamed function type.  Everything else belongs to it: in
    particular where const stands, namespaces and declarations. *)
Fixpoint norm (t : type) : type :=
  match t with
  | TBase k => TBase k
  | TPrim id => TPrim id
  | TLit l => TLit l
  | TThis o f _ => TThis o (mask f) []
  | TOne k f t => TOne k (mask f) (norm t)
  | TArr f n t => TArr (mask f) n (norm t)
  | TMap k v => TMap (norm k) (norm v)
  | TAlias f _ t => TAlias (mask f) [] (norm t)
  | TWrap f t => TWrap (mask f) (norm t)
  | TName k f n ns d => TName k (mask f) n ns d
  | TMany k f ts => TMany k (mask f) (map norm ts)
  | TApplied f from args => TApplied (mask f) (norm from) (map norm args)
  | TFunc f n s ret ps => TFunc (mask f) n (match n with Some _ => s | None => None end) (norm ret) (map norm ps)
  | TModule f n ns p => TModule (mask f) n ns p
  | TGeneric n ns d k => TGeneric n ns d k
  | TExc _ d => TExc [] d
  | TAnon o f ms => TAnon o (mask f) (map (fun m => (m.1, norm m.2)) ms)
  end.

(** The types asked for, without a table. *)
Fixpoint wanted (ops : list op) (ns : option name) (ws : list type) : option (list type) :=
  match ops with
  | [] => Some ws
  | Namespace n :: ops => wanted ops n ws
  | Make b is :: ops =>
    match pick ws is with
    | None => None
    | Some args =>
      match build b ns (N.of_nat (length ws)) args, args with
      | Some (New t), _ => wanted ops ns (ws ++ [t])
      | Some Same, t :: _ => wanted ops ns (ws ++ [t])
      | _, _ => None
      end
    end
  end.

(** Conditions under which the table works.  [W k]: the flags that types of the tag [k] get from
    wrappers only.  The others: one declaration for each name, one namespace for each name of an
    opaque type or an untagged union, one name for the path of a module, the number of
    parameters of a generic declaration. *)
Record discipline := Discipline {
  W : N → N;
  dcl : kind → name → option name → N;
  ons : name → option name;
  mod_name : name → name * option name;
  gen : N → N }.
Definition is_wrap (t : type) : bool := match t with TWrap _ _ => true | _ => false end.
Definition lit_ok (l : lit) : bool := match l with LFloat b => negb (is_nan b) && negb (b =? 2 ^ 63)%N && (b <? 2 ^ 64)%N | _ => true end.
Fixpoint good (d : discipline) (t : type) : bool :=
  (is_wrap t || (N.land (mask (flags t)) (W d (tag t)) =? 0)%N) &&
  match t with
  | TBase _ | TPrim _ | TThis _ _ _ | TExc _ _ => true
  | TLit l => lit_ok l
  | TOne _ _ t | TArr _ _ t => good d t
  | TMap k v => good d k && good d v
  | TAlias f _ t => negb (isExtern f) && good d t
  | TWrap f t =>
    negb (is_wrap t) && negb (mask f =? 0)%N && (N.land (mask f) (W d (tag t)) =? mask f)%N && good d t
  | TName k _ n ns decl =>
    (decl =? dcl d k n ns)%N && match k with Opaque | UntaggedUnion => eqo ns (ons d n) | _ => true end
  | TMany _ _ ts => forallb (good d) ts
  | TApplied _ from args => good d from && forallb (good d) args
  | TFunc _ n s ret ps => match n, s with Some _, None => false | _, _ => true end && good d ret && forallb (good d) ps
  | TModule _ n ns p => eqn n (fst (mod_name d p)) && eqo ns (snd (mod_name d p))
  | TGeneric _ _ decl n => (n =? gen d decl)%N
  | TAnon _ _ _ => false
  end.
(** Wrappers are only made with flags that apply to types. *)
Definition wrap_ok (o : op) : bool := match o with Make (BWrap f) _ => (mask f =? f)%N | _ => true end.
