(** Model of the compiler's type table, src/cxy/lang/frontend/ttable.c: [hashType] (61-173),
    [compareTypes] (243-371), [getOrInsertType] (389-411, 457-462) over the hash table of
    core/htable.c (HTableModel), and the functions that make types (735-1310).

    A type is the tree of what is reachable from it.  Strings come from the string pool, so
    that their addresses are equal when their texts are (C30).  The shortcut for equal
    addresses (compareTypes:249) matters only where a type does not compare equal to itself:
    This and anonymous structs carry the number of their object for it, literals that are not
    a number are left out; for the others InternProofs.compare_refl shows that it makes no
    difference.
    Left out: containers, literals below casts, the changes of This types and of the members of
    records after they were made, removal and replacement of types, the forward declarations
    among opaque types (resolveType:552), the 16 bits of paramsCount. *)
From stdpp Require Import list numbers.
From Verif Require Import FnvModel HTableModel.

Notation name := (list N).
Inductive base := Error | Auto | Void | Null | Str.
(** ast nodes of literals, 33-59 and 196-221; a float by its bits *)
Inductive lit := LInt (neg : bool) (u : N) | LBool (b : bool) | LChar (c : N) | LFloat (bits : N) | LStr (s : name) | LNull.
Inductive one := Pointer | Reference | Optional | Info | Result.
Inductive kind := Opaque | UntaggedUnion | Enum | Struct | Class | Interface.
Inductive many := Tuple | Union.
(** types.h:58-90 and 130-300.  A member of an anonymous struct has a class: 0 for a
    field declaration, 1 for a field expression, anything else for another declaration. *)
Inductive type :=
  | TBase (k : base)
  | TPrim (id : N)
  | TLit (l : lit)
  | TThis (obj : N) (fl : N) (n : name)
  | TOne (k : one) (fl : N) (t : type)
  | TArr (fl : N) (len : N) (t : type)
  | TMap (k v : type)
  | TAlias (fl : N) (n : name) (t : type)
  | TWrap (fl : N) (t : type)
  | TName (k : kind) (fl : N) (n : name) (ns : option name) (decl : N)
  | TMany (k : many) (fl : N) (ts : list type)
  | TApplied (fl : N) (from : type) (args : list type)
  | TFunc (fl : N) (n : option name) (scope : option N) (ret : type) (params : list type)
  | TModule (fl : N) (n : name) (ns : option name) (path : name)
  | TGeneric (n : name) (ns : option name) (decl : N) (params : N)
  | TExc (n : name) (decl : N)
  | TAnon (obj : N) (fl : N) (ms : list (N * name * type)).

(** The numbers of the enumeration, types.h:58-90 *)
Definition tag (t : type) : N :=
  match t with
  | TBase Error => 0 | TLit _ => 2 | TBase Auto => 3 | TBase Void => 4 | TBase Null => 5
  | TOne Info _ _ => 6 | TThis _ _ _ => 7 | TPrim _ => 8 | TBase Str => 9
  | TOne Pointer _ _ => 10 | TOne Reference _ _ => 11 | TOne Optional _ _ => 12 | TArr _ _ _ => 13
  | TMap _ _ => 14 | TAlias _ _ _ => 15 | TMany Union _ _ => 16 | TName UntaggedUnion _ _ _ _ => 17
  | TName Opaque _ _ _ _ => 18 | TMany Tuple _ _ => 19 | TFunc _ _ _ _ _ => 20 | TName Enum _ _ _ _ => 21
  | TModule _ _ _ _ => 22 | TName Struct _ _ _ _ | TAnon _ _ _ => 23 | TName Class _ _ _ _ => 24
  | TName Interface _ _ _ _ => 25 | TGeneric _ _ _ _ => 26 | TApplied _ _ _ => 27 | TWrap _ _ => 28
  | TExc _ _ => 29 | TOne Result _ _ => 30
  end%N.
Definition flags (t : type) : N :=
  match t with
  | TThis _ f _ | TOne _ f _ | TArr f _ _ | TAlias f _ _ | TWrap f _ | TName _ f _ _ _ | TMany _ f _ | TApplied f _ _
  | TFunc f _ _ _ _ | TModule f _ _ _ | TAnon _ f _ => f
  | _ => 0%N
  end.
(** flag.h:25, 29, 32, 54, 58, 60, 62, 76, 87-89 *)
Definition applicable : N := (2 ^ 8 + 2 ^ 12 + 2 ^ 15 + 2 ^ 37 + 2 ^ 41 + 2 ^ 43 + 2 ^ 45 + 2 ^ 59)%N.
Definition mask (f : N) : N := N.land f applicable.
Definition flgConst : N := (2 ^ 8)%N.
Definition flgExtern : N := (2 ^ 37)%N.
Definition flgAnonymous : N := (2 ^ 59)%N.
Definition isExtern (f : N) : bool := N.testbit f 37.

(** ** Hashing *)
Section hashing.
(** hashUint8, hashUint32 and hashUint64 of hash.c *)
Context (u8 u32 u64 : N → N → N).
(** hash.c:33-38 on a string without NUL inside *)
Definition hash_name (h : N) (n : name) : N := fold_left u8 n h.
Definition hash_opt (h : N) (n : option name) : N := match n with Some n => hash_name h n | None => h end.
(** 33-59 *)
Definition hash_lit (h : N) (l : lit) : N :=
  match l with
  | LInt _ u => u64 h u
  | LBool b => u8 h (if b then 1 else 0)%N
  | LChar c => u32 h c
  | LFloat b => u64 h b
  | LStr s => hash_name h s
  | LNull => h
  end.
(** 17-31: only the tags of the members *)
Definition hash_tags (h : N) (ts : list type) : N := fold_left (fun h t => u64 h (tag t)) ts h.
(** 63-64 *)
Definition hash_head (h : N) (t : type) : N := u64 (u32 h (tag t)) (mask (flags t)).
(** 66-170, after the head.  Classes and interfaces are not in the switch. *)
Fixpoint hash_in (t : type) (h : N) {struct t} : N :=
  match t with
  | TBase _ | TThis _ _ _ => h
  | TPrim id => u32 h id
  | TLit l => hash_lit h l
  | TOne _ _ t | TWrap _ t => hash_in t (hash_head h t)
  | TArr _ len t => u64 (hash_in t (hash_head h t)) len
  | TMap k v => hash_in v (hash_head (hash_in k (hash_head h k)) v)
  | TAlias f n t => if isExtern f then hash_name h n else hash_in t (hash_head h t)
  | TName k _ n ns _ =>
    match k with
    | Opaque | UntaggedUnion => hash_name h n
    | Enum | Struct => hash_opt (hash_name h n) ns
    | Class | Interface => h
    end
  | TMany _ _ ts => hash_tags h ts
  | TApplied _ from args => hash_tags (hash_in from (hash_head h from)) args
  | TFunc _ n _ ret params => hash_in ret (hash_head (hash_tags (hash_opt h n) params) ret)
  | TModule _ n ns _ => hash_opt (hash_name h n) ns
  | TGeneric n _ decl params => hash_name (u64 (u64 h params) decl) n
  | TExc _ decl => u64 h decl
  | TAnon _ _ ms =>
    (fix go (ms : list (N * name * type)) (h : N) : N :=
       match ms with
       | [] => h
       | (c, n, t) :: ms => go ms (if (c <? 2)%N then hash_in t (hash_head (hash_name h n) t) else h)
       end) ms h
  end.
(** 61-173 *)
Definition hash_type (h : N) (t : type) : N := hash_in t (hash_head h t).
End hashing.

(** ** Comparison *)
Definition eqn (a b : name) : bool := bool_decide (a = b).
Definition eqo (a b : option name) : bool := bool_decide (a = b).
(** IEEE equality of two doubles given by their bits *)
Definition is_nan (b : N) : bool := (2047 * 2 ^ 52 <? b mod 2 ^ 63)%N.
Definition is_zero (b : N) : bool := (b mod 2 ^ 63 =? 0)%N.
Definition float_eq (a b : N) : bool := negb (is_nan a) && negb (is_nan b) && ((a =? b)%N || (is_zero a && is_zero b)).
(** 196-221 *)
Definition lit_eq (a b : lit) : bool :=
  match a, b with
  | LInt n u, LInt n' u' => Bool.eqb n n' && (u =? u')%N
  | LBool b, LBool b' => Bool.eqb b b'
  | LChar c, LChar c' => (c =? c')%N
  | LFloat b, LFloat b' => float_eq b b'
  | LStr s, LStr s' => eqn s s'
  | LNull, LNull => true
  | _, _ => false
  end.
(** 1046-1062 *)
Fixpoint unwrap (t : type) (acc : N) : type * N :=
  match t with TWrap f t => unwrap t (N.lor acc f) | _ => (t, acc) end.
(** 294-301 of a function type *)
Definition scopes_differ (n : option name) (s s' : option N) : bool :=
  match n, s, s' with Some _, Some a, Some b => negb (a =? b)%N | _, _, _ => false end.
(** 245-255: the type on the right without wrappers, if tags and flags agree.  [lf] are the
    flags of the wrappers passed on the left. *)
Definition meet (l : type) (lf : N) (r : type) : option type :=
  let '(r, rf) := unwrap r 0 in
  if negb (tag l =? tag r)%N || negb (mask (N.lor lf (flags l)) =? mask (N.lor rf (flags r)))%N then None else Some r.
(** 243-371 *)
Fixpoint compare (l : type) (lf : N) (r : type) : bool :=
  let all := fix all (ls rs : list type) : bool :=
    match ls, rs with
    | [], [] => true
    | l :: ls, r :: rs => compare l 0 r && all ls rs
    | _, _ => false
    end in
  match l with
  | TWrap f t => compare t (N.lor lf f) r
  | TBase _ => match meet l lf r with Some (TBase _) => true | _ => false end
  | TPrim a => match meet l lf r with Some (TPrim b) => (a =? b)%N | _ => false end
  | TLit a => match meet l lf r with Some (TLit b) => lit_eq a b | _ => false end
  | TThis o _ _ => match meet l lf r with Some (TThis o' _ _) => (o =? o')%N | _ => false end
  | TOne _ _ a => match meet l lf r with Some (TOne _ _ b) => compare a 0 b | _ => false end
  | TArr _ n a => match meet l lf r with Some (TArr _ n' b) => (n =? n')%N && compare a 0 b | _ => false end
  | TMap k v => match meet l lf r with Some (TMap k' v') => compare k 0 k' && compare v 0 v' | _ => false end
  | TAlias f n a => match meet l lf r with Some (TAlias _ n' b) => if isExtern f then eqn n n' else compare a 0 b | _ => false end
  | TName k _ n ns _ =>
    match meet l lf r with
    | Some (TName _ _ n' ns' _) =>
      match k with
      | Opaque | UntaggedUnion => eqn n n'
      | _ => eqn n n' && eqo ns ns'
      end
    | _ => false
    end
  | TMany _ _ ts => match meet l lf r with Some (TMany _ _ ts') => all ts ts' | _ => false end
  | TApplied _ from args => match meet l lf r with Some (TApplied _ from' args') => compare from 0 from' && all args args' | _ => false end
  | TFunc _ n s ret ps =>
    match meet l lf r with
    | Some (TFunc _ n' s' ret' ps') => eqo n n' && negb (scopes_differ n s s') && compare ret 0 ret' && all ps ps'
    | _ => false
    end
  | TModule _ _ _ p => match meet l lf r with Some (TModule _ _ _ p') => eqn p p' | _ => false end
  | TGeneric n ns d _ => match meet l lf r with Some (TGeneric n' ns' d' _) => eqn n n' && eqo ns ns' && (d =? d')%N | _ => false end
  | TExc _ d => match meet l lf r with Some (TExc _ d') => (d =? d')%N | _ => false end
  | TAnon o _ ms =>
    match meet l lf r with
    | Some (TAnon o' _ ms') =>
      (o =? o')%N ||
      (* 315-340: the stored struct is expected to have three members more *)
      ((N.of_nat (length ms) =? N.of_nat (length ms') + 3)%N &&
       (fix go (ms ms' : list (N * name * type)) {struct ms} : bool :=
          match ms with
          | [] => true
          | (c, n, t) :: ms =>
            if (c =? 0)%N then
              (fix skip (ms' : list (N * name * type)) : bool :=
                 match ms' with
                 | [] => true
                 | (c', n', t') :: ms' => if (c' <? 2)%N then eqn n n' && compare t 0 t' && go ms ms' else skip ms'
                 end) ms'
            else go ms ms'
          end) ms ms')
    | _ => false
    end
  end.

(** ** Making types *)
(** 541-560 *)
Fixpoint resolve (t : type) : type :=
  match t with TAlias _ _ t => resolve t | TOne Info _ t => resolve t | _ => t end.
(** 1064-1077: the target, and the flags with those of the wrappers *)
Definition flatten (t : type) (f : N) : type * N := unwrap (resolve t) f.

(** What the make functions are called with, besides types. *)
Inductive builder :=
  | BBase (k : base) | BPrim (id : N) | BLit (l : lit) | BThis (f : N) (n : name)
  | BOne (k : one) (f : N) | BArr (f len : N) | BMap | BAlias (f : N) (n : name) | BWrap (f : N)
  | BName (k : kind) (f : N) (n : name) (decl : N) | BMany (k : many) (f : N) | BApplied (f : N)
  | BFunc (f : N) (n : option name) (scope : option N) | BModule (f : N) (n : name) (path : name)
  | BGeneric (n : name) (decl params : N) | BExc (n : name) (decl : N) | BAnon (f : N) (ms : list (N * name)).
Inductive made := Same | New (t : type).
(** The type looked up by makePointerType and so on; [Same] when the first argument is
    returned.  [ns] is the current namespace (457-462), [obj] the number of the call.
    [None]: not a call. *)
Definition build (b : builder) (ns : option name) (obj : N) (args : list type) : option made :=
  match b, args with
  | BBase k, [] => Some (New (TBase k))                                    (* 486-515 *)
  | BPrim id, [] => Some (New (TPrim id))                                  (* 486-496 *)
  | BLit l, [] => Some (New (TLit l))                                  (* 763-768 *)
  | BThis f n, [] => Some (New (TThis obj f n))                            (* 945-949 *)
  | BOne k f, [t] =>
    match k with
    | Pointer | Reference | Optional =>                                    (* 799-833 *)
      let '(t, f) := flatten t f in Some (New (TOne k f t))
    | Info | Result => Some (New (TOne k 0 t))                             (* 790-796, 1032-1036 *)
    end
  | BArr f len, [t] => Some (New (TArr f len t))                           (* 778-788, 505-512 *)
  | BMap, [k; v] => Some (New (TMap k v))                                  (* 835-840 *)
  | BAlias f n, [t] => let '(t, f) := flatten t f in Some (New (TAlias f n t)) (* 842-856 *)
  | BWrap f, [t] =>                                                        (* 1023-1031 *)
    if (N.land (flags t) f =? f)%N then Some Same
    else let '(t, f) := flatten t f in Some (New (TWrap f t))
  | BName k f n decl, [] => Some (New (TName k f n ns decl))               (* 858-872, 891-925, 965-990, 1109-1150, 1225-1290 *)
  | BMany k f, ts => Some (New (TMany k f ts))                             (* 874-889, 927-943 *)
  | BApplied f, from :: args => Some (New (TApplied f from args))          (* 1079-1092 *)
  | BFunc f n s, ret :: ps => Some (New (TFunc f n s ret ps))              (* 951-960 *)
  | BModule f n path, [] => Some (New (TModule f n ns path))               (* 1292-1310 *)
  | BGeneric n decl params, [] => Some (New (TGeneric n ns decl params))   (* 1010-1021 *)
  | BExc n decl, [] => Some (New (TExc n decl))                            (* 1038-1044 *)
  | BAnon f ms, ts => (* 1117-1137; the members are given in order of their names *)
    if (length ms =? length ts)%nat then Some (New (TAnon obj (N.lor f flgAnonymous) (zip ms ts))) else None
  | _, _ => None
  end.

(** ** The table *)
Definition elem : Type := N * type.
Definition elem_hash (e : elem) : N := hash_type hash_uint8 hash_uint32 hash_uint64 fnv_init (snd e).
Definition elem_compare (a b : elem) : bool := compare (snd a) 0 (snd b).
(** The hash table, typeCount, currentNamespace and the types returned so far.  A type is
    identified with its index, which is its number in the order of insertion. *)
Record table := Table { types : @htable elem; count : N; ns : option name; results : list elem }.
(** 389-411 *)
Definition getOrInsert (t : table) (key : type) : tres table :=
  tbind (ht_find elem_hash elem_compare (types t) (count t, key)) (λ r,
  match r with
  | Some i =>
    match elem_at (types t) i with
    | Some e => TOk (Table (types t) (count t) (ns t) (results t ++ [e]))
    | None => TAssert
    end
  | None =>
    tbind (ht_insert elem_hash elem_compare (types t) (count t, key)) (λ p,
    TOk (Table (fst p) (count t + 1) (ns t) (results t ++ [(count t, key)])))
  end).
(** A history: calls whose arguments are earlier results, by their numbers, and changes of the
    current namespace. *)
Inductive op := Make (b : builder) (args : list nat) | Namespace (ns : option name).
Fixpoint pick {A} (l : list A) (is : list nat) : option (list A) :=
  match is with
  | [] => Some []
  | i :: is => match l !! i, pick l is with Some a, Some r => Some (a :: r) | _, _ => None end
  end.
Definition step (t : table) (o : op) : tres table :=
  match o with
  | Namespace n => TOk (Table (types t) (count t) n (results t))
  | Make b is =>
    match pick (results t) is with
    | None => TAssert
    | Some args =>
      match build b (ns t) (N.of_nat (length (results t))) (map snd args), args with
      | Some (New key), _ => getOrInsert t key
      | Some Same, e :: _ => TOk (Table (types t) (count t) (ns t) (results t ++ [e]))
      | _, _ => TAssert
      end
    end
  end.
Fixpoint run (t : table) (ops : list op) : tres table :=
  match ops with [] => TOk t | o :: ops => tbind (step t o) (λ t, run t ops) end.
(** 479-515 before the first type; newHashTable asks for 4.  currentNamespace is whatever the
    memory holds. *)
Definition new_table (ns : option name) : table := Table (ht_new 4) 0 ns [].
(** 483-515: the types every table starts with; 13 primitive types, error, auto, void, null,
    the pointer to null, string and the slice of anything. *)
Definition initial : list op :=
  map (fun i => Make (BPrim i) []) [0; 1; 2; 3; 4; 5; 6; 7; 8; 9; 10; 11; 12]%N ++
  [Make (BBase Error) []; Make (BBase Auto) []; Make (BBase Void) []; Make (BBase Null) [];
   Make (BOne Pointer 0) [16]; Make (BBase Str) []; Make (BArr 2 (2 ^ 64 - 1)) [14]].
