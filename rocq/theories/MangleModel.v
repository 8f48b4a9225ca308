(** Model of src/cxy/lang/middle/mangle.c (all of it).  A type is the tree that mangleType
    walks: [Wrap] are the flags unwrapType gathers (ttable.c:1048-1063; the flags a type has
    itself are written as a wrapping of it), [Alias] what resolveType goes through
    (ttable.c:542-562).  [Named] are all types of the last case that have a name (void, auto,
    structs, classes, enumerations, ...), [Unnamed] those that have none (results, optionals,
    maps, ttable.c:832-848 and 1033-1037).  Each carries the namespace it was made in. *)
From Coq Require Import Strings.String.
From stdpp Require Import numbers list.
From Verif Require Import LexSpec FormatModel.
Local Open Scope N_scope.

(** types.h:24-49 *)
Inductive prim := Bool | WChar | CChar | U8 | U16 | U32 | U64 | I8 | I16 | I32 | I64 | F32 | F64.
Definition prim_name (p : prim) : list N := codes
  match p with
  | Bool => "bool" | WChar => "wchar" | CChar => "char" | U8 => "u8" | U16 => "u16" | U32 => "u32" | U64 => "u64"
  | I8 => "i8" | I16 => "i16" | I32 => "i32" | I64 => "i64" | F32 => "f32" | F64 => "f64"
  end%string.
(** The literals, with the 64 bits of an integer, and for floats and strings the index of the
    literal type in the table. *)
Inductive lit := LNull | LBool (b : bool) | LChar (c : N) | LInt (negative : bool) (bits : N) | LFloat (index : N) | LString (index : N).
Inductive ty :=
  | Prim (p : prim) | Str | Arr (len : N) (e : ty) | Tup (l : list ty) | Uni (index : N) (l : list ty)
  | Fn (params : list ty) (ret : ty) | Ptr (t : ty) | Ref (t : ty) | Lit (l : lit)
  | Named (ns : option (list N)) (name : list N) | Unnamed (ns : option (list N)) (args : list ty)
  | Alias (t : ty) | Wrap (const : bool) (other_flags : N) (t : ty).

(** mangle.c:11-43.  The indices are given as [.c] (32 bits) and printed as [.u64]; the rest of
    the union is taken to be zero.  A character outside of UTF-8 ends the compiler; no text
    here. *)
Definition mangleAstNode (l : lit) : list N :=
  match l with
  | LNull => codes "Ln_"
  | LBool b => codes "Lb_" ++ codes (if b then "true" else "false")
  | LChar c => codes "Lc_" ++ default [] (utf8_text c false)
  | LInt true v => codes "Li_" ++ print_signed 64 v
  | LInt false v => codes "Lu_" ++ print_unsigned 64 v
  | LFloat i => codes "Lf_" ++ print_unsigned 64 (i mod 2 ^ 32)
  | LString i => codes "Ls_" ++ print_unsigned 64 (i mod 2 ^ 32)
  end.

(** mangle.c:45-122.  [resolved]: behind the call of unwrapType; [const]: the flag found so
    far. *)
Fixpoint mangle (resolved const : bool) (t : ty) : list N :=
  let c := if const then codes "c" else [] in
  match t with
  | Wrap k _ t => if resolved then c ++ codes "Z_" else mangle false (const || k) t
  | Alias t => mangle true const t
  | Prim p => c ++ match p with Bool | WChar | CChar => take 1 (prim_name p) | _ => prim_name p end
  | Str => c ++ codes "s"
  | Arr len e => c ++ codes "A" ++ print_unsigned 64 len ++ mangle false false e
  | Tup l => c ++ codes "T" ++ concat (map (mangle false false) l) ++ codes "_"
  | Uni index l =>
    c ++ (if (3 <? length l)%nat then codes "U" ++ print_unsigned 64 index
          else codes "U_" ++ concat (map (mangle false false) l)) ++ codes "_"
  | Fn params ret => c ++ codes "F" ++ concat (map (mangle false false) params) ++ mangle false false ret ++ codes "_"
  | Ptr t => c ++ codes "P" ++ mangle false false t
  | Ref t => c ++ codes "R" ++ mangle false false t
  | Lit l => c ++ mangleAstNode l
  | Named ns name => c ++ codes "Z" ++ default [] ns ++ name ++ codes "_"
  | Unnamed ns _ => c ++ codes "Z" ++ default [] ns ++ codes "_"
  end.
Definition mangleType (t : ty) : list N := mangle false false t.

(** What is left of a text in a C string. *)
Fixpoint c_string (s : list N) : list N :=
  match s with [] => [] | c :: s => if c =? 0 then [] else c :: c_string s end.
(** mangle.c:124-143; makeString takes the text up to the first zero. *)
Definition makeMangledName (name : list N) (types : list ty) (isConst : bool) : list N :=
  c_string (name ++ codes (if isConst then "Ic_" else "I_") ++ concat (map mangleType types) ++ codes "E").
