(** Well-typed values and the values that survive a round trip through JSON. *)
From Coq Require Import ZArith.
From stdpp Require Import list numbers.
From Verif Require Import JsonModel.

(** Values of a type; the names of fields are distinct identifiers. *)
Definition fits (signed : bool) (bits z : Z) : Prop :=
  (if signed then - 2 ^ (bits - 1) <= z < 2 ^ (bits - 1) else 0 <= z < 2 ^ bits)%Z.
Definition ident_char (c : N) : Prop := (48 <= c <= 57 ∨ 65 <= c <= 90 ∨ 97 <= c <= 122 ∨ c = 95)%N.
Inductive wt : ty → value → Prop :=
  | wt_bool b : wt TyBool (VBool b)
  | wt_int sg bits z : bits ∈ [8; 16; 32; 64]%Z → fits sg bits z → wt (TyInt sg bits) (VInt z)
  | wt_str s : wt TyStr (VStr s)
  | wt_none t : wt (TyOpt t) (VOpt None)
  | wt_some t v : wt t v → wt (TyOpt t) (VOpt (Some v))
  | wt_tuple ts vs : Forall2 wt ts vs → wt (TyTuple ts) (VTuple vs)
  | wt_struct fs vs :
      NoDup (map fst fs) → Forall (Forall ident_char) (map fst fs) → Forall2 wt (map snd fs) vs →
      wt (TyStruct fs) (VTuple vs).

(** A double holds [z] exactly. *)
Definition exact53 (z : Z) : Prop := ∃ m e, (Z.abs m <= 2 ^ 53 ∧ 0 <= e ∧ z = m * 2 ^ e)%Z.
(** No NUL, every double quote is behind a backslash, no backslash at the end. *)
Definition plain (s : text) : Prop :=
  0%N ∉ s ∧ (∀ i, s !! i = Some 34%N → ∃ j, i = S j ∧ s !! j = Some 92%N) ∧ list.last s ≠ Some 92%N.
(** An optional that is absent at some level. *)
Inductive absent : value → Prop :=
  | absent_none : absent (VOpt None)
  | absent_some v : absent v → absent (VOpt (Some v)).
Inductive good : ty → value → Prop :=
  | good_bool b : good TyBool (VBool b)
  | good_int sg bits z : exact53 z → (z < 2 ^ 63)%Z → good (TyInt sg bits) (VInt z)
  | good_str s : plain s → good TyStr (VStr (Some s))
  | good_none t : good (TyOpt t) (VOpt None)
  | good_some t v : good t v → ¬ absent v → good (TyOpt t) (VOpt (Some v))
  | good_tuple ts vs : Forall2 good ts vs → good (TyTuple ts) (VTuple vs)
  | good_struct fs vs : Forall2 good (map snd fs) vs → good (TyStruct fs) (VTuple vs).

(** What the parser can return: as above without the bound on integers. *)
Inductive parsed : ty → value → Prop :=
  | parsed_bool b : parsed TyBool (VBool b)
  | parsed_int sg bits z : exact53 z → fits sg bits z → parsed (TyInt sg bits) (VInt z)
  | parsed_str s : plain s → parsed TyStr (VStr (Some s))
  | parsed_none t : parsed (TyOpt t) (VOpt None)
  | parsed_some t v : parsed t v → ¬ absent v → parsed (TyOpt t) (VOpt (Some v))
  | parsed_tuple ts vs : Forall2 parsed ts vs → parsed (TyTuple ts) (VTuple vs)
  | parsed_struct fs vs : Forall2 parsed (map snd fs) vs → parsed (TyStruct fs) (VTuple vs).
