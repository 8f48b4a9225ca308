(** Which argument vectors a command takes, and what they say. *)
From stdpp Require Import list numbers.
From Verif Require Import ProgArgsModel.

(** [Word ps w gs p]: the word names the parameter [p], after the options [gs]: two dashes and
    the name, or one dash and the short names. *)
Inductive Word (ps : list param) : text → list param → param → Prop :=
  | Word_long p : p ∈ ps → p_name p ≠ [] → 61%N ∉ p_name p → Word ps (45 :: 45 :: p_name p)%N [] p
  | Word_short gs p : p ∈ ps → Forall (λ g, g ∈ ps ∧ p_option g = true) gs → Forall (λ g, p_sf g ≠ 0 ∧ p_sf g ≠ 61)%N (gs ++ [p]) →
      head (map p_sf (gs ++ [p])) ≠ Some 45%N → Word ps (45%N :: map p_sf (gs ++ [p])) gs p.
Definition dashed (a : text) : Prop := head a = Some 45%N.
Definition flags_of (gs : list param) : list (text * text) := map (λ g, (p_name g, [])) gs.
(** One or two arguments, the values they give to parameters, and the positional ones.  An
    option may be followed by an equal sign, and so may a name whose value is the next
    argument. *)
Inductive Item (ps : list param) : list text → list (text * text) → list text → Prop :=
  | Item_pos a : ¬ dashed a → Item ps [a] [] [a]
  | Item_option w gs p e : Word ps w gs p → p_option p = true → e = [] ∨ e = [61%N] → Item ps [w ++ e] (flags_of (gs ++ [p])) []
  | Item_value w gs p v : Word ps w gs p → p_option p = false → v ≠ [] → Item ps [w ++ 61%N :: v] (flags_of gs ++ [(p_name p, v)]) []
  | Item_next w gs p e v : Word ps w gs p → p_option p = false → e = [] ∨ e = [61%N] → ¬ dashed v →
      Item ps [w ++ e; v] (flags_of gs ++ [(p_name p, v)]) [].
(** The last is what follows two dashes. *)
Inductive Accepts (ps : list param) : list text → list (text * text) → list text → option (list text) → Prop :=
  | Acc_nil : Accepts ps [] [] [] None
  | Acc_item seg gs pos args gs' pos' r : Item ps seg gs pos → Accepts ps args gs' pos' r →
      Accepts ps (seg ++ args) (gs ++ gs') (pos ++ pos') r
  | Acc_rest e args : e = [] ∨ e = [61%N] → Accepts ps (([45; 45]%N ++ e) :: args) [] [] (Some args).
(** No two parameters with one name or one short name. *)
Definition distinct (ps : list param) : Prop :=
  NoDup (map p_name ps) ∧ ∀ p q, p ∈ ps → q ∈ ps → p_sf p = p_sf q → p_sf p ≠ 0%N → p = q.
(** A parameter that must be given. *)
Definition needed (p : param) : Prop := p_option p = false ∧ p_def p = [].
(** The default values of the parameters not given. *)
Definition defaults (ps : list param) (given : list (text * text)) : list (text * text) :=
  map (λ p, (p_name p, p_def p)) (List.filter (λ p, negb (p_option p) && negb (bool_decide (p_name p ∈ map fst given))) ps).
