(** What a user expects of a map: a finite collection of key/value pairs with
    at most one pair per key (keys compared by [eqb]).  Independent of the
    implementation. *)
From stdpp Require Import list numbers.

Section spec.
Context {K V : Type} (eqb : K → K → bool).

Definition sp_map := list (K * V).
Definition sp_mem (k : K) (l : sp_map) : bool := existsb (λ kv, eqb (fst kv) k) l.
Definition sp_lookup (k : K) (l : sp_map) : option V :=
  match List.find (λ kv, eqb (fst kv) k) l with
  | Some kv => Some (snd kv) | None => None
  end.
Definition sp_insert (k : K) (v : V) (replace : bool) (l : sp_map) : sp_map :=
  if sp_mem k l then
    if replace then map (λ kv, if eqb (fst kv) k then (k, v) else kv) l else l
  else (k, v) :: l.
Definition sp_remove (k : K) (l : sp_map) : sp_map :=
  List.filter (λ kv, negb (eqb (fst kv) k)) l.
End spec.
