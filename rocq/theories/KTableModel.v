(** Keyed use of the compiler's hash table (core/htable.c): its clients store a
    record under a name, look it up through a record holding only the name, and
    write to the record found through the pointer returned.  The table itself is
    [HTableModel]; an element is a pair (key, rest of the record), compared and
    hashed by its key alone. *)
From stdpp Require Import list numbers.
From Verif Require Import HTableModel.

Section keyed.
Context {K V : Type} (keq : K → K → bool) (hk : K → N).

Definition kcmp (a b : K * V) : bool := keq (fst a) (fst b).
Definition khash (e : K * V) : N := hk (fst e).
Definition ktable := htable (K * V).

(** core/htable.c:10, 28-31, [newHashTable]. *)
Definition kt_new : ktable := ht_new 4.
(** A write through the pointer to the element in bucket [i] that
    [findInHashTable] (core/htable.c:109-124) returned: the stored hash stays. *)
Definition kt_store (t : ktable) (i : nat) (e : K * V) : ktable :=
  match ht_slots t !! i with
  | Some (Some (h, _)) => HTable (<[i := Some (h, e)]> (ht_slots t)) (ht_size t)
  | _ => t
  end.
Definition kt_insert (t : ktable) (k : K) (v : V) : tres (ktable * bool) :=
  ht_insert khash kcmp t (k, v).
(** [v] is the (unused) rest of the record used as a search key. *)
Definition kt_find (t : ktable) (k : K) (v : V) : tres (option (nat * V)) :=
  tbind (ht_find khash kcmp t (k, v)) (λ r,
  TOk (match r with
       | None => None
       | Some i => match elem_at t i with Some (_, w) => Some (i, w) | None => None end
       end)).
Definition kt_clear (t : ktable) : ktable := ht_clear t.
Definition kt_enumerate (t : ktable) : list (K * V) := enumerate (ht_slots t).
End keyed.
Arguments ktable : clear implicits.
