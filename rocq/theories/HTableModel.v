(** Model of the compiler's hash table (src/cxy/core/htable.c, primes.h).

    Simplifications: an unoccupied bucket (bit 31 of its hash clear) is [None];
    an occupied one carries the stored hash (bit 31 set) and the element.
    [compare] is a parameter; the hash the caller passes with an element is the
    parameter [hash], a function of the element.  Elements are at least 4 bytes
    long (the rehash allocates the hash array with the element size,
    htable.c:66).  Allocation never fails ([mallocOrDie]). *)
From stdpp Require Import list numbers.
From Verif Require Import Cyclic.

Inductive tres (A : Type) : Type := TOk (a : A) | THang | TAssert.
Arguments TOk {A} a. Arguments THang {A}. Arguments TAssert {A}.
Definition tbind {A B} (r : tres A) (f : A → tres B) : tres B :=
  match r with TOk a => f a | THang => THang | TAssert => TAssert end.

(** primes.h:13-21. *)
Definition ht_primes : list N :=
  [7; 17; 31; 67; 257; 1031; 4093; 8191; 16381; 32381; 65539; 131071; 262147;
   524287; 1048583]%N.

(** primes.h:27-39, [nextPrime]: binary search for the first prime > [i]. *)
Fixpoint next_prime_loop (fuel : nat) (i : N) (j k : nat) : nat :=
  match fuel with
  | O => k
  | S f =>
    if (j <? k)%nat then
      let m := ((j + k) / 2)%nat in
      let p := nth m ht_primes 0%N in
      if (p <=? i)%N then next_prime_loop f i (m + 1) k
      else next_prime_loop f i j m
    else k
  end.
Definition next_prime (i : N) : N :=
  let k := next_prime_loop 15 i 0 (length ht_primes) in
  nth (if (length ht_primes <=? k)%nat then (length ht_primes - 1)%nat else k)
    ht_primes 0%N.

Section table.
Context {E : Type} (hash : E → N) (compare : E → E → bool).

Local Notation bucket := (option (N * E)).
(** htable.h:23-28. *)
Record htable := HTable { ht_slots : list bucket; ht_size : N }.

(** htable.c:93, 115: [hash |= OCCUPIED_MASK]; hashes are 32 bits wide. *)
Definition stored_hash (e : E) : N :=
  N.lor (hash e mod 2 ^ 32) 2147483648.
(** primes.h:42-53, [modPrime]. *)
Definition home (cap : nat) (h : N) : nat := N.to_nat (h mod N.of_nat cap).

(** htable.c:13-16. *)
Definition increment_wrap := succ_wrap.

(** htable.c:33-39. *)
Definition ht_new (capacity : N) : htable :=
  HTable (replicate (N.to_nat (next_prime capacity)) None) 0.

(** htable.c:23-26. *)
Definition needs_rehash (t : htable) : bool :=
  (N.of_nat (length (ht_slots t)) * 70 <=? ht_size t * 100)%N.

(** htable.c:71-73: first free bucket of the new table. *)
Fixpoint free_from (fuel : nat) (d : list bucket) (i : nat) : tres nat :=
  match fuel with
  | O => THang
  | S f =>
    match d !! i with
    | Some (Some _) => free_from f d (increment_wrap (length d) i)
    | _ => TOk i
    end
  end.
(** htable.c:67-79. *)
Fixpoint rehash_buckets (old : list bucket) (d : list bucket) : tres (list bucket) :=
  match old with
  | [] => TOk d
  | None :: rest => rehash_buckets rest d
  | Some b :: rest =>
    tbind (free_from (S (length d)) d (home (length d) (fst b))) (λ i,
    rehash_buckets rest (<[i := Some b]> d))
  end.
(** htable.c:62-64. *)
Definition rehash_capacity (cap : nat) : N :=
  let n := next_prime (N.of_nat cap) in
  if (n <=? N.of_nat cap)%N then (N.of_nat cap * 2 + 1)%N else n.
(** htable.c:60-85. *)
Definition ht_rehash (t : htable) : tres htable :=
  let n := rehash_capacity (length (ht_slots t)) in
  tbind (rehash_buckets (ht_slots t) (replicate (N.to_nat n) None)) (λ d,
  TOk (HTable d (ht_size t))).

(** htable.c:95-100: [inl i] = free bucket [i] found, [inr i] = equal element
    at [i]. *)
Fixpoint probe_loop (fuel : nat) (d : list bucket) (i : nat) (h : N) (e : E)
    : tres (nat + nat) :=
  match fuel with
  | O => THang
  | S f =>
    match d !! i with
    | Some (Some (h', e')) =>
      if (h' =? h)%N && compare e' e then TOk (inr i)
      else probe_loop f d (increment_wrap (length d) i) h e
    | _ => TOk (inl i)
    end
  end.

(** htable.c:87-107. *)
Definition ht_insert (t : htable) (e : E) : tres (htable * bool) :=
  let d := ht_slots t in
  let h := stored_hash e in
  tbind (probe_loop (S (length d)) d (home (length d) h) h e) (λ r,
  match r with
  | inr _ => TOk (t, false)
  | inl i =>
    let t' := HTable (<[i := Some (h, e)]> d) (ht_size t + 1) in
    if needs_rehash t' then tbind (ht_rehash t') (λ t'', TOk (t'', true))
    else TOk (t', true)
  end).

(** htable.c:109-124: the index of the element found.  The loop (117-122) makes
    the same tests as the one of insert. *)
Definition ht_find (t : htable) (e : E) : tres (option nat) :=
  let d := ht_slots t in
  let h := stored_hash e in
  tbind (probe_loop (S (length d)) d (home (length d) h) h e) (λ r,
  TOk (match r with inr i => Some i | inl _ => None end)).

Definition elem_at (t : htable) (i : nat) : option E :=
  match ht_slots t !! i with Some (Some (_, e)) => Some e | _ => None end.

(** htable.c:181-193.  [index] is the bucket to be vacated: its stale content
    stays in place until it is overwritten or cleared at the end. *)
Fixpoint remove_loop (fuel : nat) (d : list bucket) (index next : nat)
    : tres (list bucket * nat) :=
  match fuel with
  | O => THang
  | S f =>
    match d !! next with
    | Some (Some (h, e)) =>
      let desired := home (length d) h in
      if (desired <=? index)%nat || (next <? desired)%nat then
        remove_loop f (<[index := Some (h, e)]> d) next (increment_wrap (length d) next)
      else remove_loop f d index (increment_wrap (length d) next)
    | _ => TOk (d, index)
    end
  end.

(** htable.c:174-196; [index] is where the element to remove is stored. *)
Definition ht_remove_at (t : htable) (index : nat) : tres htable :=
  match ht_slots t !! index with
  | Some (Some _) =>
    tbind (remove_loop (S (length (ht_slots t))) (ht_slots t) index
             (increment_wrap (length (ht_slots t)) index)) (λ r,
    TOk (HTable (<[snd r := None]> (fst r)) (N.pred (ht_size t))))
  | _ => TAssert
  end.

(** Callers remove an element through the pointer returned by find, e.g.
    src/cxy/lang/frontend/ttable.c [removeFromTypeTable]. *)
Definition ht_remove (t : htable) (e : E) : tres (htable * bool) :=
  tbind (ht_find t e) (λ r,
  match r with
  | None => TOk (t, false)
  | Some i => tbind (ht_remove_at t i) (λ t', TOk (t', true))
  end).

(** htable.c:198-204. *)
Definition ht_clear (t : htable) : htable :=
  if (ht_size t =? 0)%N then t
  else HTable (replicate (length (ht_slots t)) None) 0.

(** htable.c:126-138, with a callback that always continues; 145-155: the
    iterator visits the same buckets in the same order. *)
Fixpoint enumerate (d : list bucket) : list E :=
  match d with
  | [] => []
  | Some (_, e) :: rest => e :: enumerate rest
  | None :: rest => enumerate rest
  end.

Inductive top := TInsert (e : E) | TFind (e : E) | TRemove (e : E) | TClear | TSize.
Inductive tout := TBool (b : bool) | TElem (o : option E) | TNum (n : N) | TUnit.

Definition ht_step (t : htable) (o : top) : tres (htable * tout) :=
  match o with
  | TInsert e => tbind (ht_insert t e) (λ r, TOk (fst r, TBool (snd r)))
  | TFind e =>
    tbind (ht_find t e) (λ r,
    TOk (t, TElem (match r with Some i => elem_at t i | None => None end)))
  | TRemove e => tbind (ht_remove t e) (λ r, TOk (fst r, TBool (snd r)))
  | TClear => TOk (ht_clear t, TUnit)
  | TSize => TOk (t, TNum (ht_size t))
  end.
Fixpoint ht_run (t : htable) (ops : list top) : tres (htable * list tout) :=
  match ops with
  | [] => TOk (t, [])
  | o :: rest =>
    tbind (ht_step t o) (λ r,
    tbind (ht_run (fst r) rest) (λ r',
    TOk (fst r', snd r :: snd r')))
  end.
End table.
Arguments HTable {E}. Arguments htable : clear implicits.
Arguments top : clear implicits. Arguments tout : clear implicits.
