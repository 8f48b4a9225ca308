(** Model of the compiler's Robin-Hood map (src/cxy/core/hmap.c), used by the
    drop analysis (lang/middle/mem/manage.c).

    Simplifications: a slot whose stored hash word is 0 is [None]; an occupied
    slot carries [home] = the stored word minus one (hmap.c:113 stores [i + 1])
    and the element.  [nslots] is the length of the slot list.  [hash] and
    [equal] are parameters.  The table size policy [hmapIdealSize]
    (hmap.c:19-31) and its table of primes are textually those of hash.cxy and
    are taken from HashMapModel.  [hmapGet]'s test for a pointer into the
    table itself (hmap.c:250-254) is left out: arguments are never such
    pointers. *)
From stdpp Require Import list numbers.
From Verif Require Import HashMapModel.

Inductive mres (A : Type) : Type :=
  | MOk (a : A)
  | MHang              (* fuel exhausted *)
  | MDivZero           (* [% nslots] with no slots *)
  | MNoMem             (* calloc of 2^60 or more slots; the result is used unchecked *)
  | MNested.           (* a rehash from within a rehash; shown not to happen *)
Arguments MOk {A} a. Arguments MHang {A}. Arguments MDivZero {A}.
Arguments MNoMem {A}. Arguments MNested {A}.
Definition mbind_ {A B} (r : mres A) (f : A → mres B) : mres B :=
  match r with
  | MOk a => f a | MHang => MHang | MDivZero => MDivZero | MNoMem => MNoMem
  | MNested => MNested
  end.

(** hmap.c:48-55, [hmapProbe]; here the value is signed, so the wrap is seen. *)
Definition c_probe (nslots i home : nat) : Z :=
  let v := (Z.of_nat i - Z.of_nat home)%Z in
  if (v <? 0)%Z then (Z.of_nat nslots + v)%Z else v.

Section map.
Context {E : Type} (hash : E → N) (equal : E → E → bool).
Local Notation slot := (option (nat * E)).
Record chmap := CHmap { ch_slots : list slot; ch_items : N }.

Definition c_home (nslots : nat) (e : E) : nat := N.to_nat (hash e mod N.of_nat nslots).
Definition c_next (nslots i : nat) : nat := S i mod nslots.

Definition c_alloc (n : N) : mres (list slot) :=
  if (n <? 2 ^ 60)%N then MOk (replicate (N.to_nat n) None) else MNoMem.

(** hmap.c:117-151, the loop of [hmapPutInternal]; [h], [x] are the contents of
    sspace0. *)
Fixpoint c_put_loop (fuel : nat) (d : list slot) (i : nat) (j : Z) (h : nat) (x : E)
    : mres (list slot * bool) :=
  match fuel with
  | O => MHang
  | S f =>
    match d !! i with
    | Some (Some (h', y)) =>
      if equal y x then MOk (<[i := Some (h, x)]> d, false)
      else
        let p := c_probe (length d) i h' in
        if (p <=? j)%Z then
          c_put_loop f (<[i := Some (h, x)]> d) (c_next (length d) i) (p + 1) h' y
        else c_put_loop f d (c_next (length d) i) (j + 1) h x
    | _ => MOk (<[i := Some (h, x)]> d, true)
    end
  end.

(** hmap.c:103-152. *)
Definition c_put_internal (m : chmap) (x : E) : mres (chmap * bool) :=
  let d := ch_slots m in
  if (length d =? 0)%nat then MDivZero
  else
    let i := c_home (length d) x in
    mbind_ (c_put_loop (S (length d)) d i 0 i x) (λ r,
    MOk (CHmap (fst r) (if (snd r : bool) then ch_items m + 1 else ch_items m)%N, snd r)).

(** hmap.c:77-83: elements are put again with [hmapPut], which may itself ask
    for a larger table (238-244). *)
Fixpoint c_rehash_loop (old : list slot) (m : chmap) : mres chmap :=
  match old with
  | [] => MOk m
  | None :: rest => c_rehash_loop rest m
  | Some (_, x) :: rest =>
    mbind_ (c_put_internal m x) (λ r,
    if (snd r : bool) && (N.of_nat (length (ch_slots (fst r))) <? ideal_size (ch_items (fst r)))%N
    then MNested
    else c_rehash_loop rest (fst r))
  end.
(** hmap.c:67-86. *)
Definition c_rehash (m : chmap) (n : N) : mres chmap :=
  mbind_ (c_alloc n) (λ d, c_rehash_loop (ch_slots m) (CHmap d 0)).

(** hmap.c:88-95, 97-104. *)
Definition c_resize_more (m : chmap) : mres chmap :=
  let n := ideal_size (ch_items m) in
  if (N.of_nat (length (ch_slots m)) <? n)%N then c_rehash m n else MOk m.
Definition c_resize_less (m : chmap) : mres chmap :=
  let n := ideal_size (ch_items m) in
  if (n <? N.of_nat (length (ch_slots m)))%N then c_rehash m n else MOk m.

(** hmap.c:154-172, [hmapInitWithCapacity]. *)
Definition c_init (capacity : N) : mres chmap :=
  mbind_ (c_alloc (ideal_size capacity)) (λ d, MOk (CHmap d 0)).
(** hmap.c:184-190. *)
Definition c_clear (m : chmap) : chmap := CHmap [] 0.

(** hmap.c:238-244. *)
Definition c_put (m : chmap) (x : E) : mres (chmap * bool) :=
  mbind_ (c_put_internal m x) (λ r,
  if (snd r : bool) then mbind_ (c_resize_more (fst r)) (λ m', MOk (m', true))
  else MOk r).

(** hmap.c:263-273 and the search part of 203-236: slot of the element equal to
    [x], if found. *)
Fixpoint c_find_loop (fuel : nat) (d : list slot) (i : nat) (j : Z) (x : E)
    : mres (option nat) :=
  match fuel with
  | O => MHang
  | S f =>
    match d !! i with
    | Some (Some (h', y)) =>
      if (c_probe (length d) i h' <? j)%Z then MOk None
      else if equal y x then MOk (Some i)
      else c_find_loop f d (c_next (length d) i) (j + 1) x
    | _ => MOk None
    end
  end.
Definition c_find (m : chmap) (x : E) : mres (option nat) :=
  let d := ch_slots m in
  if (length d =? 0)%nat then MOk None
  else c_find_loop (S (length d)) d (c_home (length d) x) 0 x.
(** hmap.c:246-274. *)
Definition c_get (m : chmap) (x : E) : mres (option E) :=
  mbind_ (c_find m x) (λ r,
  MOk (match r with
       | Some i => match ch_slots m !! i with Some (Some (_, y)) => Some y | _ => None end
       | None => None end)).

(** hmap.c:213-228, the back-shift; slot [i] has just been zeroed. *)
Fixpoint c_backshift (fuel : nat) (d : list slot) (i : nat) : mres (list slot) :=
  match fuel with
  | O => MHang
  | S f =>
    let ni := c_next (length d) i in
    match d !! ni with
    | Some (Some (h', y)) =>
      if (0 <? c_probe (length d) ni h')%Z then
        c_backshift f (<[ni := None]> (<[i := Some (h', y)]> d)) ni
      else MOk d
    | _ => MOk d
    end
  end.
(** hmap.c:192-236. *)
Definition c_remove (m : chmap) (x : E) : mres chmap :=
  mbind_ (c_find m x) (λ r,
  match r with
  | None => MOk m
  | Some i =>
    mbind_ (c_backshift (S (length (ch_slots m))) (<[i := None]> (ch_slots m)) i) (λ d,
    c_resize_less (CHmap d (N.pred (ch_items m))))
  end).

(** hmap.c:276-288: the elements the iterator yields, in order. *)
Fixpoint c_iter (d : list slot) : list E :=
  match d with
  | [] => []
  | Some (_, x) :: rest => x :: c_iter rest
  | None :: rest => c_iter rest
  end.

Inductive cop := CPut (x : E) | CGet (x : E) | CRemove (x : E) | CItems.
Inductive cout := CNew (b : bool) | CElem (o : option E) | CDone | CNum (n : N).
Definition c_step (m : chmap) (o : cop) : mres (chmap * cout) :=
  match o with
  | CPut x => mbind_ (c_put m x) (λ r, MOk (fst r, CNew (snd r)))
  | CGet x => mbind_ (c_get m x) (λ r, MOk (m, CElem r))
  | CRemove x => mbind_ (c_remove m x) (λ m', MOk (m', CDone))
  | CItems => MOk (m, CNum (ch_items m))
  end.
Fixpoint c_run (m : chmap) (ops : list cop) : mres (chmap * list cout) :=
  match ops with
  | [] => MOk (m, [])
  | o :: rest =>
    mbind_ (c_step m o) (λ r,
    mbind_ (c_run (fst r) rest) (λ r',
    MOk (fst r', snd r :: snd r')))
  end.
End map.
Arguments CHmap {E}. Arguments chmap : clear implicits.
Arguments cop : clear implicits. Arguments cout : clear implicits.
