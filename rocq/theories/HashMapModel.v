(** Model of the standard library's [HashMap] (src/cxy/stdlib/hash.cxy).

    Simplifications, common to the whole file:
    - a slot whose [hash] field is 0 (hash.cxy:16, the all-zero calloc'ed or
      [zero!]ed slot) is [None]; an occupied slot carries [nd_home], the stored
      [hash] field minus one (hash.cxy:102 stores [i + 1]);
    - [_capacity] is the length of the slot list;
    - move/copy/destructor calls on keys and values ([&&], [delete]) have no
      effect on the map's contents and are left out;
    - [Hasher] and [Cmp] (hash.cxy:34) are the parameters [hash] and [eqb];
    - an allocation of 2^60 or more nodes fails ([OutOfMemory]): it would need
      at least 2^64 bytes. *)
From stdpp Require Import list numbers.

Inductive res (A : Type) : Type :=
  | Ok (a : A)          (* the call returns [a] *)
  | Hang                (* the loop did not stop within the fuel *)
  | OutOfBounds         (* a slot outside the table is touched *)
  | OutOfMemory.        (* calloc cannot succeed *)
Arguments Ok {A} a. Arguments Hang {A}.
Arguments OutOfBounds {A}. Arguments OutOfMemory {A}.

Definition rbind {A B} (r : res A) (f : A → res B) : res B :=
  match r with
  | Ok a => f a | Hang => Hang | OutOfBounds => OutOfBounds
  | OutOfMemory => OutOfMemory
  end.

(** hash.cxy:8-12, [HMAP_RIMES]. *)
Definition hmap_primes : list N :=
  [0; 1; 5; 11; 23; 53; 101; 197; 389; 683; 1259; 2417; 4733; 9371; 18617;
   37097; 74093; 148073; 296099; 592019; 1100009; 2200013; 4400021; 8800019]%N.

(** hash.cxy:47-48, [while (last < size) last <<= 1]; 64 rounds of doubling
    suffice for any 64-bit size. *)
Fixpoint double_until (fuel : nat) (last size : N) : N :=
  match fuel with
  | O => last
  | S f => if (last <? size)%N then double_until f (N.shiftl last 1) size
           else last
  end.

(** hash.cxy:39-50, [idealSize].  [<u64>(<f64>(size + 1) / 0.9)] is modelled by
    the exact quotient floor(10 (size+1) / 9); the binary64 quotient agrees
    with it for all sizes below 2^49. *)
Definition ideal_size (size : N) : N :=
  let size' := (10 * (size + 1) / 9)%N in
  match list_find (λ p, size' <= p)%N hmap_primes with
  | Some (_, p) => p
  | None => double_until 64 8800019 size'
  end.

(** hash.cxy:52-57, [probe]: [i - (h - 1)] on u64; the test [v < 0] is never
    true of an unsigned value, so the subtraction simply wraps. *)
Definition probe (i home : nat) : N :=
  ((N.of_nat i + 2 ^ 64 - N.of_nat home) mod 2 ^ 64)%N.

Section hashmap.
Context {K V : Type} (hash : K → N) (eqb : K → K → bool).

(** hash.cxy:15-32, [HashMapNode]. *)
Record node := Node { nd_home : nat; nd_key : K; nd_val : V }.
Local Notation slots := (list (option node)).
(** hash.cxy:34-37. *)
Record hmap := HMap { hm_data : slots; hm_size : N }.

(** [__calloc] of [n] nodes, hash.cxy:68, 96, 172. *)
Definition alloc (n : N) : res slots :=
  if (n <? 2 ^ 60)%N then Ok (replicate (N.to_nat n) None) else OutOfMemory.

(** hash.cxy:100, 133, 198: [Hasher{}(key) % _capacity]. *)
Definition home_of (cap : nat) (k : K) : nat :=
  N.to_nat (hash k mod N.of_nat cap).

Definition nexti (cap i : nat) : nat := S i mod cap.

(** hash.cxy:103-126, the [while] of [insertInternal]. *)
Fixpoint insert_loop (fuel : nat) (d : slots) (i : nat) (j : N) (item : node)
    (replace : bool) : res (slots * bool) :=
  match fuel with
  | O => Hang
  | S f =>
    match d !! i with
    | None => OutOfBounds
    | Some None => Ok (<[i := Some item]> d, true)
    | Some (Some nd) =>
      if eqb (nd_key nd) (nd_key item) then
        Ok (if replace then <[i := Some item]> d else d, false)
      else
        let p := probe i (nd_home nd) in
        if (p <? j)%N then
          insert_loop f (<[i := Some item]> d) (nexti (length d) i) (p + 1)
            nd replace
        else insert_loop f d (nexti (length d) i) (j + 1) item replace
    end
  end.

(** hash.cxy:92-127, [insertInternal]. *)
Definition insert_internal (m : hmap) (k : K) (v : V) (replace : bool)
    : res (hmap * bool) :=
  rbind (if decide (length (hm_data m) = 0) then alloc (ideal_size 1)
         else Ok (hm_data m)) (λ d,
  let h := home_of (length d) k in
  rbind (insert_loop (S (length d)) d h 0 (Node h k v) replace) (λ r,
  Ok (HMap (fst r) (if (snd r : bool) then hm_size m + 1 else hm_size m)%N,
      snd r))).

(** hash.cxy:70-74, the re-insertion loop of [rehash]. *)
Fixpoint rehash_loop (old : slots) (m : hmap) : res hmap :=
  match old with
  | [] => Ok m
  | None :: rest => rehash_loop rest m
  | Some nd :: rest =>
    rbind (insert_internal m (nd_key nd) (nd_val nd) true) (λ r,
    rehash_loop rest (fst r))
  end.

(** hash.cxy:62-76, [rehash]. *)
Definition rehash (m : hmap) (new_cap : N) : res hmap :=
  rbind (alloc new_cap) (λ d, rehash_loop (hm_data m) (HMap d 0)).

(** hash.cxy:78-83. *)
Definition resize_more (m : hmap) : res hmap :=
  let n := ideal_size (hm_size m) in
  if (N.of_nat (length (hm_data m)) <? n)%N then rehash m n else Ok m.

(** hash.cxy:85-90. *)
Definition resize_less (m : hmap) : res hmap :=
  let n := ideal_size (hm_size m) in
  if (n <? N.of_nat (length (hm_data m)))%N then rehash m n else Ok m.

(** hash.cxy:136-146, the [while] of [getInternal]. *)
Fixpoint get_loop (fuel : nat) (d : slots) (i : nat) (j : N) (k : K)
    : res (option nat) :=
  match fuel with
  | O => Hang
  | S f =>
    match d !! i with
    | None => OutOfBounds
    | Some None => Ok None
    | Some (Some nd) =>
      if (probe i (nd_home nd) <? j)%N then Ok None
      else if eqb (nd_key nd) k then Ok (Some i)
      else get_loop f d (nexti (length d) i) (j + 1) k
    end
  end.

(** hash.cxy:129-147 and 149-167, [getInternal]. *)
Definition get_internal (m : hmap) (k : K) : res (option nat) :=
  if (hm_size m =? 0)%N then Ok None
  else get_loop (S (length (hm_data m))) (hm_data m)
         (home_of (length (hm_data m)) k) 0 k.

(** hash.cxy:169-174, [init]. *)
Definition hm_init (initial : N) : res hmap :=
  rbind (alloc (ideal_size initial)) (λ d, Ok (HMap d 0)).

(** hash.cxy:181-192, [clear]. *)
Definition hm_clear (m : hmap) : hmap := HMap [] 0.

(** hash.cxy:209-220, the back-shift loop of [remove]; slot [i] has just been
    zeroed. *)
Fixpoint backshift (fuel : nat) (d : slots) (i : nat) : res slots :=
  match fuel with
  | O => Hang
  | S f =>
    let ni := nexti (length d) i in
    match d !! ni with
    | None => OutOfBounds
    | Some None => Ok d
    | Some (Some nd) =>
      if (0 <? probe ni (nd_home nd))%N then
        backshift f (<[ni := None]> (<[i := Some nd]> d)) ni
      else Ok d
    end
  end.

(** hash.cxy:194-230, [remove].  The search loop (200-229) makes the same tests
    as [getInternal]'s and is modelled by [get_loop]. *)
Definition hm_remove (m : hmap) (k : K) : res hmap :=
  if (hm_size m =? 0)%N then Ok m
  else
    rbind (get_loop (S (length (hm_data m))) (hm_data m)
             (home_of (length (hm_data m)) k) 0 k) (λ r,
    match r with
    | None => Ok m
    | Some i =>
      rbind (backshift (S (length (hm_data m))) (<[i := None]> (hm_data m)) i)
        (λ d, resize_less (HMap d (N.pred (hm_size m))))
    end).

(** hash.cxy:245-251, [insert]; 275-276, [`[]=`] is [insert] with [replace]. *)
Definition hm_insert (m : hmap) (k : K) (v : V) (replace : bool)
    : res (hmap * bool) :=
  rbind (insert_internal m k v replace) (λ r,
  if (snd r : bool) then
    rbind (resize_more (fst r)) (λ m', Ok (m', true))
  else Ok r).

(** hash.cxy:253-273, [get] and [`[]`]. *)
Definition hm_get (m : hmap) (k : K) : res (option V) :=
  rbind (get_internal m k) (λ r,
  match r with
  | None => Ok None
  | Some i =>
    match hm_data m !! i with
    | Some (Some nd) => Ok (Some (nd_val nd))
    | _ => OutOfBounds
    end
  end).

(** hash.cxy:232-233. *)
Definition hm_contains (m : hmap) (k : K) : res bool :=
  rbind (get_internal m k) (λ r,
  Ok (match r with Some _ => true | None => false end)).

(** hash.cxy:280-289 and 294-303: one call of the iterator closure; [rest] is
    the part of the table from index [i] on.  Returns the pair and the new
    index. *)
Fixpoint iter_next (rest : slots) (i : nat) : option (K * V) * nat :=
  match rest with
  | [] => (None, i)
  | Some nd :: _ => (Some (nd_key nd, nd_val nd), S i)
  | None :: rest' => iter_next rest' (S i)
  end.

(** A [for] loop over the iterator: call it until it yields null. *)
Fixpoint iter_all (fuel : nat) (d : slots) (i : nat) : res (list (K * V)) :=
  match fuel with
  | O => Hang
  | S f =>
    match iter_next (drop i d) i with
    | (None, _) => Ok []
    | (Some kv, i') => rbind (iter_all f d i') (λ l, Ok (kv :: l))
    end
  end.

(** hash.cxy:306-313, [each]: the calls made to [fun], in order. *)
Fixpoint each_calls (d : slots) : list (K * V) :=
  match d with
  | [] => []
  | Some nd :: rest => (nd_key nd, nd_val nd) :: each_calls rest
  | None :: rest => each_calls rest
  end.

(** hash.cxy:315-323, [map]: the loop variable [i] is never advanced. *)
Fixpoint map_loop {U} (fuel : nat) (f : K → V → U) (d : slots) (i : nat)
    (output : list U) : res (list U) :=
  match fuel with
  | O => Hang
  | S fu =>
    if (i <? length d)%nat then
      match d !! i with
      | None => OutOfBounds
      | Some None => map_loop fu f d i output
      | Some (Some nd) =>
        map_loop fu f d i (output ++ [f (nd_key nd) (nd_val nd)])
      end
    else Ok output
  end.
Definition hm_map {U} (fuel : nat) (f : K → V → U) (m : hmap) : res (list U) :=
  map_loop fuel f (hm_data m) 0 [].

(** The public operations of a map and a run over a history of them. *)
Inductive op :=
  | OpInsert (k : K) (v : V) (replace : bool)
  | OpRemove (k : K)
  | OpGet (k : K)
  | OpContains (k : K)
  | OpSize
  | OpClear.
Inductive out :=
  | OutBool (b : bool) | OutVal (v : option V) | OutSize (n : N) | OutUnit.

Definition hm_step (m : hmap) (o : op) : res (hmap * out) :=
  match o with
  | OpInsert k v r =>
    rbind (hm_insert m k v r) (λ x, Ok (fst x, OutBool (snd x)))
  | OpRemove k => rbind (hm_remove m k) (λ m', Ok (m', OutUnit))
  | OpGet k => rbind (hm_get m k) (λ v, Ok (m, OutVal v))
  | OpContains k => rbind (hm_contains m k) (λ b, Ok (m, OutBool b))
  | OpSize => Ok (m, OutSize (hm_size m))
  | OpClear => Ok (hm_clear m, OutUnit)
  end.

Fixpoint hm_run (m : hmap) (ops : list op) : res (hmap * list out) :=
  match ops with
  | [] => Ok (m, [])
  | o :: rest =>
    rbind (hm_step m o) (λ r,
    rbind (hm_run (fst r) rest) (λ r',
    Ok (fst r', snd r :: snd r')))
  end.

End hashmap.
Arguments Node {K V}. Arguments HMap {K V}.
Arguments node : clear implicits.
Arguments hmap : clear implicits. Arguments op : clear implicits.
Arguments out : clear implicits.
