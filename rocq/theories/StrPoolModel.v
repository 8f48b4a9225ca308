(** Model of the compiler's string pool (src/cxy/core/strpool.c, hash.c), on top
    of the hash table of HTableModel.

    Strings are lists of bytes (without the terminating NUL of the pooled
    copies).  The pointer to the n-th pooled copy is the number n; the pool
    never moves or frees copies, so the content behind a pointer is fixed and
    is kept next to it in the table.  The memory pool behind it is modelled
    separately (MemPoolModel). *)
From stdpp Require Import list numbers.
From Verif Require Import Cyclic HTableModel.

(** hash.c:9, 16, 40-45. *)
Definition fnv_init : N := 0x811c9dc5.
Definition fnv_byte (h x : N) : N := (N.lxor h x * 0x01000193) mod 2 ^ 32.
Definition hash_raw_bytes (h : N) (s : list N) : N := fold_left fnv_byte s h.

(** C's [strncmp(l, s, n) == 0]; [l] is NUL-terminated, [s] has at least [n]
    bytes or is NUL-terminated. *)
Fixpoint strncmp_eq (l s : list N) (n : nat) : bool :=
  match n with
  | O => true
  | S n' =>
    let a := hd 0%N l in let b := hd 0%N s in
    if (a =? b)%N then (if (a =? 0)%N then true else strncmp_eq (tl l) (tl s) n')
    else false
  end.

(** Table elements: pointer and what it points at. *)
Notation pooled := (nat * list N)%type.
Definition pool_hash (e : pooled) : N := hash_raw_bytes fnv_init (snd e).
(** strpool.c:26-30, [compareStrFind]; [right] is the request. *)
Definition compare_str (left right : pooled) : bool :=
  strncmp_eq (snd left) (snd right) (length (snd right)).

Record strpool := StrPool { sp_table : htable pooled; sp_next : nat }.

Inductive sres (A : Type) : Type :=
  | SOk (a : A)
  | SUndef   (* [compareStrInsert] (strpool.c:32-36) is called on [&newStr],
                which is no SizedString: it reads the word after [newStr] *)
  | SHang | SAssert.
Arguments SOk {A} a. Arguments SUndef {A}. Arguments SHang {A}. Arguments SAssert {A}.

(** Whether the probe loop of [insertInHashTable] (htable.c:95-100) reaches a
    bucket with the same stored hash and so calls the comparison. *)
Fixpoint insert_compares (fuel : nat) (d : list (option (N * pooled))) (i : nat) (h : N) : bool :=
  match fuel with
  | O => false
  | S f =>
    match d !! i with
    | Some (Some (h', _)) =>
      if (h' =? h)%N then true else insert_compares f d (increment_wrap (length d) i) h
    | _ => false
    end
  end.

(** strpool.c:14-18 with htable.c:28-31 and 10 (capacity 4). *)
Definition new_str_pool : strpool := StrPool (ht_new 4) 0.

(** strpool.c:70-88, [makeStringSized]. *)
Definition make_string_sized (p : strpool) (str : list N) : sres (strpool * nat) :=
  let key := (sp_next p, str) in
  let t := sp_table p in
  match ht_find pool_hash compare_str t key with
  | TOk (Some i) =>
    match elem_at t i with Some e => SOk (p, fst e) | None => SUndef end
  | TOk None =>
    let h := stored_hash pool_hash key in
    if insert_compares (S (length (ht_slots t))) (ht_slots t) (home (length (ht_slots t)) h) h
    then SUndef
    else
      match ht_insert pool_hash (λ _ _, false) t key with
      | TOk (t', true) => SOk (StrPool t' (S (sp_next p)), sp_next p)
      | TOk (_, false) => SAssert
      | THang => SHang | TAssert => SAssert
      end
  | THang => SHang | TAssert => SAssert
  end.

(** The content behind a pointer. *)
Definition content (p : strpool) (ptr : nat) : option (list N) :=
  snd <$> List.find (λ e, (fst e =? ptr)%nat) (enumerate (ht_slots (sp_table p))).

(** A sequence of requests and the pointers returned. *)
Fixpoint request_all (p : strpool) (rs : list (list N)) : sres (strpool * list nat) :=
  match rs with
  | [] => SOk (p, [])
  | r :: rest =>
    match make_string_sized p r with
    | SOk (p', ptr) =>
      match request_all p' rest with
      | SOk (p'', ptrs) => SOk (p'', ptr :: ptrs)
      | e => e
      end
    | SUndef => SUndef | SHang => SHang | SAssert => SAssert
    end
  end.
