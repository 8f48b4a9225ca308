(** Model of the compiler's memory pool, src/cxy/core/mempool.c.

    Sizes are [size_t]: [N] below 2^64 with explicit wrap-around.  A block is its
    [size] and [capacity]; the [data] array of the n-th block of the chain is a
    region of [capacity] bytes of its own (what malloc gives), 16-byte aligned
    ([alignas(max_align_t)]).  A pointer into the pool is a block number and an
    offset.  The pool's chain is the list of blocks, [cur] the number of the
    current one ([None]: [cur == NULL]).
    The pool's free lists ([caches], one FIFO list per cache id) are kept in one
    list of (cache id, pointer, recorded size); the list of cache [c] is the
    sublist with id [c].  Its nodes live inside the freed memory itself
    (mempool.h:17-20), which is not modelled: nobody writes to freed memory.
    Not modelled: the counters [allocs]/[returns]/[count], the tracked
    allocations (no caller in the compiler), statistics. *)
From stdpp Require Import list numbers.
Local Open Scope N_scope.

Definition wrap64 (x : N) : N := x mod 2 ^ 64.

Record block := Block { b_size : N; b_cap : N }.
Notation ptr := (nat * N)%type.
Record mempool := MemPool {
  mp_blocks : list block;
  mp_cur : option nat;
  mp_caches : list (nat * (ptr * N));
}.

Inductive mres (A : Type) : Type :=
  | MOk (a : A)
  | MDie        (* mallocOrDie gave up (core/alloc.c) *)
  | MAssert     (* a failed assertion *)
  | MUndef.     (* undefined behaviour *)
Arguments MOk {A} a. Arguments MDie {A}. Arguments MAssert {A}. Arguments MUndef {A}.

(** mempool.c:18-23 *)
Definition newMemPool : mempool := MemPool [] None [].

(** mempool.c:25-29 *)
Definition remainingMem (b : block) : mres N :=
  if b_size b <=? b_cap b then MOk (b_cap b - b_size b) else MAssert.

(** [sizeof(max_align_t)] and [sizeof(MemBlock)] on x86-64. *)
Definition sizeof_max_align : N := 32.
Definition sizeof_MemBlock : N := 32.
(** mempool.h:17-20 *)
Definition sizeof_CacheItem : N := 16.

Section malloc.
(** Whether [malloc] can serve a request; any behaviour is allowed. *)
Variable malloc_ok : N -> bool.

(** mempool.c:31-43; the caller links the new block behind [prev]. *)
Definition allocMemBlock (capacity : N) : mres block :=
  let capacity := if capacity <? 1024 then 1024 else capacity in
  let total := wrap64 (sizeof_MemBlock + capacity) in
  if total <? sizeof_MemBlock + capacity then MUndef   (* too small a block *)
  else if malloc_ok total then MOk (Block 0 capacity) else MDie.

(** mempool.c:45-49 *)
Definition alignTo (size align : N) : N :=
  let offset := size mod align in
  if negb (offset =? 0) then wrap64 (size + align - offset) else size.

(** mempool.c:60-69, the loop.  [rest] is the chain from [cur] on, [n] the
    number of its first block.  Returns the chain from [cur] on (a new block may
    be appended) and the new [cur]. *)
Fixpoint find_block (rest : list block) (n : nat) (size : N) : mres (list block * nat) :=
  match rest with
  | [] => MUndef   (* not reached: cur is in the chain *)
  | b :: rest' =>
    match remainingMem b with
    | MOk r =>
      if r <? size then
        match rest' with
        | [] => match allocMemBlock size with
                | MOk nb => MOk ([b; nb], S n)
                | MDie => MDie | MAssert => MAssert | MUndef => MUndef end
        | b' :: _ =>
          if b_size b' =? 0 then
            match find_block rest' (S n) size with
            | MOk (bs, c) => MOk (b :: bs, c)
            | MDie => MDie | MAssert => MAssert | MUndef => MUndef end
          else MAssert
        end
      else MOk (rest, n)
    | MDie => MDie | MAssert => MAssert | MUndef => MUndef
    end
  end.

(** mempool.c:51-76.  [Some p] is the returned pointer, [None] is NULL. *)
Definition allocFromMemPool (m : mempool) (size : N) : mres (mempool * option ptr) :=
  if size =? 0 then MOk (m, None) else
  let size := alignTo size sizeof_max_align in
  let found :=
    match mp_cur m with
    | None => match allocMemBlock size with
              | MOk nb => MOk ([nb], O)
              | MDie => MDie | MAssert => MAssert | MUndef => MUndef end
    | Some c => match find_block (drop c (mp_blocks m)) c size with
                | MOk (bs, c') => MOk (take c (mp_blocks m) ++ bs, c')
                | MDie => MDie | MAssert => MAssert | MUndef => MUndef end
    end in
  match found with
  | MOk (bs, c) =>
    match bs !! c with
    | Some b =>
      match remainingMem b with
      | MOk r =>
        if r <? size then MAssert
        else MOk (MemPool (<[c := Block (wrap64 (b_size b + size)) (b_cap b)]> bs)
                    (Some c) (mp_caches m), Some (c, b_size b))
      | MDie => MDie | MAssert => MAssert | MUndef => MUndef
      end
    | None => MUndef
    end
  | MDie => MDie | MAssert => MAssert | MUndef => MUndef
  end.

(** First entry of cache [c], and the entries without it. *)
Fixpoint cache_pop (c : nat) (l : list (nat * (ptr * N))) :
    option ((ptr * N) * list (nat * (ptr * N))) :=
  match l with
  | [] => None
  | (c', e) :: l' =>
    if Nat.eqb c' c then Some (e, l')
    else match cache_pop c l' with
         | Some (x, r) => Some (x, (c', e) :: r)
         | None => None
         end
  end.

(** mempool.c:112-122: the size is not looked at when the cache has an entry. *)
Definition allocFromCacheOrPool (m : mempool) (c : nat) (size : N) : mres (mempool * option ptr) :=
  match cache_pop c (mp_caches m) with
  | None => allocFromMemPool m size
  | Some ((p, _), l) => MOk (MemPool (mp_blocks m) (mp_cur m) l, Some p)
  end.

(** mempool.c:124-142: the first [size] bytes are cleared and the list node is
    written into them; with a smaller size its [next] field is not cleared. *)
Definition freeMemToPoolCache (m : mempool) (c : nat) (p : ptr) (size : N) : mres mempool :=
  if size <? sizeof_CacheItem then MUndef
  else MOk (MemPool (mp_blocks m) (mp_cur m) (mp_caches m ++ [(c, (p, size))])).

(** mempool.c:144-152 *)
Definition resetMemPool (m : mempool) : mempool :=
  MemPool (map (fun b => Block 0 (b_cap b)) (mp_blocks m))
    (match mp_blocks m with [] => None | _ => Some O end) (mp_caches m).

(** mempool.c:154-173 *)
Definition freeMemPool (m : mempool) : mempool := MemPool [] None [].

(** What a client does with the pool; pointers returned so far and still in use
    are recorded with the size asked for. *)
Inductive pool_op :=
  | PAlloc (size : N)
  | PCacheAlloc (c : nat) (size : N)
  | PCacheFree (c : nat) (p : ptr) (size : N)
  | PReset
  | PFree.

Definition world : Type := mempool * list (ptr * N).

Definition forget (p : ptr) (live : list (ptr * N)) : list (ptr * N) :=
  filter (fun a => fst a <> p) live.

Definition note_alloc (r : mres (mempool * option ptr)) (live : list (ptr * N)) (size : N) : mres world :=
  match r with
  | MOk (m, Some p) => MOk (m, (p, size) :: live)
  | MOk (m, None) => MOk (m, live)
  | MDie => MDie | MAssert => MAssert | MUndef => MUndef
  end.

Definition pool_step (w : world) (o : pool_op) : mres world :=
  match o with
  | PAlloc size => note_alloc (allocFromMemPool (fst w) size) (snd w) size
  | PCacheAlloc c size => note_alloc (allocFromCacheOrPool (fst w) c size) (snd w) size
  | PCacheFree c p size =>
    match freeMemToPoolCache (fst w) c p size with
    | MOk m => MOk (m, forget p (snd w))
    | MDie => MDie | MAssert => MAssert | MUndef => MUndef
    end
  | PReset => MOk (resetMemPool (fst w), [])
  | PFree => MOk (freeMemPool (fst w), [])
  end.

Fixpoint pool_run (w : world) (ops : list pool_op) : mres world :=
  match ops with
  | [] => MOk w
  | o :: ops' => match pool_step w o with
                 | MOk w' => pool_run w' ops'
                 | MDie => MDie | MAssert => MAssert | MUndef => MUndef
                 end
  end.
End malloc.
