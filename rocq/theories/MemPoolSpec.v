(** What a user of the memory pool relies on. *)
From stdpp Require Import list numbers.
From Verif Require Import MemPoolModel.
Local Open Scope N_scope.

(** An allocation: start and requested size; the bytes are
    [off, off + size) of block [blk]. *)
Definition overlap (a b : ptr * N) : Prop :=
  let '((ka, oa), na) := a in let '((kb, ob), nb) := b in
  ka = kb /\ exists i, oa <= i < oa + na /\ ob <= i < ob + nb.

(** Inside a block of the pool. *)
Definition inside (blocks : list block) (a : ptr * N) : Prop :=
  let '((k, off), n) := a in exists b, blocks !! k = Some b /\ off + n <= b_cap b.

Definition aligned (a : ptr * N) : Prop := snd (fst a) mod 16 = 0.

(** No two entries of the list overlap. *)
Definition pairwise_disjoint (l : list (ptr * N)) : Prop :=
  forall i j a b, i <> j -> l !! i = Some a -> l !! j = Some b -> ~ overlap a b.

Definition layout_ok (blocks : list block) (live : list (ptr * N)) : Prop :=
  Forall (inside blocks) live /\ Forall aligned live /\ pairwise_disjoint live.

(** What is asked of the client: no absurd sizes; memory is handed to a cache
    only if it is a live allocation of at least the size declared; a cache serves
    objects no larger than those handed to it; the pool is not reset while a
    cache holds memory. *)
Definition client_ok (w : world) (o : pool_op) : bool :=
  match o with
  | PAlloc size => size <? 2 ^ 63
  | PCacheAlloc c size =>
    (size <? 2 ^ 63) &&
    match cache_pop c (mp_caches (fst w)) with
    | Some ((_, n), _) => size <=? n
    | None => true
    end
  | PCacheFree c p size =>
    (16 <=? size) &&
    existsb (fun a => bool_decide (fst a = p) && (size <=? snd a)) (snd w)
  | PReset => match mp_caches (fst w) with [] => true | _ => false end
  | PFree => true
  end.

(** The client respects these rules at every step it takes. *)
Fixpoint client_respects (malloc_ok : N -> bool) (w : world) (ops : list pool_op) : bool :=
  match ops with
  | [] => true
  | o :: ops' =>
    client_ok w o &&
    match pool_step malloc_ok w o with
    | MOk w' => client_respects malloc_ok w' ops'
    | _ => true
    end
  end.
