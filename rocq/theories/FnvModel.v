(** Model of the FNV-1a hashing of the compiler (src/cxy/core/hash.c) and of the
    cxy runtime (src/cxy/runtime/builtins.cxy:255-350).

    Bytes are [N] below 256, hash codes [N] below 2^32, 64-bit sizes [N] below
    2^64.  Memory behind a pointer is the list of bytes that may be read there;
    reading past it is the outcome [None]. *)
From stdpp Require Import list numbers.
From Verif Require Export StrPoolModel.

(** hash.c:16-18 [hashUint8] is [StrPoolModel.fnv_byte], hash.c:40-45
    [hashRawBytes] is [StrPoolModel.hash_raw_bytes].
    The argument is a [uint8_t], so wider values are truncated. *)
Definition hash_uint8 (h x : N) : N := fnv_byte h (x mod 256).
(** hash.c:18-21. [x] is a [uint16_t]. *)
Definition hash_uint16 (h x : N) : N :=
  let x := (x mod 2 ^ 16)%N in hash_uint8 (hash_uint8 h x) (N.shiftr x 8).
(** hash.c:23-26. *)
Definition hash_uint32 (h x : N) : N :=
  let x := (x mod 2 ^ 32)%N in hash_uint16 (hash_uint16 h x) (N.shiftr x 16).
(** hash.c:28-31. *)
Definition hash_uint64 (h x : N) : N :=
  let x := (x mod 2 ^ 64)%N in hash_uint32 (hash_uint32 h x) (N.shiftr x 32).

(** hash.c:33-38, and builtins.cxy:276-284 [hash_fnv1a_string]: stops at NUL. *)
Fixpoint hash_str (h : N) (mem : list N) : option N :=
  match mem with
  | [] => None
  | c :: mem' => if (c =? 0)%N then Some h else hash_str (hash_uint8 h c) mem'
  end.

(** builtins.cxy:264-271: the runtime masks before narrowing. *)
Definition rt_hash_uint16 (h x : N) : N :=
  hash_uint8 (hash_uint8 h (N.land x 0xff)) (N.shiftr x 8).
Definition rt_hash_uint32 (h x : N) : N :=
  rt_hash_uint16 (rt_hash_uint16 h (N.land x 0xffff)) (N.shiftr x 16).
Definition rt_hash_uint64 (h x : N) : N :=
  rt_hash_uint32 (rt_hash_uint32 h (N.land x 0xffffffff)) (N.shiftr x 32).

(** builtins.cxy:256, the initial value of [hash]. *)
Definition rt_init : N := 0x01000193.

(** builtins.cxy:286-294 [hash_fnv1a_n_string]: [while (i < len)]. *)
Fixpoint n_string_loop (h : N) (mem : list N) (i len : N) : option N :=
  if (i <? len)%N then
    match mem with
    | [] => None
    | c :: mem' => n_string_loop (hash_uint8 h c) mem' (i + 1) len
    end
  else Some h.
Definition hash_fnv1a_n_string (h : N) (mem : list N) (len : N) : option N :=
  n_string_loop h mem 0 len.

(** builtins.cxy:317-327 [hash_fnv1a_bytes]: [for (const i: 0..size-1)].  A
    range loop is lowered to [x = start; while (x != end) { body; x += 1 }]
    (lang/middle/simplify/simplify.c:124-187: the operator is [opNe]).
    [size-1] is 64-bit unsigned arithmetic.
    Simplification: the index is taken to be as wide as the sizes. *)
Fixpoint bytes_loop (h : N) (mem : list N) (i last : N) : option N :=
  if (i =? last)%N then Some h else
    match mem with
    | [] => None
    | c :: mem' => bytes_loop (hash_uint8 h c) mem' (i + 1) last
    end.
Definition hash_fnv1a_bytes (h : N) (mem : list N) (size : N) : option N :=
  bytes_loop h mem 0 ((size + (2 ^ 64 - 1)) mod 2 ^ 64).

(** builtins.cxy:444, [__string.`hash`]: a string slice of [size] bytes. *)
Definition slice_hash (mem : list N) (size : N) : option N :=
  hash_fnv1a_n_string rt_init mem size.

(** builtins.cxy:896-904, [String.`hash`]. [data] is null or a buffer of which
    the first [size] bytes are the contents. *)
Definition String_hash (data : option (list N)) (size : N) : option N :=
  match data with
  | Some mem => hash_fnv1a_bytes rt_init mem size
  | None => Some rt_init
  end.
