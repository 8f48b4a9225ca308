(** Model of the byte swapping helpers, src/cxy/runtime/builtins.cxy:87-109, and
    of the byte order conversions of src/cxy/stdlib/net.cxy:44-119.
    Unsigned values are [N]; the C shifts to the left are truncated to the width
    of the result type. *)
From stdpp Require Import numbers.
Local Open Scope N_scope.

(** builtins.cxy:88. The operands are promoted to [int]; the result is cast. *)
Definition bswap16 (x : N) : N :=
  N.lor (N.land (N.shiftr x 8) 0xff) (N.shiftl (N.land x 0xff) 8) mod 2 ^ 16.

(** builtins.cxy:91-96. *)
Definition bswap32 (x : N) : N :=
  let sl a n := N.shiftl a n mod 2 ^ 32 in
  N.lor (N.lor (N.lor
    (N.shiftr (N.land x 0xff000000) 24)
    (N.shiftr (N.land x 0x00ff0000) 8))
    (sl (N.land x 0x0000ff00) 8))
    (sl (N.land x 0x000000ff) 24).

(** builtins.cxy:99-108. *)
Definition bswap64 (x : N) : N :=
  let sl a n := N.shiftl a n mod 2 ^ 64 in
  N.lor (N.lor (N.lor (N.lor (N.lor (N.lor (N.lor
    (N.shiftr (N.land x 0xff00000000000000) 56)
    (N.shiftr (N.land x 0x00ff000000000000) 40))
    (N.shiftr (N.land x 0x0000ff0000000000) 24))
    (N.shiftr (N.land x 0x000000ff00000000) 8))
    (sl (N.land x 0x00000000ff000000) 8))
    (sl (N.land x 0x0000000000ff0000) 24))
    (sl (N.land x 0x000000000000ff00) 40))
    (sl (N.land x 0x00000000000000ff) 56).

Inductive byte_order := BigEndian | LittleEndian.

(** net.cxy:44-119: [htons]/[ntohs], [htonl]/[ntohl], [htonll]/[ntohll] have the
    same body pairwise. *)
Definition htons (o : byte_order) (x : N) : N :=
  match o with BigEndian => x | LittleEndian => bswap16 x end.
Definition htonl (o : byte_order) (x : N) : N :=
  match o with BigEndian => x | LittleEndian => bswap32 x end.
Definition htonll (o : byte_order) (x : N) : N :=
  match o with BigEndian => x | LittleEndian => bswap64 x end.
Definition ntohs (o : byte_order) (x : N) : N :=
  match o with BigEndian => x | LittleEndian => bswap16 x end.
Definition ntohl (o : byte_order) (x : N) : N :=
  match o with BigEndian => x | LittleEndian => bswap32 x end.
Definition ntohll (o : byte_order) (x : N) : N :=
  match o with BigEndian => x | LittleEndian => bswap64 x end.
