(** UTF-8 as defined by the Unicode standard (table 3-6), in arithmetic form. *)
From stdpp Require Import numbers list.
Local Open Scope N_scope.

(** Unicode scalar values. *)
Definition scalar_value (c : N) : Prop := c < 0xD800 \/ 0xE000 <= c < 0x110000.

(** The bytes of a code point: 1 to 4 of them, six payload bits in every byte
    but the first. *)
Definition utf8 (c : N) : list N :=
  if c <? 128 then [c]
  else if c <? 2048 then [192 + c / 64; 128 + c mod 64]
  else if c <? 65536 then [224 + c / 4096; 128 + c / 64 mod 64; 128 + c mod 64]
  else [240 + c / 262144; 128 + c / 4096 mod 64; 128 + c / 64 mod 64; 128 + c mod 64].
