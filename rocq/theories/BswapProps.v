(** C27: byte-order conversion. *)
From stdpp Require Import list numbers.
From Verif Require Import FnvSpec BswapModel BswapSpec BswapProofs.
Local Open Scope N_scope.

(** Each swap reverses the bytes of its argument (and stays in range). *)
Theorem bswap16_reverses_bytes x :
  le_bytes 2 (bswap16 x) = rev (le_bytes 2 x) /\ bswap16 x < 2 ^ 16.
Proof. exact (bswap_from_value 2 x _ (bswap16_value x)). Qed.
Print Assumptions bswap16_reverses_bytes.
Theorem bswap32_reverses_bytes x :
  le_bytes 4 (bswap32 x) = rev (le_bytes 4 x) /\ bswap32 x < 2 ^ 32.
Proof. exact (bswap_from_value 4 x _ (bswap32_value x)). Qed.
Print Assumptions bswap32_reverses_bytes.
Theorem bswap64_reverses_bytes x :
  le_bytes 8 (bswap64 x) = rev (le_bytes 8 x) /\ bswap64 x < 2 ^ 64.
Proof. exact (bswap_from_value 8 x _ (bswap64_value x)). Qed.
Print Assumptions bswap64_reverses_bytes.

(** Swapping twice gives the value back. *)
Theorem bswap16_involution x : x < 2 ^ 16 -> bswap16 (bswap16 x) = x.
Proof. exact (bswap_involution 2 bswap16 x bswap16_value). Qed.
Print Assumptions bswap16_involution.
Theorem bswap32_involution x : x < 2 ^ 32 -> bswap32 (bswap32 x) = x.
Proof. exact (bswap_involution 4 bswap32 x bswap32_value). Qed.
Print Assumptions bswap32_involution.
Theorem bswap64_involution x : x < 2 ^ 64 -> bswap64 (bswap64 x) = x.
Proof. exact (bswap_involution 8 bswap64 x bswap64_value). Qed.
Print Assumptions bswap64_involution.

(** Host-to-network conversions put the value in memory in big-endian order on
    machines of either byte order, and network-to-host conversions invert them. *)
Theorem hton_is_big_endian o x :
  memory_bytes o 2 (htons o x) = rev (le_bytes 2 x) /\
  memory_bytes o 4 (htonl o x) = rev (le_bytes 4 x) /\
  memory_bytes o 8 (htonll o x) = rev (le_bytes 8 x).
Proof.
  destruct o; [done|]. split_and!; cbn [memory_bytes].
  - exact (proj1 (bswap16_reverses_bytes x)).
  - exact (proj1 (bswap32_reverses_bytes x)).
  - exact (proj1 (bswap64_reverses_bytes x)).
Qed.
Print Assumptions hton_is_big_endian.

Theorem ntoh_hton o x :
  (x < 2 ^ 16 -> ntohs o (htons o x) = x) /\
  (x < 2 ^ 32 -> ntohl o (htonl o x) = x) /\
  (x < 2 ^ 64 -> ntohll o (htonll o x) = x).
Proof.
  destruct o; [done|]. split_and!.
  - exact (bswap16_involution x).
  - exact (bswap32_involution x).
  - exact (bswap64_involution x).
Qed.
Print Assumptions ntoh_hton.

Example bswap_example :
  bswap16 0x1234 = 0x3412 /\ bswap32 0x12345678 = 0x78563412 /\
  bswap64 0x0123456789abcdef = 0xefcdab8967452301 /\ 0x0123456789abcdef < 2 ^ 64 /\
  memory_bytes LittleEndian 2 (htons LittleEndian 8080) = [31; 144].
Proof. vm_compute. split_and!; done. Qed.
