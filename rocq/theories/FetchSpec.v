(** Percent-decoding (RFC 3986) and the format of a multipart/form-data body (RFC 7578). *)
From Coq Require Import NArith.
From stdpp Require Import numbers list.
Local Open Scope N_scope.

Definition unreserved (c : N) : Prop :=
  65 <= c <= 90 \/ 97 <= c <= 122 \/ 48 <= c <= 57 \/ c = 45 \/ c = 46 \/ c = 95 \/ c = 126.
Definition hex_digit (c v : N) : Prop :=
  (48 <= c <= 57 /\ v = c - 48) \/ (65 <= c <= 70 /\ v = c - 55) \/ (97 <= c <= 102 /\ v = c - 87).
(** [decodes t s]: the text [t] consists of unreserved characters and %XX triples and
    stands for the bytes [s]. *)
Inductive decodes : list N -> list N -> Prop :=
  | dec_nil : decodes [] []
  | dec_plain c t s : unreserved c -> decodes t s -> decodes (c :: t) (c :: s)
  | dec_triple h l x y t s : hex_digit h x -> hex_digit l y -> decodes t s ->
      decodes (37 :: h :: l :: t) (x * 16 + y :: s).
