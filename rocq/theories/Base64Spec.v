(** Base64 (RFC 4648): three bytes are one number below 2^24, written as four digits of
    base 64; a last group of one or two bytes is filled with zero bits. *)
From Coq Require Import NArith.
From stdpp Require Import numbers list.
Local Open Scope N_scope.

(** The digits A-Z a-z 0-9 and two more. *)
Definition digit (c62 c63 : N) (k : N) : N :=
  if k <? 26 then 65 + k else if k <? 52 then 97 + (k - 26) else if k <? 62 then 48 + (k - 52)
  else if k =? 62 then c62 else c63.
Fixpoint base64 (dg : N -> N) (pad : bool) (b : list N) : list N :=
  match b with
  | x :: y :: z :: b =>
    let n := x * 65536 + y * 256 + z in
    [dg (n / 262144); dg (n / 4096 mod 64); dg (n / 64 mod 64); dg (n mod 64)] ++ base64 dg pad b
  | [x; y] =>
    let n := x * 65536 + y * 256 in
    [dg (n / 262144); dg (n / 4096 mod 64); dg (n / 64 mod 64)] ++ (if pad then [61] else [])
  | [x] => let n := x * 65536 in [dg (n / 262144); dg (n / 4096 mod 64)] ++ (if pad then [61; 61] else [])
  | [] => []
  end.
Notation std_digit := (digit 43 47).     (* + / *)
Notation url_digit := (digit 45 95).     (* - _ *)
Definition is_bytes (b : list N) : Prop := Forall (fun x => x < 256) b.
Definition in_alphabet (c : N) : Prop := exists k, k < 64 /\ c = std_digit k.
