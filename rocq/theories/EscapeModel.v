(** Model of the way a string literal travels through the compiler: the text
    between the quotes is unescaped by [escapeString] (src/cxy/core/utils.c:147-208,
    called from lang/frontend/parser.c:103-113), and the C backend writes the
    string into the generated C source (lang/backend/c/generate.c:821-832 with
    core/format.c [printUtf8]). Bytes are [N] below 256. *)
From stdpp Require Import numbers list.
From Verif Require Export Utf8Model.
Local Open Scope N_scope.

(** utils.c:165-196: the escapes known to [escapeString]. *)
Definition string_escape (c : N) : option N :=
  if c =? 110 then Some 10        (* n *)
  else if c =? 116 then Some 9    (* t *)
  else if c =? 118 then Some 11   (* v *)
  else if c =? 114 then Some 13   (* r *)
  else if c =? 97 then Some 7     (* a *)
  else if c =? 98 then Some 8     (* b *)
  else if c =? 36 then Some 36    (* $ *)
  else if c =? 34 then Some 34    (* double quote *)
  else None.

(** utils.c:147-208, the loop.  [s] are the remaining bytes [str[i..n)], [after]
    is the byte of the source behind the literal's text (the closing quote),
    which [str[i+1]] may read. The result is what is written to [dst]. *)
Fixpoint escape_loop (after : N) (s : list N) : list N :=
  match s with
  | [] => []
  | c :: s' =>
    if negb (c =? 92) then c :: escape_loop after s'
    else
      match s' with
      | [] => []                                     (* (n - i) < 1: continue *)
      | d :: s'' =>
        match string_escape d with
        | Some e => e :: escape_loop after s''
        | None =>
          if (d =? 48) && negb (isdigit (hd after s''))
          then 0 :: escape_loop after s''
          else 92 :: escape_loop after s'            (* default: [i] stays *)
        end
      end
  end.
(** [dst] has [room] bytes; the terminator is written behind the text.  [None] is
    a write outside. parser.c:107-108 passes a buffer of [n + 1] bytes. *)
Definition escapeString (after : N) (s : list N) (room : nat) : option (list N) :=
  let r := escape_loop after s in
  if (length r <? room)%nat then Some r else None.
Definition getStringLiteral (s : list N) : option (list N) :=
  escapeString 34 s (length s + 1).

(** format.c:403-470 [printUtf8] for one [char] of the string: the [char] is
    signed on x86, so a byte from 128 on becomes a huge code and the compiler
    stops ([unreachable]). *)
Definition printUtf8_char (c : N) (escaped : bool) : option (list N) :=
  if escaped && (c =? 0) then Some [92; 48]
  else if escaped && (c =? 10) then Some [92; 110]
  else if escaped && (c =? 9) then Some [92; 116]
  else if escaped && (c =? 11) then Some [92; 118]
  else if escaped && (c =? 13) then Some [92; 114]
  else if escaped && (c =? 7) then Some [92; 97]
  else if escaped && (c =? 8) then Some [92; 98]
  else if escaped && (c =? 34) then Some [92; 34]
  else if escaped && (c =? 92) then Some [92; 92]
  else if c <? 128 then Some [c] else None.

(** generate.c:821-832 without the quotes; the string ends at the first NUL. *)
Fixpoint visitStringLit (s : list N) : option (list N) :=
  match s with
  | [] => Some []
  | c :: s' =>
    if c =? 0 then Some [] else
    let n := hd 0 s' in
    let escaped := negb (c =? 92) || (negb (n =? 120) && negb (n =? 88) && negb (isdigit n)) in
    match printUtf8_char c escaped, visitStringLit s' with
    | Some a, Some b => Some (a ++ b)
    | _, _ => None
    end
  end.
