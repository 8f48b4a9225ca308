(** What string literals denote, in cxy and in C. *)
From stdpp Require Import numbers list.
Local Open Scope N_scope.

(** A literal's text is a sequence of ordinary characters and escape sequences
    (the one-character escapes of the language, utils.c:79-110, and backslash 0). *)
Inductive lit_token :=
  | TChar (c : N)           (* an ordinary character *)
  | TEsc (c : N) (v : N).   (* backslash [c], denoting [v] *)
Definition escape_table : list (N * N) :=
  [(110, 10); (116, 9); (118, 11); (114, 13); (97, 7); (98, 8); (36, 36); (34, 34);
   (39, 39); (92, 92); (48, 0)].
Definition is_digit_char (t : option lit_token) : bool :=
  match t with Some (TChar c) => (48 <=? c) && (c <=? 57) | _ => false end.
(** Ordinary characters are no backslash; escapes are those of the table; NUL is
    not written in front of a digit (that would be an octal escape). *)
Fixpoint well_formed (l : list lit_token) : bool :=
  match l with
  | [] => true
  | TChar c :: l' => negb (c =? 92) && well_formed l'
  | TEsc c v :: l' =>
    existsb (fun e => (fst e =? c) && (snd e =? v)) escape_table &&
    negb ((c =? 48) && is_digit_char (head l')) && well_formed l'
  end.
Fixpoint lit_text (l : list lit_token) : list N :=
  match l with
  | [] => []
  | TChar c :: l' => c :: lit_text l'
  | TEsc c _ :: l' => 92 :: c :: lit_text l'
  end.
Fixpoint lit_value (l : list lit_token) : list N :=
  match l with
  | [] => []
  | TChar c :: l' => c :: lit_value l'
  | TEsc _ v :: l' => v :: lit_value l'
  end.
(** Texts without an escaped single quote, in which an escaped backslash occurs
    only at the very end or in front of an ordinary dollar or double quote. *)
Fixpoint backslash_lucky (l : list lit_token) : bool :=
  match l with
  | [] => true
  | TChar _ :: l' => backslash_lucky l'
  | TEsc c _ :: l' =>
    negb (c =? 39) && (negb (c =? 92) || match l' with [] | TChar 36 :: _ | TChar 34 :: _ => true | _ => false end) &&
    backslash_lucky l'
  end.

(** The value of the body of a C string literal (C11 6.4.4.4): escapes, octal
    escapes of up to three digits, hexadecimal ones of any length. *)
Definition c_simple (c : N) : option N :=
  if c =? 110 then Some 10 else if c =? 116 then Some 9 else if c =? 118 then Some 11
  else if c =? 114 then Some 13 else if c =? 97 then Some 7 else if c =? 98 then Some 8
  else if c =? 102 then Some 12 else if c =? 34 then Some 34 else if c =? 39 then Some 39
  else if c =? 63 then Some 63 else if c =? 92 then Some 92 else None.
Definition hex_digit (c : N) : option N :=
  if (48 <=? c) && (c <=? 57) then Some (c - 48)
  else if (97 <=? c) && (c <=? 102) then Some (c - 87)
  else if (65 <=? c) && (c <=? 70) then Some (c - 55) else None.
Definition oct_digit (c : N) : option N :=
  if (48 <=? c) && (c <=? 55) then Some (c - 48) else None.

(** [state]: plain text; just after a backslash; inside an octal escape with
    value and digits still allowed; inside a hexadecimal one, and whether it has
    a digit yet. *)
Inductive c_state := CPlain | CBack | COct (v : N) (room : nat) | CHex (v : N) (some : bool).
Definition c_flush (st : c_state) : option (list N) :=
  match st with
  | CPlain => Some []
  | COct v _ => if v <? 256 then Some [v] else None
  | CHex v true => if v <? 256 then Some [v] else None
  | CBack | CHex _ false => None
  end.
(** Raw double quote, newline and NUL cannot occur in the body. *)
Definition c_plain (c : N) : option (c_state * list N) :=
  if c =? 92 then Some (CBack, [])
  else if (c =? 34) || (c =? 10) || (c =? 0) then None else Some (CPlain, [c]).
Definition c_next (st : c_state) (c : N) : option (c_state * list N) :=
  let finish := match c_flush st, c_plain c with
                | Some a, Some (st', b) => Some (st', a ++ b) | _, _ => None end in
  match st with
  | CPlain => c_plain c
  | CBack => match c_simple c with
             | Some v => Some (CPlain, [v])
             | None => match oct_digit c with
                       | Some d => Some (COct d 2, [])
                       | None => if c =? 120 then Some (CHex 0 false, []) else None
                       end
             end
  | COct v (S room) => match oct_digit c with
                       | Some d => Some (COct (v * 8 + d) room, []) | None => finish end
  | COct v O => finish
  | CHex v _ => match hex_digit c with
                | Some d => Some (CHex (v * 16 + d) true, []) | None => finish end
  end.
Fixpoint c_value (st : c_state) (s : list N) : option (list N) :=
  match s with
  | [] => c_flush st
  | c :: s' => match c_next st c with
               | Some (st', a) => match c_value st' s' with Some b => Some (a ++ b) | None => None end
               | None => None
               end
  end.
(** The string a C compiler reads from the body [s] of a string literal. *)
Definition c_string (s : list N) : option (list N) := c_value CPlain s.

(** Strings the C backend is asked to write: ASCII, and no backslash in front of
    a digit, x or X. *)
Fixpoint plain_string (s : list N) : bool :=
  match s with
  | [] => true
  | c :: s' =>
    (0 <? c) && (c <? 128) &&
    negb ((c =? 92) && match s' with
                       | n :: _ => (n =? 120) || (n =? 88) || ((48 <=? n) && (n <=? 57))
                       | [] => false end) && plain_string s'
  end.
