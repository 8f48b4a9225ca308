(** Models of the character coders: [wcharToStr] (src/cxy/core/sb.c:18-46),
    [readChar] (src/cxy/core/utils.c:26-145) in the compiler, [appendChar]
    (src/cxy/runtime/builtins.cxy:590-619) in the runtime.
    Bytes are [N] below 256; a [wchar] is [N] below 2^32. *)
From stdpp Require Import numbers list.
Local Open Scope N_scope.

Inductive cres (A : Type) : Type :=
  | COk (a : A)
  | CAbort   (* unreachable(...) or a failed csAssert *)
  | COob.    (* read past the text *)
Arguments COk {A} a. Arguments CAbort {A}. Arguments COob {A}.

Definition to_char (x : N) : N := x mod 256.

(** sb.c:18-46.  The result is the text; its length is stored in byte 5. *)
Definition wcharToStr (chr : N) : cres (list N) :=
  if chr <? 0x80 then COk [to_char chr]
  else if chr <? 0x800 then
    COk [to_char (N.lor 0xC0 (N.shiftr chr 6)); to_char (N.lor 0x80 (N.land chr 0x3F))]
  else if chr <? 0x10000 then
    COk [to_char (N.lor 0xE0 (N.shiftr chr 12));
         to_char (N.lor 0x80 (N.land (N.shiftr chr 6) 0x3F));
         to_char (N.lor 0x80 (N.land chr 0x3F))]
  else if chr <? 0x200000 then
    COk [to_char (N.lor 0xF0 (N.shiftr chr 18));
         to_char (N.lor 0x80 (N.land (N.shiftr chr 12) 0x3F));
         to_char (N.lor 0x80 (N.land (N.shiftr chr 6) 0x3F));
         to_char (N.lor 0x80 (N.land chr 0x3F))]
  else CAbort.

(** builtins.cxy:590-619.  What is appended to the stream; beyond 0x200000
    nothing is. *)
Definition appendChar (ch : N) : list N :=
  if ch <? 0x80 then [to_char ch]
  else if ch <? 0x800 then
    [to_char (N.lor 0xC0 (N.shiftr ch 6)); to_char (N.lor 0x80 (N.land ch 0x3f))]
  else if ch <? 0x10000 then
    [to_char (N.lor 0xE0 (N.shiftr ch 12));
     to_char (N.lor 0x80 (N.land (N.shiftr ch 6) 0x3f));
     to_char (N.lor 0x80 (N.land ch 0x3f))]
  else if ch <? 0x200000 then
    [to_char (N.lor 0xF0 (N.shiftr ch 16));
     to_char (N.lor 0x80 (N.land (N.shiftr ch 12) 0x3f));
     to_char (N.lor 0x80 (N.land (N.shiftr ch 6) 0x3f));
     to_char (N.lor 0x80 (N.land ch 0x3f))]
  else [].

(** utils.c:36-43, which counts leading ones despite its name. *)
Definition countLeadingZeros (c : N) : N :=
  if N.land c 128 =? 0 then 0 else if N.land c 64 =? 0 then 1
  else if N.land c 32 =? 0 then 2 else if N.land c 16 =? 0 then 3
  else if N.land c 8 =? 0 then 4 else if N.land c 4 =? 0 then 5
  else if N.land c 2 =? 0 then 6 else if N.land c 1 =? 0 then 7 else 8.

(** utils.c:45-70. Returns the number of bytes and the code. *)
Definition convertStrToUtf32 (s : list N) (count : N) : cres (N * N) :=
  match s with
  | [] => COob
  | s0 :: t =>
    let len := countLeadingZeros s0 in
    if len =? 0 then COk (1, s0)
    else if len <? count then CAbort
    else if len =? 2 then
      match t with
      | s1 :: _ => COk (2, N.lor (N.shiftl (N.land s0 0x1F) 6) (N.land s1 0x3F))
      | _ => COob end
    else if len =? 3 then
      match t with
      | s1 :: s2 :: _ =>
        COk (3, N.lor (N.lor (N.shiftl (N.land s0 0xF) 12) (N.shiftl (N.land s1 0x3F) 6)) (N.land s2 0x3F))
      | _ => COob end
    else if len =? 4 then
      match t with
      | s1 :: s2 :: s3 :: _ =>
        COk (4, N.lor (N.lor (N.lor (N.shiftl (N.land s0 0x7) 18) (N.shiftl (N.land s1 0x3F) 12))
                        (N.shiftl (N.land s2 0x3F) 6)) (N.land s3 0x3F))
      | _ => COob end
    else CAbort
  end.

(** [strtoul] on the text in [base]: value and number of characters read.
    Simplified: no leading blanks or signs, no 0x prefix (the callers' texts
    start with a digit or are rejected), no overflow beyond 2^64. *)
Definition digit_value (c : N) : option N :=
  if (48 <=? c) && (c <=? 57) then Some (c - 48)
  else if (97 <=? c) && (c <=? 122) then Some (c - 87)
  else if (65 <=? c) && (c <=? 90) then Some (c - 55)
  else None.
Fixpoint strtoul (base : N) (s : list N) (acc : N) (n : N) : N * N :=
  match s with
  | [] => (acc, n)
  | c :: s' => match digit_value c with
               | Some d => if d <? base then strtoul base s' (acc * base + d) (n + 1) else (acc, n)
               | None => (acc, n)
               end
  end.
(** utils.c:28-34; [errno] is taken to be 0 beforehand. *)
Definition convertStrToCharOrd (s : list N) (base : N) : N * N :=
  let '(v, n) := strtoul base s 0 0 in
  let ord := v mod 2 ^ 32 in
  (ord, if ord <=? 255 then n else 0).

Definition isodigit (c : N) : bool := (48 <=? c) && (c <=? 55).
Definition isdigit (c : N) : bool := (48 <=? c) && (c <=? 57).

(** The one-character escapes of utils.c:79-110. *)
Definition simple_escape (c : N) : option N :=
  if c =? 110 then Some 10        (* \n *)
  else if c =? 116 then Some 9    (* \t *)
  else if c =? 118 then Some 11   (* \v *)
  else if c =? 114 then Some 13   (* \r *)
  else if c =? 97 then Some 7     (* \a *)
  else if c =? 98 then Some 8     (* \b *)
  else if c =? 36 then Some 36    (* \$ *)
  else if c =? 34 then Some 34    (* double quote *)
  else if c =? 39 then Some 39    (* single quote *)
  else if c =? 92 then Some 92    (* \\ *)
  else None.

(** utils.c:72-133.  [s] is the text from [ptr] on (it may extend past [n]).
    Returns bytes consumed and the code, if [*res] was set. *)
Definition convertEscapeSeq (s : list N) (n : N) : cres (N * option N) :=
  if n =? 0 then COk (0, None) else
  match s with
  | [] => COob
  | p0 :: t =>
    if p0 =? 92 then
      if n <=? 1 then COk (0, None) else
      match t with
      | [] => COob
      | p1 :: t2 =>
        match simple_escape p1 with
        | Some r => COk (2, Some r)
        | None =>
          if p1 =? 120 then       (* x *)
            if n <=? 2 then COk (0, None)
            else let '(v, k) := convertStrToCharOrd t2 16 in COk (2 + k, Some v)
          else if p1 =? 48 then   (* 0 *)
            match t2 with
            | p2 :: t3 =>
              if negb (isodigit p2) then COk (2, Some 0) else
              match t3 with
              | p3 :: _ =>
                if negb (isodigit p3) then COk (2, Some 0)
                else let '(v, k) := convertStrToCharOrd t 8 in COk (1 + k, Some v)
              | [] => COob
              end
            | [] => COob
            end
          else if isdigit p1 then
            let '(v, k) := convertStrToCharOrd t 8 in COk (1 + k, Some v)
          else COk (0, None)
        end
      end
    else if 0x80 <=? p0 then
      match convertStrToUtf32 s n with
      | COk (k, v) => COk (k, Some v)
      | CAbort => CAbort | COob => COob
      end
    else COk (1, Some p0)
  end.

(** utils.c:135-143 *)
Definition readChar (s : list N) (len : N) : cres (N * option N) :=
  match s with
  | [] => COob
  | p0 :: _ =>
    if 0x80 <=? p0 then
      let tmp := countLeadingZeros p0 in
      if len <? tmp then CAbort else convertEscapeSeq s tmp
    else convertEscapeSeq s len
  end.
