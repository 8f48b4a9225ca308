(** Model of src/cxy/stdlib/base64.cxy.  Bytes are [N] below 256; the input is the list
    of its bytes and nothing behind it is readable. *)
From Coq Require Import NArith.
From stdpp Require Import numbers list.
Local Open Scope N_scope.

(** [DErr]: Base64Error raised; [DOob]: a read outside the input. *)
Inductive dres : Type := DOk (out : list N) | DErr | DOob.

(** base64.cxy:3 *)
Definition b64table : list N := [
    65; 66; 67; 68; 69; 70; 71; 72; 73; 74; 75; 76; 77; 78; 79; 80; 81; 82; 83; 84; 85; 86; 87; 88;
    89; 90; 97; 98; 99; 100; 101; 102; 103; 104; 105; 106; 107; 108; 109; 110; 111; 112; 113; 114;
    115; 116; 117; 118; 119; 120; 121; 122; 48; 49; 50; 51; 52; 53; 54; 55; 56; 57; 43; 47].
(** base64.cxy:148 *)
Definition b64tableU : list N := [
    65; 66; 67; 68; 69; 70; 71; 72; 73; 74; 75; 76; 77; 78; 79; 80; 81; 82; 83; 84; 85; 86; 87; 88;
    89; 90; 97; 98; 99; 100; 101; 102; 103; 104; 105; 106; 107; 108; 109; 110; 111; 112; 113; 114;
    115; 116; 117; 118; 119; 120; 121; 122; 48; 49; 50; 51; 52; 53; 54; 55; 56; 57; 45; 95].
(** base64.cxy:4-23 *)
Definition ASCII_LOOKUP : list N := [
    64; 64; 64; 64; 64; 64; 64; 64; 64; 64; 64; 64; 64; 64; 64; 64; 64; 64; 64; 64; 64; 64; 64; 64;
    64; 64; 64; 64; 64; 64; 64; 64; 64; 64; 64; 64; 64; 64; 64; 64; 64; 64; 64; 62; 64; 64; 64; 63;
    52; 53; 54; 55; 56; 57; 58; 59; 60; 61; 64; 64; 64; 64; 64; 64; 64; 0; 1; 2; 3; 4; 5; 6; 7; 8;
    9; 10; 11; 12; 13; 14; 15; 16; 17; 18; 19; 20; 21; 22; 23; 24; 25; 64; 64; 64; 64; 64; 64; 26;
    27; 28; 29; 30; 31; 32; 33; 34; 35; 36; 37; 38; 39; 40; 41; 42; 43; 44; 45; 46; 47; 48; 49; 50;
    51; 64; 64; 64; 64; 64; 64; 64; 64; 64; 64; 64; 64; 64; 64; 64; 64; 64; 64; 64; 64; 64; 64; 64;
    64; 64; 64; 64; 64; 64; 64; 64; 64; 64; 64; 64; 64; 64; 64; 64; 64; 64; 64; 64; 64; 64; 64; 64;
    64; 64; 64; 64; 64; 64; 64; 64; 64; 64; 64; 64; 64; 64; 64; 64; 64; 64; 64; 64; 64; 64; 64; 64;
    64; 64; 64; 64; 64; 64; 64; 64; 64; 64; 64; 64; 64; 64; 64; 64; 64; 64; 64; 64; 64; 64; 64; 64;
    64; 64; 64; 64; 64; 64; 64; 64; 64; 64; 64; 64; 64; 64; 64; 64; 64; 64; 64; 64; 64; 64; 64; 64;
    64; 64; 64; 64; 64; 64; 64; 64; 64; 64; 64; 64; 64; 64].
Definition tbl (k : N) : N := nth (N.to_nat k) b64table 0.
Definition tblU (k : N) : N := nth (N.to_nat k) b64tableU 0.
Definition look (c : N) : N := nth (N.to_nat c) ASCII_LOOKUP 64.
Definition u8 (x : N) : N := x mod 256.

(** base64.cxy:25-68; [size] is the length of what is left. *)
Fixpoint encodeBuffer (p : list N) : list N :=
  match p with
  | a :: b :: c :: p =>
    tbl (N.shiftr (N.land a 0xFC) 2)
    :: tbl (N.lor (u8 (N.shiftl (N.land a 0x03) 4)) (N.shiftr (N.land b 0xF0) 4))
    :: tbl (N.lor (u8 (N.shiftl (N.land b 0x0F) 2)) (N.shiftr (N.land c 0xC0) 6))
    :: tbl (N.land c 0x3F)
    :: encodeBuffer p
  | [a; b] =>
    [tbl (N.shiftr (N.land a 0xFC) 2);
     tbl (N.lor (u8 (N.shiftl (N.land a 0x03) 4)) (N.shiftr (N.land b 0xF0) 4));
     tbl (u8 (N.shiftl (N.land b 0x0F) 2)); 61]
  | [a] => [tbl (N.shiftr (N.land a 0xFC) 2); tbl (u8 (N.shiftl (N.land a 0x03) 4)); 61; 61]
  | [] => []
  end.

(** The bytes [os << <char>b] appends (src/cxy/runtime/builtins.cxy:652-653, 590-619):
    a [char] is printed as a code point.  With the C backend a [char] is signed, so a
    byte from 128 on becomes a huge [wchar], which appendChar drops ([sgn = true]); the
    LLVM backend extends it with zeros ([sgn = false]). *)
Definition put (sgn : bool) (b : N) : list N :=
  if b <? 128 then [b]
  else if sgn then [] else [N.lor 0xC0 (N.shiftr b 6); N.lor 0x80 (N.land b 0x3F)].
(** The three bytes of four digits, base64.cxy:104-106. *)
Definition byte1 (a b : N) : N := u8 (N.lor (N.shiftl (look a) 2) (N.shiftr (look b) 4)).
Definition byte2 (b c : N) : N := u8 (N.lor (N.shiftl (look b) 4) (N.shiftr (look c) 2)).
Definition byte3 (c d : N) : N := u8 (N.lor (N.shiftl (look c) 6) (look d)).

(** base64.cxy:115-116, counting the valid characters in front of the last block; [first]
    is the start of the whole text (the code looks for the padding there). *)
Fixpoint scan (n : nat) (first it : list N) : option nat :=
  match n with
  | O => Some O
  | S n =>
    match first with
    | [] => None
    | f :: first =>
      if f =? 61 then Some O
      else match it with
           | [] => None
           | c :: it => if look c =? 64 then Some O
                        else match scan n first it with Some i => Some (S i) | None => None end
           end
    end
  end.
(** A list of outputs, the reads of which may fail. *)
Definition out_if (c : bool) (b : option N) (sgn : bool) (rest : dres) : dres :=
  match rest with
  | DOk out => if c then match b with Some b => DOk (put sgn b ++ out) | None => DOob end else DOk out
  | r => r
  end.
Definition opt2 (f : N -> N -> N) (a b : option N) : option N :=
  match a, b with Some a, Some b => Some (f a b) | _, _ => None end.
(** base64.cxy:113-134; [sz] is the number of characters left, at most 4.  sz -= 4-i
    wraps around when it goes below 0. *)
Definition decode_tail (sgn : bool) (first it : list N) : dres :=
  match scan 4 first it with
  | None => DOob
  | Some i =>
    let sz := N.of_nat (length it) in
    let bad := if sz =? N.of_nat i then Some false
               else match it !! i with Some c => Some (negb (c =? 61)) | None => None end in
    match bad with
    | None => DOob
    | Some true => DErr
    | Some false =>
      let sz := (sz + 2 ^ 64 - (4 - N.of_nat i)) mod 2 ^ 64 in
      out_if (1 <? sz) (opt2 byte1 (it !! 0%nat) (it !! 1%nat)) sgn
      (out_if (2 <? sz) (opt2 byte2 (it !! 1%nat) (it !! 2%nat)) sgn
      (out_if (3 <? sz) (opt2 byte3 (it !! 2%nat) (it !! 3%nat)) sgn (DOk [])))
    end
  end.
(** base64.cxy:88-111 *)
Fixpoint decode_loop (sgn : bool) (first it : list N) : dres :=
  match it with
  | a :: b :: c :: d :: ((_ :: _) as it') =>
    if (look a =? 64) || (look b =? 64) || (look c =? 64) || (look d =? 64) then DErr
    else match decode_loop sgn first it' with
         | DOk out => DOk (put sgn (byte1 a b) ++ put sgn (byte2 b c) ++ put sgn (byte3 c d) ++ out)
         | r => r
         end
  | _ => decode_tail sgn first it
  end.
Definition decodeBuffer (sgn : bool) (p : list N) : dres := decode_loop sgn p p.

(** base64.cxy:150-170.  The loop bound (<i64>size)-2 is compared as an unsigned number:
    for sizes below 2 it is never reached and the loop leaves the input. *)
Fixpoint urlEncode_loop (p : list N) : list N :=
  match p with
  | a :: b :: ((c :: _) as p') =>
    tblU (N.land (N.shiftr a 2) 0x3F)
    :: tblU (N.lor (N.shiftl (N.land a 0x3) 4) (N.shiftr (N.land b 0xF0) 4))
    :: tblU (N.lor (N.shiftl (N.land b 0xF) 2) (N.shiftr (N.land c 0xC0) 6))
    :: tblU (N.land c 0x3F)
    :: urlEncode_loop p'
  | [a; b] =>
    [tblU (N.land (N.shiftr a 2) 0x3F);
     tblU (N.lor (N.shiftl (N.land a 0x3) 4) (N.shiftr (N.land b 0xF0) 4));
     tblU (N.shiftl (N.land b 0xF) 2)]
  | [a] => [tblU (N.land (N.shiftr a 2) 0x3F); tblU (N.shiftl (N.land a 0x3) 4)]
  | [] => []
  end.
Definition urlEncodeBuffer (p : list N) : dres :=
  match p with
  | [] | [_] => DOob
  | _ => DOk (urlEncode_loop p)
  end.
(** base64.cxy:172-186 *)
Definition urlEncodeSize (size : N) : N :=
  let i := size - size mod 2 in
  let len := if 0 <? i then i * 2 else 0 in
  if i <? size then (if i =? size - 1 then len + 1 + 1 else len + 1 + 2) else len.

(** base64.cxy:188-219: the same lookup table, which knows neither - nor _. *)
Definition urlDecode_tail (sgn : bool) (it : list N) : dres :=
  let sz := N.of_nat (length it) in
  out_if (1 <? sz) (opt2 byte1 (it !! 0%nat) (it !! 1%nat)) sgn
  (out_if (2 <? sz) (opt2 byte2 (it !! 1%nat) (it !! 2%nat)) sgn
  (out_if (3 <? sz) (opt2 byte3 (it !! 2%nat) (it !! 3%nat)) sgn (DOk []))).
Fixpoint urlDecodeBuffer (sgn : bool) (it : list N) : dres :=
  match it with
  | a :: b :: c :: d :: ((_ :: _) as it') =>
    if (look a =? 64) || (look b =? 64) || (look c =? 64) || (look d =? 64) then DErr
    else match urlDecodeBuffer sgn it' with
         | DOk out => DOk (put sgn (byte1 a b) ++ put sgn (byte2 b c) ++ put sgn (byte3 c d) ++ out)
         | r => r
         end
  | _ => urlDecode_tail sgn it
  end.
