(** Model of the compiler's text formatter, src/cxy/core/format.c. A FormatBuf is
    its bytes with its capacity; the state is the chain of buffers (the last one is
    [currentBuf]), the indentation and the tab text.  Bytes are [N] below 256.
    Simplifications: allocation always succeeds; the commands f32, f64, p and t
    (floats, pointers, types) are left out: their use is [None] here. *)
From stdpp Require Import numbers list.
From Verif Require Export Utf8Model.
Local Open Scope N_scope.

Record fbuf := FBuf { f_data : list N; f_cap : nat }.
Record fstate := FState {
  fs_bufs : list fbuf;       (* newest first: the head is currentBuf *)
  fs_ignoreStyle : bool;
  fs_indent : nat;
  fs_tab : list N }.
Notation set_bufs s b := (FState b (fs_ignoreStyle s) (fs_indent s) (fs_tab s)).
Notation set_indent s n := (FState (fs_bufs s) (fs_ignoreStyle s) n (fs_tab s)).

(** format.c:255-258 *)
Definition newFormatState (tab : list N) (ignoreStyle : bool) : fstate := FState [] ignoreStyle 0 tab.

(** format.c:25-42 *)
Definition reserveBuf (s : fstate) (size : nat) : fstate :=
  match fs_bufs s with
  | b :: _ =>
    if (length (f_data b) + size <=? f_cap b)%nat then s
    else set_bufs s (FBuf [] (Nat.max (length (f_data b)) size) :: fs_bufs s)
  | [] => set_bufs s [FBuf [] (Nat.max 1024 size)]
  end.
(** memcpy to the reserved place and advanceBuf (format.c:44-54); [None] is a copy
    beyond the capacity. *)
Definition put (s : fstate) (t : list N) : option fstate :=
  match fs_bufs s with
  | b :: bs => if (length (f_data b) + length t <=? f_cap b)%nat
               then Some (set_bufs s (FBuf (f_data b ++ t) (f_cap b) :: bs)) else None
  | [] => None
  end.
Definition write (s : fstate) (t : list N) : option fstate := put (reserveBuf s (length t)) t.

(** Repeated writes (the loops at format.c:71-72 and 285-286). *)
Fixpoint write_times (n : nat) (s : fstate) (t : list N) : option fstate :=
  match n with
  | O => Some s
  | S n => match write s t with Some s => write_times n s t | None => None end
  end.

(** format.c:403-470.  [None]: the code is outside UTF-8, the compiler aborts. *)
Definition utf8_text (chr : N) (escaped : bool) : option (list N) :=
  if escaped && (chr =? 0) then Some [92; 48]
  else if escaped && (chr =? 10) then Some [92; 110]
  else if escaped && (chr =? 9) then Some [92; 116]
  else if escaped && (chr =? 11) then Some [92; 118]
  else if escaped && (chr =? 13) then Some [92; 114]
  else if escaped && (chr =? 7) then Some [92; 97]
  else if escaped && (chr =? 8) then Some [92; 98]
  else if escaped && (chr =? 34) then Some [92; 34]
  else if escaped && (chr =? 92) then Some [92; 92]
  else match wcharToStr chr with COk t => Some t | _ => None end.
Definition printUtf8 (s : fstate) (chr : N) (escaped : bool) : option fstate :=
  match utf8_text chr escaped with Some t => write s t | None => None end.

(** What the caller passes (union FormatArg, format.h:54-74). *)
Inductive farg :=
  | AStr (s : list N)              (* .s *)
  | AChar (c : N)                  (* .c *)
  | AInt (n : N)                   (* .u8 ... .u64, .i8 ... .i64: the 64 bits *)
  | ALen (n : nat)                 (* .len *)
  | ABool (b : bool)               (* .b *)
  | AStyle (style color : N).      (* .style *)

(** The C library's decimal conversion of a number below 2^64. *)
Fixpoint digits (fuel : nat) (n : N) : list N :=
  match fuel with
  | O => [48 + n mod 10]
  | S fuel => if n <? 10 then [48 + n] else digits fuel (n / 10) ++ [48 + n mod 10]
  end.
Definition print_unsigned (bits : N) (n : N) : list N := digits 20 (n mod 2 ^ bits).
Definition print_signed (bits : N) (n : N) : list N :=
  let m := n mod 2 ^ bits in
  if m <? 2 ^ (bits - 1) then digits 20 m else 45 :: digits 20 (2 ^ bits - m).

(** snprintf into the 64 reserved bytes; format.c:205-206 asserts that it fits. *)
Definition snprintf (s : fstate) (t : list N) : option fstate :=
  if (length t <? 64)%nat then put s t else None.

(** The next characters, if they are the given ones; a NUL at the end. *)
Definition peek (p : list N) : N := hd 0 p.

(** The digits of the width behind u or i (format.c:84-133): bits and rest. *)
Definition width (p : list N) : option (N * list N) :=
  let c := peek p in
  if c =? 56 then Some (8, tail p)
  else if c =? 49 then if peek (tail p) =? 54 then Some (16, tail (tail p)) else None
  else if c =? 51 then if peek (tail p) =? 50 then Some (32, tail (tail p)) else None
  else if c =? 54 then if peek (tail p) =? 52 then Some (64, tail (tail p)) else None
  else Some (64, p).

(** format.c:176-181: the loop of [{sE}]; the text is NUL-terminated. *)
Fixpoint print_escaped (fuel : nat) (s : fstate) (p : list N) (i len : N) : option fstate :=
  match fuel with
  | O => None
  | S fuel =>
    match p with
    | [] => Some s
    | _ => if i <? len then
             match readChar p (len - i) with
             | COk (k, Some ch) =>
               (* format(state, "{cE}", ...) *)
               match printUtf8 (reserveBuf s 64) ch true with
               | Some s => print_escaped fuel s (drop (N.to_nat k) p) (i + 1) len
               | None => None
               end
             | _ => None
             end
           else Some s
    end
  end.

(** format.c:75-209.  Result: state, rest of the format string, next index. *)
Definition formatArg (s : fstate) (p : list N) (index : nat) (args : list farg) :
    option (fstate * list N * nat) :=
  let s := reserveBuf s 64 in
  let done (r : option fstate) (p : list N) (index : nat) :=
    match r with Some s => Some (s, p, index) | None => None end in
  let c := peek p in let p := tail p in
  if c =? 117 then                                       (* u *)
    match args !! index, width p with
    | Some (AInt n), Some (bits, p) => done (snprintf s (print_unsigned bits n)) p (S index)
    | _, _ => None
    end
  else if c =? 105 then                                  (* i *)
    match args !! index, width p with
    | Some (AInt n), Some (bits, p) => done (snprintf s (print_signed bits n)) p (S index)
    | _, _ => None
    end
  else if c =? 99 then                                   (* c *)
    let escaped := peek p =? 69 in
    let p := if escaped then tail p else p in
    match args !! index with
    | Some (AChar ch) =>
      if peek p =? 108 then
        match args !! S index, utf8_text ch escaped with
        | Some (ALen n), Some t => done (write_times n s t) (tail p) (S (S index))
        | _, _ => None
        end
      else done (printUtf8 s ch escaped) p (S index)
    | _ => None
    end
  else if c =? 115 then                                  (* s *)
    match args !! index with
    | Some (AStr t) =>
      if peek p =? 108 then
        match args !! S index with
        | Some (ALen n) => done (write s (take n t)) (tail p) (S (S index))
        | _ => None
        end
      else if peek p =? 69 then
        (* [{sEl}] does not step over the l (line 172), so that the marker check of
           [format] fails afterwards. *)
        done (print_escaped (S (length t)) s t 0 (2 ^ 64 - 1)) (tail p) (S index)
      else done (write s t) p (S index)
    | _ => None
    end
  else if c =? 98 then                                   (* b *)
    match args !! index with
    | Some (ABool b) =>
      done (write s (if b then [116; 114; 117; 101] else [102; 97; 108; 115; 101])) p (S index)
    | _ => None
    end
  else None.

(** format.c:211-253 *)
Fixpoint writes (s : fstate) (ts : list (list N)) : option fstate :=
  match ts with
  | [] => Some s
  | t :: ts => match write s t with Some s => writes s ts | None => None end
  end.
Definition applyStyle (s : fstate) (style color : N) : option fstate :=
  let reset := if (style =? 0) || (color =? 0) then [[27; 91; 48; 109]] else [] in
  if (style =? 0) && (color =? 0) then writes s reset else
  let st := if style =? 1 then [[49]] else if style =? 2 then [[50]] else if style =? 3 then [[52]]
            else if style =? 4 then [[51]] else [] in
  let sep := if style =? 0 then [] else [[59]] in
  let co := if color =? 1 then [[51; 49]] else if color =? 2 then [[51; 50]] else if color =? 3 then [[51; 52]]
            else if color =? 4 then [[51; 54]] else if color =? 5 then [[51; 53]]
            else if color =? 6 then [[51; 51]] else if color =? 7 then [[51; 55]] else [] in
  writes s (reset ++ [[27; 91]] ++ st ++ sep ++ co ++ [[109]]).

(** strcspn(ptr, "\n{") *)
Fixpoint span_text (p : list N) : list N * list N :=
  match p with
  | [] => ([], [])
  | c :: p' => if (c =? 10) || (c =? 123) then ([], p)
               else let '(a, b) := span_text p' in (c :: a, b)
  end.
Definition isdec (c : N) : bool := (48 <=? c) && (c <=? 57).
Fixpoint strtoull (p : list N) (acc : nat) : nat * list N :=
  match p with
  | c :: p' => if isdec c then strtoull p' (10 * acc + N.to_nat (c - 48))%nat else (acc, p)
  | [] => (acc, p)
  end.

(** What happens at a brace (format.c:287-330); [p] follows the brace.  The
    closing marker is checked except after a doubled brace. *)
Definition at_brace (s : fstate) (p : list N) (index : nat) (args : list farg) :
    option (fstate * list N * nat) :=
  let marker (s : fstate) (p : list N) (index : nat) :=
    if peek p =? 125 then Some (s, tail p, index) else None in
  let c := peek p in
  if c =? 123 then
    match write s [123] with Some s => Some (s, tail p, index) | None => None end
  else if c =? 62 then marker (set_indent s (S (fs_indent s))) (tail p) index
  else if c =? 60 then
    match fs_indent s with
    | O => None
    | S n => marker (set_indent s n) (tail p) index
    end
  else
    let pos := if isdec c then
                 let '(i, p) := strtoull p 0 in if peek p =? 58 then Some (i, tail p) else None
               else Some (index, p) in
    match pos with
    | None => None
    | Some (index, p) =>
      if peek p =? 36 then
        if fs_ignoreStyle s then marker s (tail p) (S index)
        else match args !! index with
             | Some (AStyle st co) =>
               match applyStyle s st co with
               | Some s => marker s (tail p) (S index) | None => None end
             | _ => None
             end
      else match formatArg s p index args with
           | Some (s, p, index) => marker s p index
           | None => None
           end
    end.

(** format.c:269-331.  [fuel] bounds the iterations ([None] when exhausted). *)
Fixpoint format_loop (fuel : nat) (s : fstate) (p : list N) (index : nat) (args : list farg) : option fstate :=
  match fuel with
  | O => None
  | S fuel =>
    match p with
    | [] => Some s
    | _ =>
      let '(text, p) := span_text p in
      match write s text with
      | None => None
      | Some s =>
        match p with
        | [] => Some s
        | c :: p =>
          if c =? 10 then
            match write s [10] with
            | Some s => match write_times (fs_indent s) s (fs_tab s) with
                        | Some s => format_loop fuel s p index args | None => None end
            | None => None
            end
          else
            match at_brace s p index args with
            | Some (s, p, index) => format_loop fuel s p index args
            | None => None
            end
        end
      end
    end
  end.
Definition format (s : fstate) (fmt : list N) (args : list farg) : option fstate :=
  format_loop (S (length fmt)) s fmt 0 args.
(** format.c:498-501 *)
Definition append (s : fstate) (t : list N) : option fstate := write s t.
(** format.c:474-496: both walk the chain from the first buffer. *)
Definition formatStateToString (s : fstate) : list N := concat (map f_data (rev (fs_bufs s))).
