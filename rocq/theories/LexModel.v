(** Model of the lexer, src/cxy/lang/frontend/lexer.c:95-613, on one buffer (no include:
    [prev] is NULL).  A position in the file is given by the text from there on, so the end
    of file is [[]]; there [getCurChar] answers the char EOF (-1), which is no space,
    punctuation, letter or digit and equals no character asked for.  Rows and columns are
    left out; [isspace] and its like are those of the C locale (bytes from 0x80 on are in no
    class).  The tag of a word (identifier or keyword) is left to the keyword table; that of
    punctuation is given by its spelling (token.h, one to one); the value of a floating
    point literal is left out. *)
From stdpp Require Import numbers list.
From Verif Require Import Utf8Model.
Local Open Scope N_scope.

Definition isspace (c : N) : bool := (c =? 32) || (9 <=? c) && (c <=? 13).
Definition ispunct (c : N) : bool :=
  (33 <=? c) && (c <=? 47) || (58 <=? c) && (c <=? 64) || (91 <=? c) && (c <=? 96) || (123 <=? c) && (c <=? 126).
Definition isalpha (c : N) : bool := (65 <=? c) && (c <=? 90) || (97 <=? c) && (c <=? 122).
Definition isxdigit (c : N) : bool := isdigit c || (65 <=? c) && (c <=? 70) || (97 <=? c) && (c <=? 102).
(** lexer.c:137-140 *)
Definition space_or_punct (c : N) : bool := negb (c =? 95) && (isspace c || ispunct c).
Definition wordchar (c : N) : bool := (c =? 95) || isalpha c || isdigit c.

Inductive ltag :=
  | LEof | LErr
  | LPunct (spelling : list N)
  | LWord
  | LInt (value : N)
  | LFloat
  | LStr                       (* tokStringLiteral *)
  | LChar (value : option N)
  | LFStart | LFmt | LFEnd.    (* tokLString, tokLStrFmt, tokRString *)
(** A token with its extents. *)
Record ltok := LTok { tk_tag : ltag; tk_begin : list N; tk_end : list N }.
(** lexer.h:18-25 *)
Record lflags := LFlags { enter : bool; cont : bool; exit : bool; lstrfmt : bool; notfloat : bool }.
Inductive lres :=
  | LGot (t : ltok) (s : list N) (fl : lflags)
  | LHang    (* a loop that never ends *)
  | LAbort   (* csAssert *)
  | LUb      (* difference of unrelated pointers, or a read past the text *)
  | LFuel.

Definition cur (s : list N) : option N := head s.
(** lexer.c:148-157, with what follows in either case *)
Definition accept {A} (c : N) (s : list N) (yes : list N -> A) (no : A) : A :=
  match s with d :: t => if d =? c then yes t else no | [] => no end.
(** lexer.c:159-163 *)
Fixpoint skip_spaces (s : list N) : list N :=
  match s with c :: t => if isspace c then skip_spaces t else s | [] => [] end.
(** lexer.c:165-169 *)
Fixpoint skip_line (s : list N) : list N :=
  match s with c :: t => if c =? 10 then s else skip_line t | [] => [] end.
(** lexer.c:171-188; [nest] is one less than the code's. [None]: unterminated. *)
Fixpoint skip_comment (nest : nat) (s : list N) : option (list N) :=
  match s with
  | [] => None
  | c :: t =>
    if c =? 47 then
      match t with
      | d :: t' => if d =? 42 then skip_comment (S nest) t' else skip_comment nest t
      | [] => None
      end
    else if c =? 42 then
      match t with
      | d :: t' => if d =? 47 then match nest with O => Some t' | S nest => skip_comment nest t' end
                   else skip_comment nest t
      | [] => None
      end
    else skip_comment nest t
  end.

(** lexer.c:308-455, punctuation other than closing brace and slash *)
Definition punct (s : list N) : option (list N * list N) :=
  let t1 (p : list N) (t : list N) := Some (p, t) in
  match s with
  | [] => None
  | c :: t =>
    if (c =? 40) || (c =? 41) || (c =? 91) || (c =? 93) || (c =? 123) then t1 [c] t        (* ( ) [ ] { *)
    else if c =? 46 then                                                                    (* . *)
      accept 46 t (fun t => accept 46 t (t1 [46; 46; 46]) (t1 [46; 46] t))
      (accept 91 t (t1 [46; 91]) (t1 [46] t))
    else if (c =? 44) || (c =? 58) || (c =? 59) then t1 [c] t                               (* , : ; *)
    else if c =? 35 then                                                                    (* # *)
      accept 123 t (t1 [35; 123]) (accept 46 t (t1 [35; 46]) (accept 35 t (t1 [35; 35]) (t1 [35] t)))
    else if (c =? 96) || (c =? 64) || (c =? 63) then t1 [c] t                               (* ` @ ? *)
    else if c =? 33 then accept 61 t (t1 [33; 61]) (accept 58 t (t1 [33; 58]) (t1 [33] t))  (* ! *)
    else if c =? 126 then t1 [126] t                                                        (* ~ *)
    else if c =? 43 then accept 43 t (t1 [43; 43]) (accept 61 t (t1 [43; 61]) (t1 [43] t))  (* + *)
    else if c =? 45 then                                                                    (* - *)
      accept 45 t (t1 [45; 45]) (accept 61 t (t1 [45; 61]) (accept 62 t (t1 [45; 62]) (t1 [45] t)))
    else if c =? 42 then accept 61 t (t1 [42; 61]) (t1 [42] t)                              (* * *)
    else if c =? 37 then accept 61 t (t1 [37; 61]) (t1 [37] t)                              (* % *)
    else if c =? 38 then                                                                    (* & *)
      accept 38 t (t1 [38; 38]) (accept 61 t (t1 [38; 61]) (accept 46 t (t1 [38; 46]) (t1 [38] t)))
    else if c =? 124 then accept 124 t (t1 [124; 124]) (accept 61 t (t1 [124; 61]) (t1 [124] t)) (* | *)
    else if c =? 94 then accept 61 t (t1 [94; 61]) (t1 [94] t)                              (* ^ *)
    else if c =? 60 then                                                                    (* < *)
      accept 60 t (fun t => accept 61 t (t1 [60; 60; 61]) (t1 [60; 60] t))
      (accept 61 t (t1 [60; 61]) (t1 [60] t))
    else if c =? 62 then                                                                    (* > *)
      accept 62 t (fun t => accept 61 t (t1 [62; 62; 61]) (t1 [62; 62] t))
      (accept 61 t (t1 [62; 61]) (t1 [62] t))
    else if c =? 61 then accept 61 t (t1 [61; 61]) (accept 62 t (t1 [61; 62]) (t1 [61] t))  (* = *)
    else None
  end.

(** lexer.c:243-266, behind the third quote: the end of the token and the rest. *)
Fixpoint multiline (s : list N) : option (list N * list N) :=
  match s with
  | [] => None
  | c :: t =>
    if c =? 34 then
      match t with
      | d :: e :: t' => if (d =? 34) && (e =? 34) then Some (t, t') else multiline t
      | _ => multiline t
      end
    else multiline t
  end.

(** The loop of lexer.c:479-507.  [fmt]: a part of a string expression is being read. At
    the end of file the loop goes on for ever: nothing but the offset changes. *)
Inductive sres := SQuote (s : list N) | SBreak (s : list N) | SFmt (e s : list N) | SHang.
Fixpoint string_loop (fmt : bool) (s : list N) : sres :=
  match s with
  | [] => SHang
  | c :: t =>
    if c =? 34 then SQuote s
    else if c =? 10 then
      match t with d :: t' => if d =? 92 then string_loop fmt t' else SBreak t | [] => SBreak t end
    else if c =? 92 then match t with _ :: t' => string_loop fmt t' | [] => SHang end
    else if fmt && (c =? 36) then
      match t with d :: t' => if d =? 123 then SFmt t t' else string_loop fmt t | [] => string_loop fmt t end
    else string_loop fmt t
  end.
(** The loop of lexer.c:522-529; [None]: it goes on for ever. *)
Fixpoint char_loop (s : list N) : option (list N) :=
  match s with
  | [] => None
  | c :: t =>
    if (c =? 39) || (c =? 10) then Some s
    else if c =? 92 then match t with _ :: t' => char_loop t' | [] => None end
    else char_loop t
  end.
Fixpoint skip_while (p : N -> bool) (s : list N) : list N :=
  match s with c :: t => if p c then skip_while p t else s | [] => [] end.

(** The C library's strtoumax: blanks, a sign, for base 16 a prefix, digits; saturating. *)
Fixpoint strto_digits (base : N) (s : list N) (acc : N) : N :=
  match s with
  | c :: t => match digit_value c with
              | Some d => if d <? base then strto_digits base t (acc * base + d) else acc
              | None => acc
              end
  | [] => acc
  end.
Definition strtoumax (base : N) (s : list N) : N :=
  let s := skip_spaces s in
  let neg := match s with c :: _ => c =? 45 | [] => false end in
  let s := match s with c :: t => if (c =? 45) || (c =? 43) then t else s | [] => [] end in
  let s := match s with
           | z :: x :: h :: _ =>
             if (base =? 16) && (z =? 48) && ((x =? 120) || (x =? 88)) && isxdigit h then drop 2 s else s
           | _ => s
           end in
  let v := strto_digits base s 0 in
  if 2 ^ 64 <=? v then 2 ^ 64 - 1 else if neg then (2 ^ 64 - v) mod 2 ^ 64 else v.

Definition set_enter (b : bool) (f : lflags) := LFlags b (cont f) (exit f) (lstrfmt f) (notfloat f).
Definition set_cont (b : bool) (f : lflags) := LFlags (enter f) b (exit f) (lstrfmt f) (notfloat f).
Definition set_exit (b : bool) (f : lflags) := LFlags (enter f) (cont f) b (lstrfmt f) (notfloat f).
Definition set_lstrfmt (b : bool) (f : lflags) := LFlags (enter f) (cont f) (exit f) b (notfloat f).
Definition set_notfloat (b : bool) (f : lflags) := LFlags (enter f) (cont f) (exit f) (lstrfmt f) b.

(** lexer.c:478-518 from lexerLexString on, for a token beginning at [b] *)
Definition lex_string (literal : bool) (fl : lflags) (b s : list N) : lres :=
  let finish (s : list N) :=
    let fl := if literal then fl else set_exit true (set_cont false fl) in
    match s with
    | c :: t => if c =? 34 then LGot (LTok LStr b t) t fl else LGot (LTok LErr b s) s fl
    | [] => LGot (LTok LErr b s) s fl
    end in
  match string_loop (negb literal && cont fl) s with
  | SQuote s => finish s
  | SBreak s => finish s
  | SFmt e s => LGot (LTok LStr b e) s (set_lstrfmt true fl)
  | SHang => LHang
  end.
(** lexer.c:520-538, behind the quote.  At the end of file [getCurPtr] is the address of a
    static variable, so a literal that ends there is measured by a wild difference. *)
Definition lex_char (fl : lflags) (b s : list N) : lres :=
  match char_loop s with
  | None => LHang
  | Some e =>
    match e with
    | c :: t =>
      if c =? 39 then
        match t with
        | [] => LUb
        | _ =>
          let n := N.of_nat (length s - length e) in
          match convertEscapeSeq s n with
          | COk (k, v) => if k =? n then LGot (LTok (LChar v) b e) t fl else LGot (LTok LErr b t) t fl
          | CAbort => LAbort
          | COob => LUb
          end
        end
      else LGot (LTok LErr b e) e fl
    | [] => LGot (LTok LErr b e) e fl
    end
  end.
(** lexer.c:584-609: a decimal number beginning at [b]; [s] is behind its first digit *)
Definition lex_decimal (fl : lflags) (b s : list N) : lres :=
  let s := skip_while isdigit s in
  let int := LGot (LTok (LInt (strtoumax 10 b)) b s) s fl in
  match s with
  | c :: t =>
    if (c =? 46) && negb (match t with d :: _ => (d =? 46) || (d =? 91) | [] => false end) && negb (notfloat fl) then
      let t := skip_while isdigit t in
      let t := accept 101 t (fun t =>
                 skip_while isdigit (accept 43 t (fun t => t) (accept 45 t (fun t => t) t))) t in
      LGot (LTok LFloat b t) t fl
    else int
  | [] => int
  end.

(** lexer.c:268-613; [scan] is the loop, [skip_until] lexer.c:142-146. *)
Definition advance_with (scan : lflags -> list N -> lres) (fl : lflags) (s : list N) : lres :=
  if exit fl then LGot (LTok LFEnd s s) s (set_exit false fl)
  else if lstrfmt fl then LGot (LTok LFmt s s) s (set_lstrfmt false fl)
  else scan (if match s with c :: _ => isdigit c || (c =? 46) | [] => false end then fl else set_notfloat false fl) s.
Fixpoint scan (n : nat) (fl : lflags) (s : list N) : lres :=
  match n with
  | O => LFuel
  | S n =>
    if enter fl then lex_string false (set_cont true (set_enter false fl)) s (tail s)
    else
      let s := skip_spaces s in
      match s with
      | [] => LGot (LTok LEof s s) s fl
      | c :: t =>
        match punct s with
        | Some (p, r) =>
          LGot (LTok (LPunct p) s r) r (if bool_decide (p = [46]) then set_notfloat true fl else fl)
        | None =>
          if c =? 125 then                                    (* closing brace, 354-358 *)
            if cont fl then lex_string false fl s t else LGot (LTok (LPunct [125]) s t) t fl
          else if c =? 47 then                                (* slash, 457-471 *)
            match t with
            | d :: t' =>
              if d =? 47 then scan n fl (skip_line t')
              else if d =? 42 then
                match skip_comment 0 t' with
                | Some r => scan n fl r
                | None => LGot (LTok LErr s []) [] fl
                end
              else if d =? 61 then LGot (LTok (LPunct [47; 61]) s t') t' fl
              else LGot (LTok (LPunct [47]) s t) t fl
            | [] => LGot (LTok (LPunct [47]) s t) t fl
            end
          else if c =? 34 then                                (* double quote, 473-478 *)
            match t with
            | d :: e :: t' =>
              if (d =? 34) && (e =? 34) then
                match multiline t' with
                | Some (e', r) => LGot (LTok LStr (e :: t') e') r fl
                | None => LGot (LTok LErr (e :: t') []) [] fl
                end
              else lex_string true fl s t
            | _ => lex_string true fl s t
            end
          else if c =? 39 then lex_char fl s t                (* single quote *)
          else if (c =? 102) && match t with d :: _ => d =? 34 | [] => false end then   (* 540-547 *)
            if enter fl || cont fl then LGot (LTok LErr s t) t fl
            else LGot (LTok LFStart s t) t (set_enter true fl)
          else if (c =? 95) || isalpha c then                 (* 550-564 *)
            let e := skip_while wordchar t in LGot (LTok LWord s e) e fl
          else if isdigit c then                              (* 566-610 *)
            let based (base : N) (digit : N -> bool) (ptr : list N) :=
              let e := skip_while digit ptr in
              match e with
              | d :: _ =>
                if space_or_punct d then LGot (LTok (LInt (strtoumax base ptr)) s e) e fl
                else match skip_until n fl e with LGot _ e' fl' => LGot (LTok LErr s e') e' fl' | r => r end
              | [] => match skip_until n fl e with LGot _ e' fl' => LGot (LTok LErr s e') e' fl' | r => r end
              end in
            if c =? 48 then
              accept 98 t (based 2 (fun d => (d =? 48) || (d =? 49)))
              (accept 120 t (based 16 isxdigit)
              (accept 111 t (based 8 isodigit) (lex_decimal fl s t)))
            else lex_decimal fl s t
          else LGot (LTok LErr s t) t fl
        end
      end
  end
(** The answer [LGot] carries the state at the end of the loop.  At the end of file every
    call answers the end of file or a pending string token and nothing moves. *)
with skip_until (n : nat) (fl : lflags) (s : list N) : lres :=
  match n with
  | O => LFuel
  | S n =>
    match s with
    | [] => LHang
    | c :: _ =>
      if space_or_punct c then LGot (LTok LErr s s) s fl
      else match advance_with (scan n) fl s with LGot _ s' fl' => skip_until n fl' s' | r => r end
    end
  end.
Definition advance (fl : lflags) (s : list N) : lres := advance_with (scan (2 * length s + 2)) fl s.

(** All tokens up to the end of file, as the parser asks for them. *)
Inductive lall := AToks (ts : list ltok) | AStop (r : lres).
Fixpoint lex_loop (n : nat) (fl : lflags) (s : list N) : lall :=
  match n with
  | O => AStop LFuel
  | S n =>
    match advance fl s with
    | LGot t s' fl' =>
      match tk_tag t with
      | LEof => AToks [t]
      | _ => match lex_loop n fl' s' with AToks ts => AToks (t :: ts) | r => r end
      end
    | r => AStop r
    end
  end.
Definition no_flags : lflags := LFlags false false false false false.
Definition lex (s : list N) : lall := lex_loop (3 * length s + 3) no_flags s.
