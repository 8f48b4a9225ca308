(** What the tokens of a text are to be. *)
From Coq Require Import Strings.String Strings.Ascii.
From stdpp Require Import numbers list.
From Verif Require Import LexModel.
Local Open Scope N_scope.

(** ** Blanks and comments *)
(** [Com s r]: a comment whose opening has just been read ends inside [s], leaving [r];
    a comment inside counts as a whole. *)
Inductive Com : list N -> list N -> Prop :=
  | Com_end r : Com (42 :: 47 :: r) r
  | Com_nest s m r : Com s m -> Com m r -> Com (47 :: 42 :: s) r
  | Com_char c s r : (forall t, c :: s <> 47 :: 42 :: t) -> (forall t, c :: s <> 42 :: 47 :: t) ->
      Com s r -> Com (c :: s) r.
Definition blank (c : N) : Prop := c ∈ [9; 10; 11; 12; 13; 32].
(** [Gap s s']: nothing but blanks and comments between [s] and [s']. *)
Inductive Gap : list N -> list N -> Prop :=
  | G_nil s : Gap s s
  | G_blank c s s' : blank c -> Gap s s' -> Gap (c :: s) s'
  | G_line body s s' : Forall (fun c => c <> 10) body -> s = [] \/ head s = Some 10 ->
      Gap s s' -> Gap (47 :: 47 :: body ++ s) s'
  | G_block s m s' : Com s m -> Gap m s' -> Gap (47 :: 42 :: s) s'.

(** ** Words *)
Definition codes (s : string) : list N := map N_of_ascii (list_ascii_of_string s).
Definition punctuators : list (list N) := map codes
  ["("; ")"; "["; "]"; "{"; "}"; "."; ".."; "..."; ".["; ","; ":"; ";"; "#"; "#{"; "#."; "##"; "`"; "@"; "?";
   "!"; "!="; "!:"; "~"; "+"; "++"; "+="; "-"; "--"; "-="; "->"; "*"; "*="; "%"; "%="; "&"; "&&"; "&="; "&.";
   "|"; "||"; "|="; "^"; "^="; "<"; "<<"; "<<="; "<="; ">"; ">>"; ">>="; ">="; "="; "=="; "=>"; "/"; "/="]%string.
Definition letter (c : N) : Prop := 65 <= c <= 90 \/ 97 <= c <= 122.
Definition digit (c : N) : Prop := 48 <= c <= 57.
Definition word_first (c : N) : Prop := letter c \/ c = 95.
Definition word_next (c : N) : Prop := letter c \/ digit c \/ c = 95.
(** The characters of [text] are in [p], the next one is not. *)
Definition run_of (p : N -> Prop) (text rest : list N) : Prop :=
  Forall p text /\ (forall c, head rest = Some c -> ~ p c).
(** Digits of the bases of literals, with their prefix. *)
Definition base_digit (base c : N) : Prop :=
  if base =? 16 then digit c \/ 65 <= c <= 70 \/ 97 <= c <= 102 else 48 <= c < 48 + base.
Definition prefix_letter (base : N) : N := if base =? 2 then 98 else if base =? 8 then 111 else 120.
Definition digit_val (c : N) : N := if c <=? 57 then c - 48 else if c <=? 70 then c - 55 else c - 87.
Fixpoint num_val (base : N) (ds : list N) : N :=   (* least significant digit first *)
  match ds with [] => 0 | d :: ds => digit_val d + base * num_val base ds end.
(** The value of digits, cut off at 2^64 - 1. *)
Definition lit_val (base : N) (ds : list N) : N := N.min (num_val base (rev ds)) (2 ^ 64 - 1).
Definition separator (rest : list N) : Prop :=
  exists c, head rest = Some c /\ (blank c \/ 33 <= c <= 126 /\ ~ word_next c).
(** A string literal between its quotes; a line break is only allowed in front of a
    backslash, or at the very end. *)
Inductive str_body : list N -> Prop :=
  | Sb_nil : str_body []
  | Sb_last : str_body [10]
  | Sb_char c s : c <> 34 -> c <> 10 -> c <> 92 -> str_body s -> str_body (c :: s)
  | Sb_esc c s : str_body s -> str_body (92 :: c :: s)
  | Sb_line s : str_body s -> str_body (10 :: 92 :: s).

(** The text of a token, with what is skipped directly in front of it and behind it, and
    what follows. *)
Definition Lexeme (tag : ltag) (pre text post rest : list N) : Prop :=
  match tag with
  | LEof => False
  | LErr => text <> [] /\ (pre = [] \/ pre = [34; 34]) /\ post = []
  | LPunct p => pre = [] /\ post = [] /\ text = p /\ p ∈ punctuators /\
      forall q, q ∈ punctuators -> q `prefix_of` text ++ rest -> (length q <= length p)%nat
  | LWord => pre = [] /\ post = [] /\ exists c w, text = c :: w /\ word_first c /\ run_of word_next w rest
  | LInt v => pre = [] /\ post = [] /\
      (text <> [] /\ run_of digit text rest /\ v = lit_val 10 text \/
       exists base ds, (base = 2 \/ base = 8 \/ base = 16) /\ text = 48 :: prefix_letter base :: ds /\
         run_of (base_digit base) ds rest /\ separator rest /\ (ds <> [] -> v = lit_val base ds))
  | LFloat => pre = [] /\ post = [] /\ exists a b x, text = a ++ 46 :: b ++ x /\ a <> [] /\ Forall digit a /\ Forall digit b /\
      (x = [] \/ exists s ds, x = 101 :: s ++ ds /\ (s = [] \/ s = [43] \/ s = [45]) /\ Forall digit ds) /\
      (forall c, head rest = Some c -> ~ digit c) /\
      (forall c, head (b ++ x ++ rest) = Some c -> c <> 46 /\ c <> 91)   (* 1..2 and 1.[ are not floats *)
  | LStr =>
      (pre = [] /\ post = [] /\ exists b, text = 34 :: b ++ [34] /\ str_body b) \/       (* a literal *)
      (pre = [34; 34] /\ post = [34; 34] /\ exists b, text = 34 :: b ++ [34] /\          (* between triple quotes *)
         forall x y, b ++ [34; 34] <> x ++ [34; 34; 34] ++ y) \/
      (pre = [] /\ exists o b, (o = 34 \/ o = 125) /\                                    (* part of a string expression *)
         ((text = o :: b ++ [34] /\ post = []) \/ (text = o :: b ++ [36] /\ post = [123])))
  | LChar v => pre = [] /\ post = [39] /\ exists c, text = 39 :: c /\ (v = None <-> c = []) /\
      Utf8Model.convertEscapeSeq (c ++ post ++ rest) (N.of_nat (length c)) = Utf8Model.COk (N.of_nat (length c), v)
  | LFStart => pre = [] /\ post = [] /\ text = [102] /\ head rest = Some 34
  | LFmt | LFEnd => pre = [] /\ post = [] /\ text = []
  end.
(** The tokens [ts] cover the text [s]. *)
Inductive Covers : list N -> list ltok -> Prop :=
  | Cov_eof s : Gap s [] -> Covers s [LTok LEof [] []]
  | Cov_tok s tag pre text post s' ts : Gap s (pre ++ text ++ post ++ s') -> Lexeme tag pre text post s' ->
      Covers s' ts -> Covers s (LTok tag (text ++ post ++ s') (post ++ s') :: ts).
(** Extents in the order of the file, without overlap: [n] bytes are left. *)
Fixpoint ordered (n : nat) (ts : list ltok) : Prop :=
  match ts with
  | [] => True
  | t :: ts => (length (tk_begin t) <= n)%nat /\ (length (tk_end t) <= length (tk_begin t))%nat /\ ordered (length (tk_end t)) ts
  end.
(** The file ends with a line break that has no backslash in front of it. *)
Definition safe (s : list N) : Prop := last s = Some 10 /\ forall l, s <> l ++ [92; 10].
