(** Model of src/cxy/stdlib/json.cxy: [toJSON] (6-79) and [parseJSON] (313-372) with the parts
    of [JSONParser] (83-231) and [fieldFromJSON] (277-311) that it uses, at the types built from
    bool, integers, String, optionals, tuples and structs with the attribute json.

    The parser is at the rest of the text that is left; behind the text is a NUL
    (builtins.cxy:828-836), which is what the model reads there.  Texts are shorter than 2^32
    bytes.  Line and column only go to messages.  Left out: floating point and char types,
    base64 fields (C07), partial structs, own fromJSON methods.  Arrays and slices are printed
    but parseJSON has no case for them. *)
From Coq Require Import ZArith.
From stdpp Require Import list numbers.
From Verif Require Import OutStreamModel.

Notation text := (list N).
Inductive ty :=
  | TyBool | TyInt (signed : bool) (bits : Z) | TyStr | TyOpt (t : ty) | TyTuple (ts : list ty) | TyStruct (fs : list (text * ty)).
(** A String may be null; a struct is the list of the values of its fields. *)
Inductive value :=
  | VBool (b : bool) | VInt (z : Z) | VStr (s : option text) | VOpt (o : option value) | VTuple (vs : list value).

(** ** Printing *)
Definition quote : text := [34%N].
Definition null_text : text := [110; 117; 108; 108]%N.
Definition bool_text (b : bool) : text := if b then [116; 114; 117; 101]%N else [102; 97; 108; 115; 101]%N.
Fixpoint joined (l : list text) : text :=
  match l with [] => [] | [a] => a | a :: l => a ++ [44; 32]%N ++ joined l end.
(** json.cxy:6-79; a value that is not of the type prints nothing.  Integers go through the
    cast to i64 (builtins.cxy:646), a null String prints null (builtins.cxy:638). *)
Fixpoint toJSON (t : ty) (v : value) : text :=
  match t, v with
  | TyBool, VBool b => bool_text b
  | TyInt _ _, VInt z => print_integer z
  | TyStr, VStr s => quote ++ match s with Some s => s | None => null_text end ++ quote
  | TyOpt t, VOpt (Some v) => toJSON t v
  | TyOpt t, VOpt None => null_text
  | TyTuple ts, VTuple vs =>
    [91%N] ++ joined ((fix go (ts : list ty) (vs : list value) : list text :=
      match ts, vs with t :: ts, v :: vs => toJSON t v :: go ts vs | _, _ => [] end) ts vs) ++ [93%N]
  | TyStruct fs, VTuple vs =>
    [123%N] ++ joined ((fix go (fs : list (text * ty)) (vs : list value) : list text :=
      match fs, vs with
      | (n, t) :: fs, v :: vs => (quote ++ n ++ quote ++ [58; 32]%N ++ toJSON t v) :: go fs vs
      | _, _ => []
      end) fs vs) ++ [125%N]
  | _, _ => []
  end.

(** ** Parsing *)
(** [JRaise]: an exception; [JUndef]: a conversion from floating point out of range; [JLeft]:
    left out of the model (a number with fraction, exponent or hexadecimal digits, a field
    that keeps its default). *)
Inductive jres (A : Type) := JOk (a : A) (s : text) | JRaise | JUndef | JLeft.
Arguments JOk {A} a s. Arguments JRaise {A}. Arguments JUndef {A}. Arguments JLeft {A}.
Definition jbind {A B} (r : jres A) (f : A → text → jres B) : jres B :=
  match r with JOk a s => f a s | JRaise => JRaise | JUndef => JUndef | JLeft => JLeft end.

Definition isSpace (c : N) : bool := ((9 <=? c) && (c <=? 13) || (c =? 32))%N.
Definition isDigit (c : N) : bool := ((48 <=? c) && (c <=? 57))%N.
Definition isAlpha (c : N) : bool := ((65 <=? c) && (c <=? 90) || (97 <=? c) && (c <=? 122))%N.
(** json.cxy:102-106 *)
Fixpoint skipWhitespace (s : text) : text := match s with c :: r => if isSpace c then skipWhitespace r else s | [] => [] end.
(** 108-116; 217-222 *)
Definition consumeChar (c : N) (s : text) : text :=
  let s := skipWhitespace s in match s with d :: r => if (d =? c)%N then r else s | [] => s end.
Definition expectChar (c : N) (s : text) : jres unit :=
  match skipWhitespace s with d :: r => if (d =? c)%N then JOk () r else JRaise | [] => JRaise end.
(** 130-139 *)
Fixpoint scan (s : text) : text * text :=
  match s with
  | [] => ([], [])
  | c :: r =>
    if (c =? 0)%N then ([], s)
    else if (c =? 92)%N && match r with d :: _ => (d =? 34)%N | [] => false end then
      match r with d :: r => let '(a, b) := scan r in (c :: d :: a, b) | [] => ([], s) end
    else if (c =? 34)%N then ([], s)
    else let '(a, b) := scan r in (c :: a, b)
  end.
(** 121-145 *)
Definition expectString (s : text) : jres text :=
  match skipWhitespace s with
  | c :: s =>
    if (c =? 34)%N then
      let '(a, b) := scan s in
      match b with d :: b => if (d =? 34)%N then JOk a b else JRaise | [] => JRaise end
    else JRaise
  | [] => JRaise
  end.
Fixpoint take_while (f : N → bool) (s : text) : text * text :=
  match s with
  | c :: r => if f c then let '(a, b) := take_while f r in (c :: a, b) else ([], s)
  | [] => ([], [])
  end.
(** 151-166 *)
Definition expectBool (s : text) : jres bool :=
  let '(a, b) := take_while isAlpha (skipWhitespace s) in
  if bool_decide (a = bool_text true) then JOk true b
  else if bool_decide (a = bool_text false) then JOk false b else JRaise.
(** The C library: strtod of decimal digits, rounded to nearest, ties to even. *)
Definition digits_val (ds : text) : Z := fold_left (λ n c, n * 10 + (Z.of_N c - 48))%Z ds 0%Z.
Definition round53_pos (n : Z) : Z :=
  let e := Z.max 0 (Z.log2 n - 52) in
  let q := (n / 2 ^ e)%Z in
  let r := (n mod 2 ^ e)%Z in
  let q := if (2 ^ e <? 2 * r)%Z || (2 ^ e =? 2 * r)%Z && Z.odd q then (q + 1)%Z else q in
  (q * 2 ^ e)%Z.
Definition round53 (z : Z) : Z := if (z <? 0)%Z then (- round53_pos (- z))%Z else round53_pos z.
(** 168-203 for numbers without fraction and exponent *)
Definition expectFloat (s : text) : jres Z :=
  let s := skipWhitespace s in
  let '(neg, s1) := match s with c :: r => if (c =? 45)%N then (true, r) else (false, s) | [] => (false, []) end in
  let '(ds, s2) := take_while isDigit s1 in
  let next := match s2 with c :: _ => c | [] => 0%N end in
  if (next =? 46)%N || (next =? 69)%N || (next =? 101)%N || bool_decide (ds = [48%N]) && ((next =? 88)%N || (next =? 120)%N) then JLeft
  else match ds with
       | [] => JRaise   (* 193 without a sign, 200 with one *)
       | _ => JOk (round53 (if neg then - digits_val ds else digits_val ds))%Z s2
       end.
(** The cast of 207: defined when the truncated number is in the range of the type. *)
Definition in_range (signed : bool) (bits : Z) (z : Z) : bool :=
  if signed then (- 2 ^ (bits - 1) <=? z)%Z && (z <? 2 ^ (bits - 1))%Z else (0 <=? z)%Z && (z <? 2 ^ bits)%Z.
(** 205-208 *)
Definition expectInteger (signed : bool) (bits : Z) (s : text) : jres Z :=
  jbind (expectFloat s) (λ z s, if in_range signed bits z then JOk z s else JUndef).
(** 224-231 *)
Definition matchNull (s : text) : option text :=
  let s := skipWhitespace s in if bool_decide (take 4 s = null_text) then Some (drop 4 s) else None.

(** 284-301: the place of the key among the fields *)
Fixpoint index_of {A} (key : text) (fs : list (text * A)) : option (nat * A) :=
  match fs with
  | [] => None
  | (n, p) :: fs => if bool_decide (n = key) then Some (0, p) else option_map (λ r, (S (fst r), snd r)) (index_of key fs)
  end.
(** 353-362; [acc] are the fields assigned so far *)
Fixpoint fields (fuel : nat) (fs : list (text * (text → jres value))) (acc : list (option value)) (s : text) : jres (list (option value)) :=
  match fuel with
  | O => JLeft
  | S fuel =>
    let s := skipWhitespace s in
    if match s with c :: _ => (c =? 125)%N | [] => false end then JOk acc s
    else
      jbind (expectString s) (λ key s,
      jbind (expectChar 58 s) (λ _ s,
      match index_of key fs with
      | None => JRaise
      | Some (i, p) =>
        jbind (p s) (λ v s, fields fuel fs (<[i := Some v]> acc) (consumeChar 44 s))
      end))
  end.
Fixpoint all_some {A} (l : list (option A)) : option (list A) :=
  match l with
  | [] => Some []
  | Some a :: l => option_map (cons a) (all_some l)
  | None :: _ => None
  end.
(** 313-372 *)
Fixpoint parseJSON (t : ty) (s : text) : jres value :=
  match t with
  | TyBool => jbind (expectBool s) (λ b s, JOk (VBool b) s)
  | TyInt sg bits => jbind (expectInteger sg bits s) (λ z s, JOk (VInt z) s)
  | TyStr => jbind (expectString s) (λ x s, JOk (VStr (Some x)) s)
  | TyOpt t =>
    match matchNull s with
    | Some s => JOk (VOpt None) s
    | None => jbind (parseJSON t (skipWhitespace s)) (λ v s, JOk (VOpt (Some v)) s)
    end
  | TyTuple ts =>
    jbind (expectChar 91 s) (λ _ s,
    jbind ((fix go (first : bool) (ts : list ty) (s : text) : jres (list value) :=
      match ts with
      | [] => JOk [] s
      | t :: ts =>
        jbind (if first then JOk () s else expectChar 44 s) (λ _ s,
        jbind (parseJSON t s) (λ v s,
        jbind (go false ts s) (λ vs s, JOk (v :: vs) s)))
      end) true ts s) (λ vs s,
    jbind (expectChar 93 s) (λ _ s, JOk (VTuple vs) s)))
  | TyStruct fs =>
    jbind (expectChar 123 s) (λ _ s,
    jbind (fields (S (length s)) (map (λ f, (fst f, parseJSON (snd f))) fs) (map (λ _, None) fs) s) (λ acc s,
    jbind (expectChar 125 s) (λ _ s,
    match all_some acc with Some vs => JOk (VTuple vs) s | None => JLeft end)))
  end.
(** 377-381 *)
Definition fromString (t : ty) (s : text) : jres value := parseJSON t s.
