(** What formatted output should be, independently of the buffers: a format
    string is written down as a list of directives. *)
From stdpp Require Import numbers list.
From Verif Require Import Utf8Spec.
From Verif Require Import FormatModel.
Local Open Scope N_scope.

Inductive directive :=
  | DText (t : list N)                     (* plain text *)
  | DNewline                               (* a newline in the format string *)
  | DBrace                                 (* {{ *)
  | DIndent | DDedent                      (* {>} and {<} *)
  | DStr (t : list N)                      (* {s} *)
  | DStrLen (t : list N) (n : nat)         (* {sl} *)
  | DChar (c : N)                          (* {c} *)
  | DCharTimes (c : N) (n : nat)           (* {cl} *)
  | DBool (b : bool)                       (* {b} *)
  | DU64 (n : N) | DU32 (n : N)            (* {u64} {u32} *)
  | DI64 (z : Z)                           (* {i64} *)
  | DStyle (st co : N).                    (* {$} with styles switched off *)

Definition d_text (d : directive) : list N :=
  match d with
  | DText t => t
  | DNewline => [10]
  | DBrace => [123; 123]
  | DIndent => [123; 62; 125]
  | DDedent => [123; 60; 125]
  | DStr _ => [123; 115; 125]
  | DStrLen _ _ => [123; 115; 108; 125]
  | DChar _ => [123; 99; 125]
  | DCharTimes _ _ => [123; 99; 108; 125]
  | DBool _ => [123; 98; 125]
  | DU64 _ => [123; 117; 54; 52; 125]
  | DU32 _ => [123; 117; 51; 50; 125]
  | DI64 _ => [123; 105; 54; 52; 125]
  | DStyle _ _ => [123; 36; 125]
  end.
Definition d_args (d : directive) : list farg :=
  match d with
  | DStr t => [AStr t]
  | DStrLen t n => [AStr t; ALen n]
  | DChar c => [AChar c]
  | DCharTimes c n => [AChar c; ALen n]
  | DBool b => [ABool b]
  | DU64 n | DU32 n => [AInt n]
  | DI64 z => [AInt (Z.to_N (z mod 2 ^ 64))]
  | DStyle st co => [AStyle st co]
  | _ => []
  end.
(** The format string and the arguments of a list of directives. *)
Definition fmt_string (ds : list directive) : list N := concat (map d_text ds).
Definition fmt_args (ds : list directive) : list farg := concat (map d_args ds).

(** [dec_value t]: the number written by the decimal digits [t]. *)
Definition dec_value (t : list N) : N := fold_left (fun a c => 10 * a + (c - 48)) t 0.
(** [t] is the decimal notation of [n]: digits without superfluous zeros. *)
Definition is_decimal (n : N) (t : list N) : Prop :=
  t <> [] /\ Forall (fun c => 48 <= c /\ c <= 57) t /\ dec_value t = n /\ (hd 0 t = 48 -> t = [48]).

(** The expected output of one directive at an indentation, and the next one. *)
Inductive d_out (tab : list N) : directive -> nat -> list N -> nat -> Prop :=
  | O_text t i : Forall (fun c => c <> 10 /\ c <> 123) t -> d_out tab (DText t) i t i
  | O_nl i : d_out tab DNewline i (10 :: concat (repeat tab i)) i
  | O_brace i : d_out tab DBrace i [123] i
  | O_indent i : d_out tab DIndent i [] (S i)
  | O_dedent i : d_out tab DDedent (S i) [] i
  | O_str t i : d_out tab (DStr t) i t i
  | O_strlen t n i : d_out tab (DStrLen t n) i (take n t) i
  | O_char c i : c < 0x110000 -> d_out tab (DChar c) i (utf8 c) i
  | O_chars c n i : c < 0x110000 -> d_out tab (DCharTimes c n) i (concat (repeat (utf8 c) n)) i
  | O_true i : d_out tab (DBool true) i [116; 114; 117; 101] i
  | O_false i : d_out tab (DBool false) i [102; 97; 108; 115; 101] i
  | O_u64 n t i : n < 2 ^ 64 -> is_decimal n t -> d_out tab (DU64 n) i t i
  | O_u32 n t i : n < 2 ^ 32 -> is_decimal n t -> d_out tab (DU32 n) i t i
  | O_i64 n t i : n < 2 ^ 63 -> is_decimal n t -> d_out tab (DI64 (Z.of_N n)) i t i
  | O_i64n n t i : 0 < n -> n <= 2 ^ 63 -> is_decimal n t -> d_out tab (DI64 (- Z.of_N n)) i (45 :: t) i
  | O_style st co i : d_out tab (DStyle st co) i [] i.
Inductive ds_out (tab : list N) : list directive -> nat -> list N -> nat -> Prop :=
  | Os_nil i : ds_out tab [] i [] i
  | Os_cons d ds i t i' u i'' :
    d_out tab d i t i' -> ds_out tab ds i' u i'' -> ds_out tab (d :: ds) i (t ++ u) i''.

(** A sequence of calls of the formatter. *)
Inductive fcall := CallAppend (t : list N) | CallFormat (ds : list directive).
Fixpoint run_calls (s : fstate) (cs : list fcall) : option fstate :=
  match cs with
  | [] => Some s
  | CallAppend t :: cs => match append s t with Some s => run_calls s cs | None => None end
  | CallFormat ds :: cs =>
    match format s (fmt_string ds) (fmt_args ds) with Some s => run_calls s cs | None => None end
  end.
Inductive calls_out (tab : list N) : list fcall -> nat -> list N -> nat -> Prop :=
  | Co_nil i : calls_out tab [] i [] i
  | Co_append t cs i u i' : calls_out tab cs i u i' -> calls_out tab (CallAppend t :: cs) i (t ++ u) i'
  | Co_format ds cs i t i' u i'' :
    ds_out tab ds i t i' -> calls_out tab cs i' u i'' -> calls_out tab (CallFormat ds :: cs) i (t ++ u) i''.
