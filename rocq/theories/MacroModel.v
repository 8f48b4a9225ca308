(** Model of the preprocessor's table of macros
    (src/cxy/lang/frontend/defines.c, defines.h).

    Simplifications: names are interned strings, identified by their pointers
    (numbers), as the table compares them; it hashes their characters, which a
    pointer determines, so the hash is a function of the pointer and a
    parameter here.  A value is an AST node (a number) or NULL ([None]).
    The parser called on the values of -D options is a parameter. *)
From stdpp Require Import list numbers.
From Verif Require Import HTableModel KTableModel.

Section macros.
Context (hashs : N → N).
Definition macros := ktable N (option N).

(** defines.c:24-51; the answer is the value returned and, if not NULL, what
    was stored in [previous]. *)
Definition override_macro (t : macros) (variable : N) (value : option N)
    : tres (macros * (bool * option (option N))) :=
  tbind (kt_find N.eqb hashs t variable None) (λ f,
  match f with
  | Some (i, old) => TOk (kt_store t i (variable, value), (false, Some old))
  | None =>
    tbind (kt_insert N.eqb hashs t variable value) (λ r,
    if snd r then TOk (fst r, (true, None)) else TAssert)
  end).
(** defines.c:53-70; [None] for false, the value stored otherwise. *)
Definition has_macro (t : macros) (variable : N) : tres (option (option N)) :=
  tbind (kt_find N.eqb hashs t variable None) (λ f,
  TOk (match f with Some (_, v) => Some v | None => None end)).
(** defines.h:31-38. *)
Definition find_macro (t : macros) (variable : N) : tres (option N) :=
  tbind (has_macro t variable) (λ r, TOk (match r with Some v => v | None => None end)).

Inductive mop := MDefine (x : N) (v : option N) | MHas (x : N).
Inductive mout := MDefined (is_new : bool) (previous : option (option N)) | MFound (o : option (option N)).
Definition mstep (t : macros) (o : mop) : tres (macros * mout) :=
  match o with
  | MDefine x v => tbind (override_macro t x v) (λ r, TOk (fst r, MDefined (fst (snd r)) (snd (snd r))))
  | MHas x => tbind (has_macro t x) (λ r, TOk (t, MFound r))
  end.
Fixpoint mrun (t : macros) (ops : list mop) : tres (macros * list mout) :=
  match ops with
  | [] => TOk (t, [])
  | o :: rest => tbind (mstep t o) (λ r, tbind (mrun (fst r) rest) (λ r', TOk (fst r', snd r :: snd r')))
  end.

(** The options read by [initCompilerPreprocessor]: optimisation above -O0,
    the test command, the -D options in order (name; NULL or the parsed value),
    --debug; and the names it uses. *)
Record minit := MInit { m_opt : bool; m_test : bool; m_defines : list (N * option N); m_debug : bool }.
Record mnames := MNames { s_disable_assert : N; s_cxy_test : N; s_debug : N; s_trace : N;
  (** the backend function ids: name and the node of the literal *)
  s_bfi : list (N * N) }.
(** defines.c:72-125, as the calls it makes of [preprocessorDefineMacro], and
    the value stored in [options->withMemoryTrace] (false if left alone). *)
Definition init_ops1 (S : mnames) (i : minit) : list mop :=
  (if m_opt i then [MDefine (s_disable_assert S) None] else []) ++
  (if m_test i then [MDefine (s_cxy_test S) None] else []) ++
  map (λ d, MDefine (fst d) (snd d)) (m_defines i) ++
  (if m_debug i then [MDefine (s_debug S) None] else []).
Definition init_preprocessor (S : mnames) (i : minit) : tres (macros * bool) :=
  tbind (mrun kt_new (init_ops1 S i)) (λ r,
  tbind (if m_debug i then has_macro (fst r) (s_trace S) else TOk None) (λ trace,
  tbind (mrun (fst r) (map (λ d, MDefine (fst d) (Some (snd d))) (s_bfi S))) (λ r',
  TOk (fst r', match trace with Some _ => true | None => false end)))).
End macros.
