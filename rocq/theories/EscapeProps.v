(** C34: unescaping of string literals; C61: string literals in the generated C. *)
From stdpp Require Import numbers list.
From Verif Require Import EscapeModel EscapeSpec EscapeProofs.
Local Open Scope N_scope.

(** The buffer of [getStringLiteral] always suffices. *)
Theorem C34_escape_fits : forall s,
  exists r, getStringLiteral s = Some r /\ (length r <= length s)%nat.
Proof. intros s. exists (escape_loop 34 s). split; [apply getStringLiteral_ok|apply escape_loop_length]. Qed.

(** A literal text is unescaped correctly exactly if it has no escaped single
    quote and no escaped backslash except at the end (or before $ or a quote).
    Missing for the full claim: escaped backslashes and single quotes. *)
Theorem C34_escape_exact_partial : forall l,
  well_formed l = true ->
  (getStringLiteral (lit_text l) = Some (lit_value l) <-> backslash_lucky l = true).
Proof.
  intros l Hw. rewrite getStringLiteral_ok. split.
  - intros E. injection E as E. destruct (backslash_lucky l) eqn:Hb; [done|].
    by apply escape_wrong in E.
  - intros Hb. by rewrite escape_good.
Qed.

(** backslash backslash n in the source is a backslash and an n; the code makes
    it a backslash and a newline. *)
Theorem C34_escape_refuted :
  exists l, well_formed l = true /\ getStringLiteral (lit_text l) <> Some (lit_value l).
Proof. exists [TEsc 92 92; TChar 110]. split; [done|]. vm_compute. done. Qed.
Theorem C34_single_quote_refuted :
  exists l, well_formed l = true /\ getStringLiteral (lit_text l) <> Some (lit_value l).
Proof. exists [TChar 97; TEsc 39 39]. split; [done|]. vm_compute. done. Qed.

Print Assumptions C34_escape_fits.
Print Assumptions C34_escape_exact_partial.
Print Assumptions C34_escape_refuted.
Print Assumptions C34_single_quote_refuted.

Example C34_ex :
  let l := [TChar 104; TEsc 110 10; TEsc 34 34; TEsc 48 0; TChar 120; TEsc 92 92] in
  well_formed l = true /\ backslash_lucky l = true /\
  lit_text l = [104; 92; 110; 92; 34; 92; 48; 120; 92; 92] /\
  getStringLiteral (lit_text l) = Some [104; 10; 34; 0; 120; 92].
Proof. by vm_compute. Qed.
Example C34_ex_wrong :
  getStringLiteral [92; 92; 110] = Some [92; 10] /\ getStringLiteral [92; 39] = Some [92; 39].
Proof. by vm_compute. Qed.

(** ASCII strings without a backslash in front of a digit or x are read back by
    the C compiler as they were. *)
Theorem C61_emitted_literal_partial : forall s,
  plain_string s = true ->
  exists t, visitStringLit s = Some t /\ c_string t = Some s.
Proof. exact emit_decode. Qed.

(** From the source text to what the C compiler reads. *)
Theorem C61_source_to_c_partial : forall l,
  well_formed l = true -> backslash_lucky l = true -> plain_string (lit_value l) = true ->
  exists s t, getStringLiteral (lit_text l) = Some s /\ visitStringLit s = Some t /\
    c_string t = Some (lit_value l).
Proof.
  intros l Hw Hb Hp. destruct (emit_decode _ Hp) as (t & Ht & Hv).
  exists (lit_value l), t. split; [|done]. by rewrite getStringLiteral_ok, escape_good.
Qed.

(** Any byte outside ASCII stops the compiler. *)
Theorem C61_non_ascii_aborts : forall s,
  Forall (fun c => 0 < c) s -> (exists c, c ∈ s /\ 128 <= c) -> visitStringLit s = None.
Proof. exact emit_abort. Qed.
(** A backslash followed by x is not escaped: the four characters of a backslash,
    x, 4 and 1 come out as the single character A; also octal digits, and a NUL
    ends the literal. *)
Theorem C61_emitted_literal_refuted :
  exists s t, Forall (fun c => 0 < c /\ c < 128) s /\ visitStringLit s = Some t /\ c_string t <> Some s.
Proof.
  exists [92; 120; 52; 49], [92; 120; 52; 49]. split; [|split; [done|by vm_compute]].
  repeat constructor.
Qed.
Theorem C61_nul_refuted : exists l s t,
  well_formed l = true /\ getStringLiteral (lit_text l) = Some s /\ s = lit_value l /\
  visitStringLit s = Some t /\ c_string t <> Some s.
Proof.
  exists [TChar 97; TEsc 48 0; TChar 98], [97; 0; 98], [97].
  repeat split; try done.
Qed.

Print Assumptions C61_emitted_literal_partial.
Print Assumptions C61_source_to_c_partial.
Print Assumptions C61_non_ascii_aborts.
Print Assumptions C61_emitted_literal_refuted.
Print Assumptions C61_nul_refuted.

Example C61_ex :
  let s := [97; 10; 34; 92; 110; 63; 9] in
  plain_string s = true /\
  visitStringLit s = Some [97; 92; 110; 92; 34; 92; 92; 110; 63; 92; 116] /\
  c_string [97; 92; 110; 92; 34; 92; 92; 110; 63; 92; 116] = Some s.
Proof. by vm_compute. Qed.
Example C61_ex_abort : visitStringLit [99; 195; 169] = None /\ c_string [92; 120; 52; 49] = Some [65].
Proof. by vm_compute. Qed.
