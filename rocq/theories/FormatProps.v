(** C33: formatted output is the concatenation of its pieces. *)
From stdpp Require Import numbers list.
From Verif Require Import EscapeSpec FormatModel FormatSpec FormatProofs Utf8Spec.
Local Open Scope N_scope.

(** Every sequence of calls succeeds, and the text is the expected one whatever
    the buffers: pieces in order, newlines of format strings followed by the
    current indentation. *)
Theorem C33_formatted_output : forall tab cs out i,
  calls_out tab cs 0 out i ->
  exists s, run_calls (newFormatState tab true) cs = Some s /\
    formatStateToString s = out /\ fs_indent s = i.
Proof.
  intros tab cs out i H.
  destruct (run_calls_ok cs (newFormatState tab true) out i) as (s & E & H1 & H2 & _); [done|done|].
  exists s. by rewrite H1.
Qed.

(** One call from any reached state, also with styles on when none is used. *)
Theorem C33_format_call : forall s ds out i,
  ds_out (fs_tab s) ds (fs_indent s) out i ->
  fs_ignoreStyle s = true \/ Forall (fun d => match d with DStyle _ _ => False | _ => True end) ds ->
  exists s', format s (fmt_string ds) (fmt_args ds) = Some s' /\
    formatStateToString s' = formatStateToString s ++ out /\ fs_indent s' = i.
Proof.
  intros s ds out i H Hst. unfold format.
  destruct (format_loop_ok ds [] (S (length (fmt_string ds))) s [] [] 0 out i) as (s1 & E & H1 & H2 & _);
    [constructor|done|done|done|cbn; auto with arith|].
  exists s1. cbn [app] in E. rewrite app_nil_r in E. done.
Qed.

(** The numbers have a decimal notation (so the relation above is never empty). *)
Theorem C33_decimal_exists : forall n, n < 2 ^ 64 -> exists t, is_decimal n t.
Proof.
  intros n H. exists (digits 20 n). apply digits_is_decimal. apply small_bound. by apply N.lt_le_incl.
Qed.

(** {cE} writes a character as the escape sequence that denotes it, if there is one ($ and
    the single quote are written as they are), otherwise as UTF-8. *)
Theorem C33_escaped_char c : c < 0x110000 ->
  (exists e, (e, c) ∈ escape_table /\ c <> 36 /\ c <> 39 /\ utf8_text c true = Some [92; e]) \/
  ((forall e, (e, c) ∈ escape_table -> c = 36 \/ c = 39) /\ utf8_text c true = Some (utf8 c)).
Proof.
  intros Hc. unfold utf8_text. cbn [andb].
  repeat match goal with |- context [if c =? ?k then Some [92; ?e] else _] =>
    destruct (N.eqb_spec c k) as [-> |?]; [left; exists e; split; [apply (bool_decide_unpack _); by vm_compute|done]|] end.
  right. split.
  - intros e He. unfold escape_table in He. rewrite !elem_of_cons, elem_of_nil in He.
    repeat (destruct He as [[= -> ->]|He]; [try (by left); try (by right); done|]). done.
  - by apply (utf8_text_ok c).
Qed.
Example C33_escaped_char_ex : utf8_text 9 true = Some [92; 116] /\ utf8_text 0xE9 true = Some [0xC3; 0xA9].
Proof. by vm_compute. Qed.
Print Assumptions C33_escaped_char.

(** The command {sEl} never works: the letter l is not skipped. *)
Theorem C33_escaped_length_refuted :
  format (newFormatState [] true) [123; 115; 69; 108; 125] [AStr [97]; ALen 1] = None.
Proof. by vm_compute. Qed.

Print Assumptions C33_formatted_output.
Print Assumptions C33_format_call.
Print Assumptions C33_decimal_exists.
Print Assumptions C33_escaped_length_refuted.

Example C33_ex :
  let tab := [32; 32] in
  let cs := [CallAppend [97]; CallFormat [DText [98]; DIndent; DNewline; DStr [99; 10; 100]; DI64 (-42); DDedent; DNewline];
             CallFormat [DBrace; DCharTimes 0xE9 2; DU32 7]] in
  exists s, run_calls (newFormatState tab true) cs = Some s /\
    formatStateToString s =
      [97; 98; 10; 32; 32; 99; 10; 100; 45; 52; 50; 10; 123; 0xC3; 0xA9; 0xC3; 0xA9; 55].
Proof. vm_compute. eexists. by split. Qed.
(** The same through the theorem: the hypotheses are reachable. *)
Example C33_ex_spec :
  calls_out [32; 32] [CallAppend [97]; CallFormat [DText [98]; DIndent; DNewline; DU32 70]] 0
    ([97] ++ ([98] ++ [] ++ [10; 32; 32] ++ [55; 48] ++ []) ++ []) 1.
Proof.
  constructor. eapply Co_format; [|constructor].
  eapply Os_cons; [constructor; repeat constructor; done|].
  eapply Os_cons; [constructor|].
  eapply Os_cons; [exact (O_nl [32; 32] 1)|].
  eapply Os_cons; [|constructor]. constructor; [done|].
  split; [done|]. split; [repeat constructor; done|]. by split.
Qed.
