(** C39: the lexer terminates and consumes the input; C40: comments nest; C75: the values of
    integer literals. *)
From Coq Require Import Strings.String.
From stdpp Require Import numbers list.
From Verif Require Import Utf8Model LexModel LexSpec LexProofs.
Local Open Scope N_scope.

(** ** C39 *)
(** Whenever the end of file is reached the tokens cover the text: each token is, as spelled
    by its kind and as long as possible, the next piece of the text behind blanks and
    comments. *)
Theorem C39_covers s ts : lex s = AToks ts -> Covers s ts.
Proof. intros E. pose proof (lex_ok s) as H. by rewrite E in H. Qed.
Print Assumptions C39_covers.
(** Extents are in order and do not overlap, and only the last token is the end of file. *)
Theorem C39_ordered s ts : lex s = AToks ts ->
  ordered (length s) ts /\ exists us, ts = us ++ [LTok LEof [] []] /\ Forall (fun t => tk_tag t <> LEof) us.
Proof. intros E%C39_covers. split; [by apply Covers_ordered|by eapply Covers_last]. Qed.
Print Assumptions C39_ordered.
(** A file of ASCII characters whose last line ends with a line break (not one behind a
    backslash) is read to its end. *)
Theorem C39_terminates_partial s : safe s -> Forall (fun c => c < 128) s -> exists ts, lex s = AToks ts.
Proof.
  intros Hs HA. pose proof (lex_ok s) as H. destruct (lex s) as [ts|r]; [by exists ts|].
  assert (safe0 s) by (by right). by destruct r; naive_solver.
Qed.
Print Assumptions C39_terminates_partial.
(** With other bytes too no loop runs for ever: the only other answers are the failing
    assertion of the UTF-8 decoder, or a decoding past the text. *)
Theorem C39_no_hang_partial s : safe s ->
  (exists ts, lex s = AToks ts) \/ lex s = AStop LAbort \/ lex s = AStop LUb.
Proof.
  intros Hs. pose proof (lex_ok s) as H. destruct (lex s) as [ts|r]; [left; by exists ts|].
  assert (safe0 s) by (by right). destruct r; naive_solver.
Qed.
Print Assumptions C39_no_hang_partial.
(** For all texts the only loops that do not end are those named [LHang]: nothing else runs
    out of steps, however many are given beyond the length of the text. *)
Theorem C39_steps s : lex s <> AStop LFuel.
Proof. intros E. pose proof (lex_ok s) as H. by rewrite E in H. Qed.
Print Assumptions C39_steps.
(** Not so in general: a string, a character or a based number cut off by the end of file
    is read for ever; so is a line break behind a backslash in a string there. *)
Theorem C39_terminates_refuted :
  Forall (fun s => lex (codes s) = AStop LHang) ["""abc"; "'a"; "0x1F"; "0b1"; "0o7"; "x = f""a"]%string /\
  lex (codes """abc\" ++ [10]) = AStop LHang.
Proof. split; [|by vm_compute]. repeat constructor. Qed.
Print Assumptions C39_terminates_refuted.
(** A character literal that ends with the file is measured with a pointer to something
    else; one of several bytes stops the compiler. *)
Theorem C39_char_refuted :
  lex (codes "'a'") = AStop LUb /\
  safe ([39; 195; 169; 120; 39; 10]) /\ lex [39; 195; 169; 120; 39; 10] = AStop LAbort.
Proof.
  split; [by vm_compute|]. split; [|by vm_compute]. split; [done|]. intros l E.
  assert (H : last (removelast [39; 195; 169; 120; 39; 10]) = last (removelast (l ++ [92; 10]))) by (by rewrite E).
  rewrite removelast_app in H by done. cbn [removelast] in H. by rewrite last_snoc in H.
Qed.
Print Assumptions C39_char_refuted.
(** An empty character literal is a token of its own, without a value. *)
Theorem C39_empty_char_refuted :
  lex (codes "'';" ++ [10]) =
  AToks [LTok (LChar None) (codes "'';" ++ [10]) (codes "';" ++ [10]); LTok (LPunct [59]) (codes ";" ++ [10]) [10]; LTok LEof [] []].
Proof. by vm_compute. Qed.
Print Assumptions C39_empty_char_refuted.

Definition texts (s : list N) : option (list (ltag * list N)) :=
  match lex s with
  | AToks ts => Some (map (fun t => (tk_tag t, take (length (tk_begin t) - length (tk_end t)) (tk_begin t))) ts)
  | AStop _ => None
  end.
Example C39_ex : texts (codes "a+=0x1F>>=1...b /* x /* y */ */ ""q\"""" 1.5e-3 // end" ++ [10]) =
  Some [(LWord, codes "a"); (LPunct (codes "+="), codes "+="); (LInt 31, codes "0x1F"); (LPunct (codes ">>="), codes ">>=");
        (LInt 1, codes "1"); (LPunct (codes "..."), codes "..."); (LWord, codes "b"); (LStr, codes """q\""""");
        (LFloat, codes "1.5e-3"); (LEof, [])].
Proof. by vm_compute. Qed.
Example C39_format_ex : texts (codes "f""a${x}b"";" ++ [10]) =
  Some [(LFStart, codes "f"); (LStr, codes """a$"); (LFmt, []); (LWord, codes "x"); (LStr, codes "}b"""); (LFEnd, []);
        (LPunct (codes ";"), codes ";"); (LEof, [])].
Proof. by vm_compute. Qed.
Example C39_multiline_ex : texts (codes """""""a""b""""""+" ++ [10]) =
  Some [(LStr, codes """a""b"""); (LPunct (codes "+"), codes "+"); (LEof, [])].
Proof. by vm_compute. Qed.
Example C39_safe_ex : safe (codes "'a'" ++ [10]).
Proof.
  split; [done|]. intros l E.
  change (codes "'a'" ++ [10]) with [39; 97; 39; 10] in E.
  assert (H : last (removelast [39; 97; 39; 10]) = last (removelast (l ++ [92; 10]))) by (by rewrite E).
  rewrite removelast_app in H by done. cbn [removelast] in H. by rewrite last_snoc in H.
Qed.

(** ** C40 *)
(** A comment ends exactly where its terminator is, comments inside being taken as a whole. *)
Theorem C40_matching s r : skip_comment 0 s = Some r <-> Com s r.
Proof. apply skip_comment_iff. Qed.
Print Assumptions C40_matching.
Theorem C40_unique s r r' : Com s r -> Com s r' -> r = r'.
Proof. rewrite <- !C40_matching. congruence. Qed.
Print Assumptions C40_unique.
(** The lexer goes on behind the terminator; without one the rest of the file is one error. *)
Theorem C40_lexer n fl s : enter fl = false ->
  (forall r, Com s r -> scan (S n) fl (codes "/*" ++ s) = scan n fl r) /\
  ((forall r, ~ Com s r) -> scan (S n) fl (codes "/*" ++ s) = LGot (LTok LErr (codes "/*" ++ s) []) [] fl).
Proof.
  intros He. change (codes "/*" ++ s) with (47 :: 42 :: s). rewrite scan_S, He. cbn zeta.
  rewrite skip_spaces_id by done. change (punct (47 :: 42 :: s)) with (@None (list N * list N)).
  change (47 =? 125) with false. change (47 =? 47) with true. change (42 =? 47) with false. change (42 =? 42) with true. cbv iota.
  split.
  - intros r H%C40_matching. by rewrite H.
  - intros H%skip_comment_none. by rewrite H.
Qed.
Print Assumptions C40_lexer.
(** Text without a slash or a star in it does not matter, however deep. *)
Theorem C40_plain w s r : Forall (fun c => c <> 47 /\ c <> 42) w -> Com (w ++ s) r <-> Com s r.
Proof.
  intros F. induction F as [|c w [H1 H2] F IH]; [done|]. cbn. rewrite <- IH. split.
  - inversion 1; subst; done.
  - apply Com_char; congruence.
Qed.
Print Assumptions C40_plain.
Example C40_ex : skip_comment 0 (codes " a /* b */ c /* /* d */ */ e */ f") = Some (codes " f") /\
  skip_comment 0 (codes " a /* b */ c") = None /\ skip_comment 0 (codes "/* **/ */x") = Some (codes "x").
Proof. by vm_compute. Qed.

(** ** C75 *)
(** An integer token is a run of digits, or a prefix with a run of digits of its base that
    blanks or punctuation end; its value is what the digits say, cut off at 2^64 - 1,
    provided there are digits. *)
Lemma Covers_lexeme s ts t : Covers s ts -> t ∈ ts -> tk_tag t <> LEof ->
  exists pre text post s', tk_begin t = text ++ post ++ s' /\ tk_end t = post ++ s' /\ Lexeme (tk_tag t) pre text post s'.
Proof.
  induction 1 as [s G|s tag pre text post s' ts G L C IH]; intros Ht N0.
  - apply elem_of_list_singleton in Ht as ->. done.
  - apply elem_of_cons in Ht as [->|Ht]; [|by apply IH]. by exists pre, text, post, s'.
Qed.
Theorem C75_value s ts t v : lex s = AToks ts -> t ∈ ts -> tk_tag t = LInt v ->
  exists text, tk_begin t = text ++ tk_end t /\
    (text <> [] /\ Forall digit text /\ v = lit_val 10 text \/
     exists base ds, (base = 2 \/ base = 8 \/ base = 16) /\ text = 48 :: prefix_letter base :: ds /\
       run_of (base_digit base) ds (tk_end t) /\ separator (tk_end t) /\ (ds <> [] -> v = lit_val base ds)).
Proof.
  intros E%C39_covers Ht Hv. destruct (Covers_lexeme _ _ _ E Ht) as (pre & text & post & s' & E1 & E2 & L); [by rewrite Hv|].
  rewrite Hv in L. destruct L as (_ & -> & L). exists text. rewrite E1, E2. split; [done|].
  destruct L as [(H1 & [H2 _] & H3)|(base & ds & H)]; [by left|right]. by exists base, ds.
Qed.
Print Assumptions C75_value.
(** Below 2^64 nothing is cut off. *)
Theorem C75_exact base ds : num_val base (rev ds) < 2 ^ 64 -> lit_val base ds = num_val base (rev ds).
Proof. unfold lit_val. lia. Qed.
Print Assumptions C75_exact.
(** Without digits behind the prefix the number is taken from what follows, sign and blanks
    included; a number that is too large is cut off without a word. *)
Theorem C75_value_refuted :
  texts (codes "0b -1;") = Some [(LInt (2 ^ 64 - 1), codes "0b"); (LPunct (codes "-"), codes "-"); (LInt 1, codes "1");
                                 (LPunct (codes ";"), codes ";"); (LEof, [])] /\
  texts (codes "0x ff;") = Some [(LInt 255, codes "0x"); (LWord, codes "ff"); (LPunct (codes ";"), codes ";"); (LEof, [])] /\
  texts (codes "0o;") = Some [(LInt 0, codes "0o"); (LPunct (codes ";"), codes ";"); (LEof, [])] /\
  texts (codes "18446744073709551616;") = Some [(LInt (2 ^ 64 - 1), codes "18446744073709551616"); (LPunct (codes ";"), codes ";"); (LEof, [])].
Proof. by vm_compute. Qed.
Print Assumptions C75_value_refuted.
Example C75_ex : texts (codes "0b101 0o17 0xBeef 65536 ") =
  Some [(LInt 5, codes "0b101"); (LInt 15, codes "0o17"); (LInt 48879, codes "0xBeef"); (LInt 65536, codes "65536"); (LEof, [])].
Proof. by vm_compute. Qed.
