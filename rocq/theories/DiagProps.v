(** C38: diagnostics show the source line of the position. *)
From Coq Require Import Lia Strings.String.
From stdpp Require Import numbers list.
From Verif Require Import FormatModel FormatSpec FormatProofs DiagModel DiagSpec DiagProofs LexSpec.

(** The line of a position in the file is unique. *)
Theorem C38_line_unique f off b b' text text' :
  is_line f off b text -> is_line f off b' text' -> b = b' /\ text = text'.
Proof. apply is_line_unique. Qed.
Print Assumptions C38_line_unique.
(** Its beginning and end are found, however far away. *)
Theorem C38_line_found f off : off <= length f ->
  exists b text, is_line f off b text /\ findLineBegin f off = Some b /\ findLineEnd f off = Some (b + length text).
Proof.
  intros H. destruct (findLineBegin_spec f off H) as (b & Eb & Hb). exists b, (upto (drop b f)).
  pose proof (begins_line f off b H Hb) as L. split; [done|]. split; [done|].
  rewrite findLineEnd_spec by done. f_equal. destruct L as (pre & post & E & -> & _ & Hn & Hp & Ho).
  remember (upto (drop (length pre) f)) as text eqn:Et. clear Et Hb Eb. rewrite E.
  rewrite drop_app_ge by lia.
  assert (Hsplit : text ++ post = take (off - length pre) text ++ (drop (off - length pre) text ++ post)).
  { rewrite app_assoc. by rewrite take_drop. }
  rewrite drop_app_le by lia. rewrite upto_app.
  - destruct Hp as [->|Hp].
    + cbn. rewrite app_nil_r, drop_length. lia.
    + destruct post as [|c post]; [done|]. injection Hp as ->. cbn. rewrite app_nil_r, drop_length. lia.
  - intros K. apply Hn. rewrite <- (take_drop (off - length pre) text). apply elem_of_app. by right.
Qed.
Print Assumptions C38_line_found.
(** A diagnostic within one line quotes exactly the line of its position, behind its
    number, and marks exactly the columns from the position to its end. *)
Theorem C38_single f loc num : 0%N ∉ f -> b_row loc = e_row loc -> (b_row loc < 2 ^ 32)%N -> is_decimal (b_row loc) num ->
  b_off loc <= e_off loc -> b_off loc <= length f ->
  exists b text, is_line f (b_off loc) b text /\
    printDiagnostic f loc = Some (gutter (length num) ++ [10%N] ++ numbered (length num) num text ++
                                  marked (length num) (b_off loc - b) (e_off loc - b_off loc)).
Proof.
  intros H0 Er Hr Hd Ho Hl. destruct (findLineBegin_spec f (b_off loc) Hl) as (b & Eb & Hb).
  exists b, (upto (drop b f)). split; [by apply begins_line|]. unfold printDiagnostic. rewrite Eb. cbn [mbind option_bind].
  assert (E64 : (2 ^ 32 < 2 ^ 64)%N) by done.
  assert (En : print_unsigned 64 (b_row loc) = num) by (apply print_unsigned_ok; [lia|done|done]).
  assert (Ec : countDigits (b_row loc) = length num).
  { unfold countDigits. rewrite count_digits_spec, <- En. unfold print_unsigned. by rewrite N.mod_small by lia. }
  rewrite <- Er, Ec. rewrite (minus_ok (length num) (length num)) by lia. cbn [mbind option_bind].
  destruct Hb as (Hb & _). rewrite (minus_ok (b_off loc) b) by lia. cbn [mbind option_bind].
  rewrite bool_decide_eq_true_2 by done. rewrite (minus_ok (e_off loc) (b_off loc)) by lia. cbn [mbind option_bind].
  f_equal. rewrite !printEmptySpace_spec, printFileLine_spec, En by done. unfold gutter, numbered, marked, gutter, bar, printLineMarkers, carets.
  rewrite <- !app_assoc. done.
Qed.
Print Assumptions C38_single.
(** One over several lines quotes the first line, marked from the position to its end, and
    the last one, marked up to the end. *)
Theorem C38_multi f loc num num' : 0%N ∉ f -> (b_row loc < e_row loc)%N -> (e_row loc < 2 ^ 32)%N ->
  is_decimal (b_row loc) num -> is_decimal (e_row loc) num' ->
  b_off loc <= length f -> e_off loc <= length f ->
  exists b text b' text', is_line f (b_off loc) b text /\ is_line f (e_off loc) b' text' /\
    printDiagnostic f loc = Some (gutter (length num') ++ [10%N] ++ numbered (length num') num text ++
      marked (length num') (b_off loc - b) (b + length text - b_off loc) ++
      (if (b_row loc + 1 <? e_row loc)%N then blanks (length num') ++ [46; 46; 46; 10]%N else []) ++
      numbered (length num') num' text' ++ marked (length num') 0 (e_off loc - b')).
Proof.
  intros H0 Er Hr Hd Hd' Hl Hl'. destruct (C38_line_found f (b_off loc) Hl) as (b & text & L & Eb & Ee).
  destruct (C38_line_found f (e_off loc) Hl') as (b' & text' & L' & Eb' & _).
  exists b, text, b', text'. split; [done|]. split; [done|]. unfold printDiagnostic. rewrite Eb. cbn [mbind option_bind].
  assert (E64 : (2 ^ 32 < 2 ^ 64)%N) by done.
  assert (En : print_unsigned 64 (b_row loc) = num) by (apply print_unsigned_ok; [lia|done|done]).
  assert (En' : print_unsigned 64 (e_row loc) = num') by (apply print_unsigned_ok; [lia|done|done]).
  assert (Ec : countDigits (b_row loc) = length num).
  { unfold countDigits. rewrite count_digits_spec, <- En. unfold print_unsigned. by rewrite N.mod_small by lia. }
  assert (Ec' : countDigits (e_row loc) = length num').
  { unfold countDigits. rewrite count_digits_spec, <- En'. unfold print_unsigned. by rewrite N.mod_small by lia. }
  assert (Hle : length num <= length num') by (rewrite <- Ec, <- Ec'; apply count_digits_mono; lia).
  rewrite Ec, Ec'. pose proof L as (pre & post & _ & Epre & _ & _ & _ & Hb & Hb2).
  pose proof L' as (pre' & post' & _ & Epre' & _ & _ & _ & Hb' & _).
  rewrite (minus_ok (length num') (length num)) by lia. cbn [mbind option_bind].
  rewrite (minus_ok (b_off loc) b) by lia. cbn [mbind option_bind].
  rewrite bool_decide_eq_false_2 by lia. rewrite Ee. cbn [mbind option_bind].
  rewrite (minus_ok (b + length text) (b_off loc)) by lia. cbn [mbind option_bind].
  rewrite Eb'. cbn [mbind option_bind]. unfold minus. destruct (Nat.ltb_spec (e_off loc) b'); [lia|]. cbn [mbind option_bind].
  f_equal. rewrite !printEmptySpace_spec, !printFileLine_spec, En, En' by done.
  rewrite (is_line_upto _ _ _ _ L), (is_line_upto _ _ _ _ L').
  unfold gutter, numbered, marked, gutter, bar, printLineMarkers, carets.
  rewrite Nat.sub_diag, <- !app_assoc. done.
Qed.
Print Assumptions C38_multi.
(** Not so for a line with a zero byte: what follows the byte is left out and, if the line
    break is among it, the next line is quoted too. *)
Theorem C38_zero_refuted :
  let f := codes "a" ++ [0%N] ++ codes "b" ++ [10%N] ++ codes "next" ++ [10%N] in
  is_line f 0 0 (codes "a" ++ [0%N] ++ codes "b") /\ printFileLine f 0 = codes "anext" ++ [10%N].
Proof.
  cbv zeta. split; [|by vm_compute]. exists [], ([10%N] ++ codes "next" ++ [10%N]). split_and!; [done|done|by left| |by right|lia|cbn; lia].
  apply (bool_decide_unpack _). by vm_compute.
Qed.
Print Assumptions C38_zero_refuted.
Example C38_ex :
  printDiagnostic (codes "let a = 1" ++ [10%N] ++ codes "  foo(x)" ++ [10%N] ++ codes "}" ++ [10%N]) (FLoc 12 12 12 15) =
  Some (codes "   |" ++ [10%N] ++ codes "12 |  foo(x)" ++ [10%N] ++ codes "   |  ^^^" ++ [10%N]).
Proof. by vm_compute. Qed.
Example C38_long_ex : let w := replicate 150 97%N in
  findLineBegin (w ++ [10%N] ++ w ++ w ++ [10%N]) 300 = Some 151 /\
  findLineEnd (w ++ [10%N] ++ w ++ w ++ [10%N]) 160 = Some 451 /\
  printFileLine (w ++ [10%N] ++ w ++ w ++ [10%N]) 151 = w ++ w ++ [10%N].
Proof. by vm_compute. Qed.
Example C38_multi_ex :
  printDiagnostic (codes "if (a" ++ [10%N] ++ codes "x" ++ [10%N] ++ codes "  b) c" ++ [10%N]) (FLoc 9 3 11 12) =
  Some (codes "   |" ++ [10%N] ++ codes " 9 |if (a" ++ [10%N] ++ codes "   |   ^^" ++ [10%N] ++
        codes "  ..." ++ [10%N] ++ codes "11 |  b) c" ++ [10%N] ++ codes "   |^^^^" ++ [10%N]).
Proof. by vm_compute. Qed.
