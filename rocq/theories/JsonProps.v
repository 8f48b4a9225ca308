(** C26: JSON output parses back to the same value. *)
From Coq Require Import ZArith.
From Coq Require Import String Ascii.
From stdpp Require Import list numbers.
From Verif Require Import JsonModel JsonSpec JsonProofs.

(** Exactly the values described by [good] survive the round trip. *)
Theorem C26_round_trip_partial t v : wt t v → (fromString t (toJSON t v) = JOk v [] ↔ good t v).
Proof. exact (round_trip t v). Qed.
Print Assumptions C26_round_trip_partial.

(** What any text at all can be parsed to. *)
Theorem C26_parsed t s v r : fromString t s = JOk v r → parsed t v.
Proof. exact (parse_parsed t s v r). Qed.
Print Assumptions C26_parsed.

(** A value that came out of the parser survives, except when it holds an unsigned integer of
    2^63 or more: then the printed number is negative and its conversion is undefined. *)
Theorem C26_again t s v r : fromString t s = JOk v r → wt t v →
  fromString t (toJSON t v) = JOk v [] ∨ fromString t (toJSON t v) = JUndef ∧ ¬ good t v.
Proof.
  intros H Hw. destruct (print_comb t v [] Hw (parse_parsed _ _ _ _ H) I) as [[_ E]|[G E]]; rewrite app_nil_r in E; [by left|by right].
Qed.
Print Assumptions C26_again.

(** White space in front of a value is skipped: space, tab, newline, vertical tab, form feed
    and carriage return. *)
Theorem C26_space t ws s : Forall (λ c, c ∈ [32; 9; 10; 11; 12; 13]%N) ws →
  fromString t (ws ++ s) = fromString t s.
Proof.
  intros F. unfold fromString. rewrite <- (parse_skip t (ws ++ s)), <- (parse_skip t s). f_equal.
  induction F as [|c ws H F IH]; [done|]. cbn [app skipWhitespace].
  assert (isSpace c = true) as ->; [|done]. rewrite !elem_of_cons in H. by destruct H as [->|[->|[->|[->|[->|[->|H]]]]]]; [..|by apply elem_of_nil in H].
Qed.
Print Assumptions C26_space.

Fixpoint bytes (s : string) : text :=
  match s with EmptyString => [] | String c s => Ascii.N_of_ascii c :: bytes s end.

(** A double quote ends the string early; the value read is another one. *)
Theorem C26_quote_refuted :
  let v := VStr (Some (bytes "say ""hi""")) in
  wt TyStr v ∧ fromString TyStr (toJSON TyStr v) = JOk (VStr (Some (bytes "say "))) (bytes "hi""""").
Proof. split; [constructor|vm_compute; reflexivity]. Qed.
Print Assumptions C26_quote_refuted.
(** A backslash at the end hides the closing quote. *)
Theorem C26_backslash_refuted :
  let v := VStr (Some (bytes "C:\")) in wt TyStr v ∧ fromString TyStr (toJSON TyStr v) = JRaise.
Proof. split; [constructor|vm_compute; reflexivity]. Qed.
Print Assumptions C26_backslash_refuted.
(** A string in a struct can set another field. *)
Theorem C26_injection_refuted :
  let t := TyStruct [(bytes "name", TyStr); (bytes "admin", TyBool)] in
  let v := VTuple [VStr (Some (bytes "x"", ""admin"": true} ")); VBool false] in
  wt t v ∧ ∃ r, fromString t (toJSON t v) = JOk (VTuple [VStr (Some (bytes "x")); VBool true]) r.
Proof.
  split; [|eexists; vm_compute; reflexivity]. constructor.
  - vm_compute. repeat constructor; rewrite ?elem_of_cons, ?elem_of_nil; intuition congruence.
  - apply idents_dec. vm_compute. reflexivity.
  - repeat constructor.
Qed.
Print Assumptions C26_injection_refuted.
(** Integers are parsed through double. *)
Theorem C26_precision_refuted :
  let t := TyInt true 64 in let v := VInt 9007199254740993 in
  wt t v ∧ fromString t (toJSON t v) = JOk (VInt 9007199254740992) [].
Proof. split; [|vm_compute; reflexivity]. constructor; [repeat ((try left; reflexivity) || right)|unfold fits; lia]. Qed.
Print Assumptions C26_precision_refuted.
Theorem C26_max_refuted :
  let t := TyInt true 64 in let v := VInt 9223372036854775807 in
  wt t v ∧ fromString t (toJSON t v) = JUndef.
Proof. split; [|vm_compute; reflexivity]. constructor; [repeat ((try left; reflexivity) || right)|unfold fits; lia]. Qed.
Print Assumptions C26_max_refuted.
Theorem C26_unsigned_refuted :
  let t := TyInt false 64 in let v := VInt 9223372036854775808 in
  wt t v ∧ exact53 9223372036854775808 ∧ fromString t (toJSON t v) = JUndef.
Proof.
  split; [|split; [by exists 1%Z, 63%Z|vm_compute; reflexivity]].
  constructor; [repeat ((try left; reflexivity) || right)|unfold fits; lia].
Qed.
Print Assumptions C26_unsigned_refuted.
(** An optional that holds an absent optional becomes absent; a null String the text null. *)
Theorem C26_nested_refuted :
  let t := TyOpt (TyOpt TyBool) in let v := VOpt (Some (VOpt None)) in
  wt t v ∧ fromString t (toJSON t v) = JOk (VOpt None) [].
Proof. split; [repeat constructor|vm_compute; reflexivity]. Qed.
Print Assumptions C26_nested_refuted.
Theorem C26_null_refuted :
  wt TyStr (VStr None) ∧ fromString TyStr (toJSON TyStr (VStr None)) = JOk (VStr (Some null_text)) [].
Proof. split; [repeat constructor|vm_compute; reflexivity]. Qed.
Print Assumptions C26_null_refuted.

Example C26_ex :
  let t := TyStruct [(bytes "id", TyInt false 32); (bytes "tags", TyTuple [TyStr; TyOpt (TyInt true 64)]); (bytes "ok", TyBool)] in
  let v := VTuple [VInt 7; VTuple [VStr (Some (bytes "a\""b, }")); VOpt (Some (VInt (-9007199254740992)))]; VBool false] in
  toJSON t v = bytes "{""id"": 7, ""tags"": [""a\""b, }"", -9007199254740992], ""ok"": false}" ∧
  wt t v ∧ good t v ∧ fromString t (toJSON t v) = JOk v [].
Proof.
  cbv zeta. split; [vm_compute; reflexivity|]. split; [|split; [|vm_compute; reflexivity]].
  - constructor.
    + vm_compute. repeat constructor; rewrite ?elem_of_cons, ?elem_of_nil; intuition congruence.
    + apply idents_dec. vm_compute. reflexivity.
    + repeat constructor; try (unfold fits; lia); repeat ((left; reflexivity) || right).
  - constructor. repeat constructor; try (by exists 7%Z, 0%Z); try (by exists (-1)%Z, 53%Z); try lia.
    + match goal with |- 0%N ∉ ?l => let l' := eval vm_compute in l in change (0%N ∉ l') end.
      rewrite !elem_of_cons, elem_of_nil. intuition congruence.
    + intros i Hi. do 9 (destruct i as [|i]; [vm_compute in Hi; try congruence; by eexists|]). done.
    + vm_compute. congruence.
    + intros H. inversion H.
Qed.
(** The parser also takes texts that are no JSON: commas between fields are optional, the rest
    of the text is not looked at. *)
Example C26_ex_lenient :
  let t := TyStruct [(bytes "a", TyInt true 32); (bytes "b", TyBool)] in
  fromString t (bytes "{ ""b"":true ""a"":  12,} ]x") = JOk (VTuple [VInt 12; VBool true]) (bytes " ]x").
Proof. vm_compute. reflexivity. Qed.
(** Unknown and missing fields, a number that is no number. *)
Example C26_ex_errors :
  let t := TyStruct [(bytes "a", TyInt true 32); (bytes "b", TyBool)] in
  fromString t (bytes "{""c"": 1}") = JRaise ∧ fromString t (bytes "{""a"": -}") = JRaise ∧ fromString t (bytes "{""a"": 1}") = JLeft ∧
  fromString t (bytes "{""a"": 4000000000, ""b"": true}") = JUndef ∧ fromString t (bytes "{""a"": 1.5}") = JLeft.
Proof. vm_compute. done. Qed.
