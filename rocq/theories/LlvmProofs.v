From Coq Require Import ZArith Lia ZifyBool.
From stdpp Require Import numbers list.
From Verif Require Import PrimModel PrimSpec PrimProofs LlvmModel LlvmSpec.
Local Open Scope Z_scope.
Ltac Zify.zify_post_hook ::= Z.div_mod_to_equations.
Ltac pows := repeat match goal with
  | |- context [2 ^ ?k] => let r := eval vm_compute in (2 ^ k) in progress change (2 ^ k) with r
  | H : context [2 ^ ?k] |- _ => let r := eval vm_compute in (2 ^ k) in progress change (2 ^ k) with r in H end.

Lemma width_size p : integral p = true -> width p = 8 * size p.
Proof. by destruct p. Qed.
Lemma width_pos p : 0 < width p.
Proof. by destruct p. Qed.
Lemma integral_nf p : integral p = true -> is_float p = false.
Proof. by destruct p. Qed.
Lemma half p : 2 ^ width p = 2 * 2 ^ (width p - 1).
Proof. by destruct p. Qed.
Lemma holds_signed p v : is_signed_int p = true -> holds p v <-> - 2 ^ (width p - 1) <= v < 2 ^ (width p - 1).
Proof. by destruct p. Qed.
Lemma holds_unsigned p v : integral p = true -> is_signed_int p = false -> holds p v <-> 0 <= v < 2 ^ width p.
Proof. by destruct p. Qed.
Lemma as_signed_mod n v : 0 < n -> - 2 ^ (n - 1) <= v < 2 ^ (n - 1) -> as_signed n (v mod 2 ^ n) = v.
Proof.
  intros Hn. assert (E : 2 ^ n = 2 * 2 ^ (n - 1)). { replace n with (1 + (n - 1)) at 1 by lia. rewrite Z.pow_add_r by lia. done. }
  unfold as_signed. rewrite E. set (m := 2 ^ (n - 1)) in *. assert (0 < m) by (apply Z.pow_pos_nonneg; lia). intros Hv.
  destruct (Z_lt_dec v 0).
  - replace (v mod (2 * m)) with (v + 2 * m). { destruct (_ <? _) eqn:L; lia. }
    apply Z.mod_unique with (-1); lia.
  - rewrite Z.mod_small by lia. destruct (_ <? _) eqn:L; lia.
Qed.
Lemma dec_enc p v : integral p = true -> holds p v -> dec p (enc p v) = v.
Proof.
  intros I H. unfold dec, enc, trunc_to. destruct (is_signed_int p) eqn:S.
  - apply as_signed_mod; [apply width_pos|]. by apply holds_signed.
  - apply Z.mod_small. by apply holds_unsigned.
Qed.
Lemma dec_wraps r z : integral r = true -> wraps_to r z (dec r (z mod 2 ^ width r)).
Proof.
  intros I. unfold wraps_to. rewrite <- (width_size r I). assert (M := width_pos r). assert (P : 0 < 2 ^ width r) by (apply Z.pow_pos_nonneg; lia).
  assert (B := Z.mod_pos_bound z (2 ^ width r) P). assert (D := Z.div_mod z (2 ^ width r)). assert (Hh := half r).
  unfold dec. destruct (is_signed_int r) eqn:S.
  - rewrite holds_signed by done. unfold as_signed. set (m := 2 ^ width r) in *. set (h := 2 ^ (width r - 1)) in *. set (w := z mod m) in *.
    destruct (w <? h) eqn:L.
    + split; [lia|]. apply Z.mod_divide; [lia|]. exists (- (z / m)). lia.
    + split; [lia|]. apply Z.mod_divide; [lia|]. exists (- (z / m) - 1). lia.
  - rewrite holds_unsigned by done. set (m := 2 ^ width r) in *. set (w := z mod m) in *. split; [lia|].
    apply Z.mod_divide; [lia|]. exists (- (z / m)). lia.
Qed.
Lemma wraps_unique p v u u' : integral p = true -> wraps_to p v u -> wraps_to p v u' -> u = u'.
Proof.
  intros I [H1 M1] [H2 M2]. assert (P : 0 < 2 ^ (8 * size p)) by (destruct p; by vm_compute).
  apply Z.mod_divide in M1; [|lia]. apply Z.mod_divide in M2; [|lia]. destruct M1 as [j Hj], M2 as [k Hk].
  rewrite (holds_int p) in H1, H2 by (by apply integral_nf).
  assert (hi p - lo p < 2 ^ (8 * size p)) by (destruct p; by vm_compute). set (m := 2 ^ (8 * size p)) in *. assert (j = k); [|subst; lia]. nia.
Qed.
Lemma wraps_self p v : integral p = true -> holds p v -> wraps_to p v v.
Proof. intros I H. split; [done|]. by rewrite Z.sub_diag. Qed.

Lemma cast_enc to from v : integral to = true -> integral from = true -> holds from v ->
  run_cast to from (Reg (enc from v)) = Reg (enc to v).
Proof.
  intros It If H. unfold run_cast, cast_instr. destruct (decide (to = from)) as [-> |Ne]; [done|].
  rewrite (integral_nf to) by done. replace (is_integer to || is_char to) with true by (by destruct to).
  destruct (is_unsigned from || is_char from) eqn:U.
  - assert (S : is_signed_int from = false) by (by destruct from). apply holds_unsigned in H; [|done|done].
    unfold enc. f_equal. unfold trunc_to. f_equal. by apply Z.mod_small.
  - assert (S : is_signed_int from = true) by (by destruct from). rewrite S. apply holds_signed in H; [|done].
    unfold enc. f_equal. unfold trunc_to. f_equal. apply as_signed_mod; [apply width_pos|done].
Qed.
Lemma operand_integral p q : is_integer p = true -> is_integer q = true -> is_integer (operand_type p q) = true.
Proof. unfold operand_type. intros. destruct (decide _); [done|]. by destruct (bigger p q). Qed.
Lemma int_integral p : is_integer p = true -> integral p = true.
Proof. by destruct p. Qed.
Lemma operand_width p q r : is_integer p = true -> is_integer q = true -> promote p q = Some r -> width (operand_type p q) = width r /\ is_integer r = true.
Proof. destruct p; try done; destruct q; try done; intros _ _ E; vm_compute in E; injection E as E; subst r; done. Qed.
Lemma operand_keeps p q r : is_integer p = true -> is_integer q = true -> promote p q = Some r -> keeps r p -> keeps r q -> operand_type p q = r.
Proof.
  intros Ip Iq E. rewrite !keeps_iff. destruct p; try (vm_compute in Ip; discriminate Ip); destruct q; try (vm_compute in Iq; discriminate Iq);
    vm_compute in E; injection E as E; subst r; vm_compute; done.
Qed.
Lemma run_binary_int o p q r a b : is_integer p = true -> is_integer q = true -> promote p q = Some r -> holds p a -> holds q b ->
  let t := operand_type p q in let d := deciding_type o p q (if is_comparison o then Bool else r) in
  run_binary o p q (Reg (enc p a)) (Reg (enc q b)) =
  run_int (width t) (match instr_flavour o d with SignedOp => true | _ => false end) o (enc t a) (enc t b).
Proof.
  intros Ip Iq E Ha Hb t d. unfold run_binary, node_type. rewrite E. fold t. fold d.
  assert (It := operand_integral p q Ip Iq). fold t in It. destruct (operand_width p q r Ip Iq E) as [_ Ir].
  rewrite (cast_enc t p), (cast_enc t q) by (try done; by apply int_integral).
  destruct (instr_flavour o d) eqn:F; try done. exfalso.
  assert (is_float d = false). { unfold d, deciding_type. destruct (decide _); [|by destruct (operand_type p q)]. destruct (is_comparison o); [done|]. by destruct r. }
  unfold instr_flavour in F. rewrite H in F. destruct o; try done; by destruct (is_signed d).
Qed.
Lemma mod_add a b m : m <> 0 -> (a mod m + b mod m) mod m = (a + b) mod m.
Proof. intros. by rewrite <- Zplus_mod. Qed.
Lemma land_mod a b n : 0 <= n -> Z.land (a mod 2 ^ n) (b mod 2 ^ n) = Z.land a b mod 2 ^ n.
Proof.
  intros Hn. rewrite <- !Z.land_ones by done. rewrite <- !Z.land_assoc. f_equal. rewrite Z.land_comm. rewrite <- Z.land_assoc. by rewrite Z.land_diag.
Qed.
Lemma bits_mod a n k : 0 <= n -> 0 <= k -> Z.testbit (a mod 2 ^ n) k = Z.testbit a k && (k <? n).
Proof.
  intros Hn Hk. destruct (k <? n) eqn:E; [rewrite Z.mod_pow2_bits_low by lia|rewrite Z.mod_pow2_bits_high by lia]; by rewrite ?andb_true_r, ?andb_false_r.
Qed.
Lemma lor_mod a b n : 0 <= n -> Z.lor (a mod 2 ^ n) (b mod 2 ^ n) = Z.lor a b mod 2 ^ n.
Proof.
  intros Hn. apply Z.bits_inj'. intros k Hk. rewrite Z.lor_spec, !bits_mod, Z.lor_spec by done. by destruct (Z.testbit a k), (Z.testbit b k), (k <? n).
Qed.
Lemma lxor_mod a b n : 0 <= n -> Z.lxor (a mod 2 ^ n) (b mod 2 ^ n) = Z.lxor a b mod 2 ^ n.
Proof.
  intros Hn. apply Z.bits_inj'. intros k Hk. rewrite Z.lxor_spec, !bits_mod, Z.lxor_spec by done. by destruct (Z.testbit a k), (Z.testbit b k), (k <? n).
Qed.

Definition modular (o : op) : bool := match o with Add | Sub | Mul | BAnd | BOr | BXor => true | _ => false end.
Lemma modular_ok o p q r a b : modular o = true -> is_integer p = true -> is_integer q = true -> promote p q = Some r -> holds p a -> holds q b ->
  exists x, run_binary o p q (Reg (enc p a)) (Reg (enc q b)) = Reg x /\ wraps_to r (meaning o a b) (dec r x).
Proof.
  intros M Ip Iq E Ha Hb. rewrite (run_binary_int o p q r a b) by done. destruct (operand_width p q r Ip Iq E) as [W Ir]. rewrite W.
  exists (meaning o a b mod 2 ^ width r). split; [|apply dec_wraps; by apply int_integral].
  unfold enc, trunc_to. rewrite W. assert (Hw := width_pos r). assert (P : 2 ^ width r <> 0) by (apply Z.pow_nonzero; lia).
  destruct o; try done; cbn [run_int meaning]; unfold trunc_to; f_equal.
  - by rewrite <- Zplus_mod.
  - by rewrite <- Zminus_mod.
  - by rewrite <- Zmult_mod.
  - apply land_mod. lia.
  - apply lor_mod. lia.
  - apply lxor_mod. lia.
Qed.

(** Types that hold both operands *)
Definition read (n : Z) (signed : bool) : Z -> Z := if signed then as_signed n else fun z => z.
Lemma read_enc t v : is_integer t = true -> holds t v -> read (width t) (is_signed_int t) (enc t v) = v.
Proof. intros I H. apply (dec_enc t v) in H; [|by apply int_integral]. unfold dec in H. unfold read. by destruct (is_signed_int t). Qed.
Lemma flavour_read o t : is_integer t = true -> match o with Div | Mod | Lt | Gt | Le | Ge => True | _ => False end ->
  match instr_flavour o t with SignedOp => true | _ => false end = is_signed_int t.
Proof. intros I H. destruct o; try done; by destruct t. Qed.
Lemma enc_inj t a b : is_integer t = true -> holds t a -> holds t b -> enc t a = enc t b -> a = b.
Proof. intros I Ha Hb E. apply int_integral in I. by rewrite <- (dec_enc t a), <- (dec_enc t b), E. Qed.
Lemma deciding_div o p q r : is_comparison o = false -> is_integer p = true -> is_integer q = true -> promote p q = Some r -> keeps r p -> keeps r q ->
  deciding_type o p q (if is_comparison o then Bool else r) = r.
Proof. intros C Ip Iq E K1 K2. unfold deciding_type. rewrite C. destruct (decide _); [done|]. by apply operand_keeps. Qed.

Lemma div_ok o p q r a b : (o = Div \/ o = Mod) -> is_integer p = true -> is_integer q = true -> promote p q = Some r -> keeps r p -> keeps r q ->
  holds p a -> holds q b -> b <> 0 -> ~ (is_signed_int r = true /\ a = - 2 ^ (width r - 1) /\ b = -1) ->
  exists x, run_binary o p q (Reg (enc p a)) (Reg (enc q b)) = Reg x /\ dec r x = meaning o a b.
Proof.
  intros O Ip Iq E K1 K2 Ha Hb Nb No. assert (C : is_comparison o = false) by (by destruct O as [-> | ->]).
  destruct (operand_width p q r Ip Iq E) as [_ Ir].
  rewrite (run_binary_int o p q r a b) by done. rewrite (deciding_div o p q r), (operand_keeps p q r), flavour_read by (try done; by destruct O as [-> | ->]).
  apply K1 in Ha. apply K2 in Hb.
  assert (Ra := read_enc r a Ir Ha). assert (Rb := read_enc r b Ir Hb). unfold read in Ra, Rb.
  assert (Z0 : (enc r b =? 0) = false). { apply Z.eqb_neq. intros X. apply Nb. apply (enc_inj r b 0); [done|done| |]. { apply holds_int; [by apply integral_nf, int_integral|]. destruct r; cbn; try done; lia. } by rewrite X. }
  assert (Hq : forall z, holds r z -> dec r (trunc_to (width r) z) = z) by (intros z Hz; apply (dec_enc r z); [by apply int_integral|done]).
  destruct O as [-> | ->]; cbn [run_int meaning]; rewrite Z0, Ra, Rb; cbn [orb].
  - replace (is_signed_int r && (a =? - 2 ^ (width r - 1)) && (b =? -1)) with false.
    + eexists. split; [done|]. apply Hq. assert (A := Z.quot_abs a b Nb).
      destruct (is_signed_int r) eqn:S.
      * rewrite holds_signed in * by done. assert (0 < 2 ^ (width r - 1)) by (destruct r; by vm_compute). set (h := 2 ^ (width r - 1)) in *.
        assert (Q : Z.quot a b = 0 \/ Z.quot a b <> 0) by lia.
        destruct (Z.eq_dec b 1) as [-> |]. { rewrite Z.quot_1_r. lia. }
        destruct (Z.eq_dec b (-1)) as [-> |]. { replace (-1) with (- (1)) by lia. rewrite Z.quot_opp_r, Z.quot_1_r by lia. assert (a <> - h) by (intros ->; by apply No). lia. }
        assert (Z.abs (Z.quot a b) <= Z.abs a / 2). { rewrite <- A. rewrite Z.quot_div_nonneg by lia. apply Z.div_le_compat_l; lia. }
        lia.
      * rewrite holds_unsigned in * by (try done; by apply int_integral). split; [apply Z.quot_pos; lia|].
        rewrite Z.quot_div_nonneg by lia. assert (a / b <= a) by (apply Z.div_le_upper_bound; nia). lia.
    + symmetry. destruct (is_signed_int r) eqn:S; [|done]. cbn. destruct (a =? _) eqn:E1; [|done]. destruct (b =? -1) eqn:E2; [|done]. exfalso. apply No. lia.
  - replace (is_signed_int r && (a =? - 2 ^ (width r - 1)) && (b =? -1)) with false.
    + eexists. split; [done|]. apply Hq. assert (B := Z.rem_bound_abs a b Nb). assert (Sg := Z.rem_sign_nz a b Nb).
      destruct (is_signed_int r) eqn:S.
      * rewrite holds_signed in * by done. assert (0 < 2 ^ (width r - 1)) by (destruct r; by vm_compute). set (h := 2 ^ (width r - 1)) in *. lia.
      * rewrite holds_unsigned in * by (try done; by apply int_integral). assert (0 <= Z.rem a b) by (apply Z.rem_nonneg; lia). lia.
    + symmetry. destruct (is_signed_int r) eqn:S; [|done]. cbn. destruct (a =? _) eqn:E1; [|done]. destruct (b =? -1) eqn:E2; [|done]. exfalso. apply No. lia.
Qed.
Lemma compare_ok o p q r a b : is_comparison o = true -> p <> q -> is_integer p = true -> is_integer q = true -> promote p q = Some r -> keeps r p -> keeps r q ->
  holds p a -> holds q b -> run_binary o p q (Reg (enc p a)) (Reg (enc q b)) = Reg (meaning o a b).
Proof.
  intros C Ne Ip Iq E K1 K2 Ha Hb. destruct (operand_width p q r Ip Iq E) as [_ Ir].
  rewrite (run_binary_int o p q r a b) by done. unfold deciding_type. destruct (decide _); [done|]. rewrite (operand_keeps p q r) by done.
  apply K1 in Ha. apply K2 in Hb. assert (Ra := read_enc r a Ir Ha). assert (Rb := read_enc r b Ir Hb). unfold read in Ra, Rb.
  assert (Q : (enc r a =? enc r b) = bool_decide (a = b)).
  { destruct (bool_decide_reflect (a = b)) as [-> |N]; [apply Z.eqb_refl|]. apply Z.eqb_neq. intros X. apply N. by apply (enc_inj r). }
  destruct o; try done; cbn [run_int meaning]; rewrite ?flavour_read, ?Ra, ?Rb by done; f_equal; rewrite ?Q; unfold b2z; repeat case_decide; repeat case_match; try done; try lia;
    try (by apply bool_decide_eq_true in H0); try (by apply bool_decide_eq_false in H0).
Qed.
Lemma compare_same o p a b : is_comparison o = true -> integral p = true -> holds p a -> holds p b ->
  run_binary o p p (Reg (enc p a)) (Reg (enc p b)) =
  Reg (match o with Eq | Ne => meaning o a b | _ => meaning o (a mod 2 ^ width p) (b mod 2 ^ width p) end).
Proof.
  intros C Ip Ha Hb. unfold run_binary, node_type, promote. destruct (decide (p = p)); [|done]. rewrite C. unfold deciding_type, operand_type.
  destruct (decide (p = p)); [|done]. unfold run_cast, cast_instr. destruct (decide (p = p)); [|done].
  replace (instr_flavour o Bool) with UnsignedOp by (by destruct o).
  assert (Q : (enc p a =? enc p b) = bool_decide (a = b)).
  { destruct (bool_decide_reflect (a = b)) as [-> |N]; [apply Z.eqb_refl|]. apply Z.eqb_neq. intros X. apply N. by rewrite <- (dec_enc p a), <- (dec_enc p b), X. }
  change (a mod 2 ^ width p) with (enc p a). change (b mod 2 ^ width p) with (enc p b).
  destruct o; try done; cbn [run_int meaning]; f_equal; rewrite ?Q; unfold b2z; repeat case_decide; repeat case_match; try done; try lia;
    try (by apply bool_decide_eq_true in H0); try (by apply bool_decide_eq_false in H0).
Qed.
Lemma shr_int p q r a b : is_integer p = true -> is_integer q = true -> promote p q = Some r -> keeps r p -> keeps r q ->
  holds p a -> holds q b -> 0 <= b < width r ->
  run_binary Shr p q (Reg (enc p a)) (Reg (enc q b)) = Reg (a mod 2 ^ width r / 2 ^ b).
Proof.
  intros Ip Iq E K1 K2 Ha Hb B. destruct (operand_width p q r Ip Iq E) as [_ Ir].
  rewrite (run_binary_int Shr p q r a b) by done. rewrite (operand_keeps p q r) by done. cbn [run_int].
  apply K2 in Hb. assert (Eb : enc r b = b). { unfold enc, trunc_to. apply Z.mod_small. split; [lia|]. assert (width r < 2 ^ width r) by (apply Z.pow_gt_lin_r; [lia|]; assert (X := width_pos r); lia). lia. }
  rewrite Eb. destruct (b <? width r) eqn:L; [done|lia].
Qed.
Lemma shl_int p q r a b : is_integer p = true -> is_integer q = true -> promote p q = Some r -> keeps r p -> keeps r q ->
  holds p a -> holds q b -> 0 <= b < width r ->
  exists x, run_binary Shl p q (Reg (enc p a)) (Reg (enc q b)) = Reg x /\ wraps_to r (a * 2 ^ b) (dec r x).
Proof.
  intros Ip Iq E K1 K2 Ha Hb B. destruct (operand_width p q r Ip Iq E) as [_ Ir].
  rewrite (run_binary_int Shl p q r a b) by done. rewrite (operand_keeps p q r) by done. cbn [run_int].
  apply K2 in Hb. assert (Eb : enc r b = b). { unfold enc, trunc_to. apply Z.mod_small. split; [lia|]. assert (width r < 2 ^ width r) by (apply Z.pow_gt_lin_r; [lia|]; assert (X := width_pos r); lia). lia. }
  rewrite Eb. destruct (b <? width r) eqn:L; [|lia]. eexists. split; [done|].
  replace (trunc_to (width r) (enc r a * 2 ^ b)) with ((a * 2 ^ b) mod 2 ^ width r); [apply dec_wraps; by apply int_integral|].
  unfold enc, trunc_to. rewrite (Zmult_mod (a mod _)). rewrite Z.mod_mod by (apply Z.pow_nonzero; [done|]; assert (X := width_pos r); lia). by rewrite <- Zmult_mod.
Qed.
