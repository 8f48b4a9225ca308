From Coq Require Import NArith ZifyBool ZifyNat ZifyN.
From stdpp Require Import numbers list.
From Verif Require Import BswapProofs Utf8Proofs Base64Model Base64Spec.
Ltac Zify.zify_post_hook ::= Z.div_mod_to_equations.
Local Open Scope N_scope.
Local Arguments N.eqb : simpl never.
Local Arguments N.ltb : simpl never.
Local Arguments N.div : simpl never.
Local Arguments N.modulo : simpl never.
Local Arguments N.mul : simpl never.
Local Arguments N.add : simpl never.
Local Arguments N.sub : simpl never.

(** ** One byte *)
Lemma tbl_digit k : k < 64 -> tbl k = std_digit k.
Proof. intros H. apply N.eqb_eq. apply (all_below_spec 64 (fun k => tbl k =? std_digit k)); [by vm_compute|done]. Qed.
Lemma tblU_digit k : k < 64 -> tblU k = url_digit k.
Proof. intros H. apply N.eqb_eq. apply (all_below_spec 64 (fun k => tblU k =? url_digit k)); [by vm_compute|done]. Qed.
Lemma look_digit k : k < 64 -> look (std_digit k) = k.
Proof. intros H. apply N.eqb_eq. apply (all_below_spec 64 (fun k => look (std_digit k) =? k)); [by vm_compute|done]. Qed.
Lemma top6 a : a < 256 -> N.shiftr (N.land a 0xFC) 2 = a / 4.
Proof. intros H. apply N.eqb_eq. apply (all_below_spec 256 (fun a => N.shiftr (N.land a 0xFC) 2 =? a / 4)); [by vm_compute|done]. Qed.
Lemma top4 a : a < 256 -> N.shiftr (N.land a 0xF0) 4 = a / 16.
Proof. intros H. apply N.eqb_eq. apply (all_below_spec 256 (fun a => N.shiftr (N.land a 0xF0) 4 =? a / 16)); [by vm_compute|done]. Qed.
Lemma top2 a : a < 256 -> N.shiftr (N.land a 0xC0) 6 = a / 64.
Proof. intros H. apply N.eqb_eq. apply (all_below_spec 256 (fun a => N.shiftr (N.land a 0xC0) 6 =? a / 64)); [by vm_compute|done]. Qed.
Lemma low2 a : a < 256 -> u8 (N.shiftl (N.land a 0x03) 4) = a mod 4 * 2 ^ 4.
Proof. intros H. apply N.eqb_eq. apply (all_below_spec 256 (fun a => u8 (N.shiftl (N.land a 0x03) 4) =? a mod 4 * 2 ^ 4)); [by vm_compute|done]. Qed.
Lemma low4 a : a < 256 -> u8 (N.shiftl (N.land a 0x0F) 2) = a mod 16 * 2 ^ 2.
Proof. intros H. apply N.eqb_eq. apply (all_below_spec 256 (fun a => u8 (N.shiftl (N.land a 0x0F) 2) =? a mod 16 * 2 ^ 2)); [by vm_compute|done]. Qed.
Lemma low2' a : a < 256 -> N.shiftl (N.land a 0x3) 4 = a mod 4 * 2 ^ 4.
Proof. intros H. apply N.eqb_eq. apply (all_below_spec 256 (fun a => N.shiftl (N.land a 0x3) 4 =? a mod 4 * 2 ^ 4)); [by vm_compute|done]. Qed.
Lemma low4' a : a < 256 -> N.shiftl (N.land a 0xF) 2 = a mod 16 * 2 ^ 2.
Proof. intros H. apply N.eqb_eq. apply (all_below_spec 256 (fun a => N.shiftl (N.land a 0xF) 2 =? a mod 16 * 2 ^ 2)); [by vm_compute|done]. Qed.
Lemma top6' a : a < 256 -> N.land (N.shiftr a 2) 0x3F = a / 4.
Proof. intros H. apply N.eqb_eq. apply (all_below_spec 256 (fun a => N.land (N.shiftr a 2) 0x3F =? a / 4)); [by vm_compute|done]. Qed.
Lemma lor_swap a b k : a < 2 ^ k -> N.lor (b * 2 ^ k) a = a + b * 2 ^ k.
Proof. intros. rewrite N.lor_comm. by apply lor_add. Qed.
Lemma Forall2l {A} (P : A -> Prop) x y l : Forall P (x :: y :: l) -> P x /\ P y /\ Forall P l.
Proof. intros H. apply Forall_cons_1 in H as [? H]. apply Forall_cons_1 in H as [? ?]. done. Qed.
Lemma Forall3l {A} (P : A -> Prop) x y z l : Forall P (x :: y :: z :: l) -> P x /\ P y /\ P z /\ Forall P l.
Proof. intros H. apply Forall_cons_1 in H as [? H]. apply Forall2l in H as (? & ? & ?). done. Qed.

(** Induction three at a time. *)
Lemma three_ind {A} (P : list A -> Prop) :
  P [] -> (forall a, P [a]) -> (forall a b, P [a; b]) -> (forall a b c l, P l -> P (a :: b :: c :: l)) -> forall l, P l.
Proof.
  intros H0 H1 H2 H3. fix F 1. intros [|a [|b [|c l]]]; [done|done|done|]. apply H3, F.
Qed.

Lemma encode_ok p : is_bytes p -> encodeBuffer p = base64 std_digit true p.
Proof.
  unfold is_bytes. induction p as [|a|a b|a b c p IH] using three_ind; intros H; [done|..]; cbn [encodeBuffer base64 app].
  - apply Forall_cons_1 in H as [Ha _]. rewrite top6, low2 by done. rewrite !tbl_digit by (change (2 ^ 4) with 16; lia).
    change (2 ^ 4) with 16.
    replace (a * 65536 / 262144) with (a / 4) by lia.
    by replace (a * 65536 / 4096 mod 64) with (a mod 4 * 16) by lia.
  - apply Forall2l in H as (Ha & Hb & _). rewrite top6, low2, top4, low4 by done.
    rewrite lor_swap by (change (2 ^ 4) with 16; lia).
    rewrite !tbl_digit by (change (2 ^ 4) with 16; change (2 ^ 2) with 4; lia).
    change (2 ^ 4) with 16. change (2 ^ 2) with 4.
    replace ((a * 65536 + b * 256) / 262144) with (a / 4) by lia.
    replace ((a * 65536 + b * 256) / 4096 mod 64) with (b / 16 + a mod 4 * 16) by lia.
    by replace ((a * 65536 + b * 256) / 64 mod 64) with (b mod 16 * 4) by lia.
  - apply Forall3l in H as (Ha & Hb & Hc & H). rewrite top6, low2, top4, low4, top2, land_3F by done.
    rewrite !lor_swap by (change (2 ^ 4) with 16; change (2 ^ 2) with 4; lia).
    rewrite !tbl_digit by (change (2 ^ 4) with 16; change (2 ^ 2) with 4; lia).
    rewrite IH by done. change (2 ^ 4) with 16. change (2 ^ 2) with 4.
    replace ((a * 65536 + b * 256 + c) / 262144) with (a / 4) by lia.
    replace ((a * 65536 + b * 256 + c) / 4096 mod 64) with (b / 16 + a mod 4 * 16) by lia.
    replace ((a * 65536 + b * 256 + c) / 64 mod 64) with (c / 64 + b mod 16 * 4) by lia.
    by replace ((a * 65536 + b * 256 + c) mod 64) with (c mod 64) by lia.
Qed.

(** ** Decoding *)
Lemma byte1_ok j k : j < 64 -> k < 64 -> byte1 (std_digit j) (std_digit k) = (j * 4 + k / 16).
Proof.
  intros Hj Hk. unfold byte1, u8. rewrite !look_digit by done.
  rewrite N.shiftl_mul_pow2, shiftr_div. change (2 ^ 4) with 16.
  rewrite lor_swap by (change (2 ^ 2) with 4; lia). change (2 ^ 2) with 4. lia.
Qed.
Lemma byte2_ok j k : j < 64 -> k < 64 -> byte2 (std_digit j) (std_digit k) = (j mod 16 * 16 + k / 4).
Proof.
  intros Hj Hk. unfold byte2, u8. rewrite !look_digit by done.
  rewrite N.shiftl_mul_pow2, shiftr_div. change (2 ^ 2) with 4.
  rewrite lor_swap by (change (2 ^ 4) with 16; lia). change (2 ^ 4) with 16. lia.
Qed.
Lemma byte3_ok j k : j < 64 -> k < 64 -> byte3 (std_digit j) (std_digit k) = (j mod 4 * 64 + k).
Proof.
  intros Hj Hk. unfold byte3, u8. rewrite !look_digit by done.
  rewrite N.shiftl_mul_pow2. rewrite lor_swap by (change (2 ^ 6) with 64; lia). change (2 ^ 6) with 64. lia.
Qed.
Lemma digit_not_pad k : k < 64 -> std_digit k <> 61.
Proof. intros H E. assert (L := look_digit k H). rewrite E in L. vm_compute in L. lia. Qed.
Lemma look_digit_ok k : k < 64 -> (look (std_digit k) =? 64) = false.
Proof. intros H. rewrite look_digit by done. lia. Qed.
Lemma pad_look : look 61 = 64.
Proof. reflexivity. Qed.

(** The characters in front of the last block are no padding. *)
Definition starts_clean (n : nat) (first : list N) : Prop :=
  (n <= length first)%nat /\ forall i c, (i < n)%nat -> first !! i = Some c -> c <> 61.
Lemma scan_clean n : forall first it k, starts_clean n first ->
  (k <= n)%nat -> (forall i, (i < k)%nat -> exists c, it !! i = Some c /\ look c <> 64) ->
  (k = n \/ exists c, it !! k = Some c /\ look c = 64) -> scan n first it = Some k.
Proof.
  induction n as [|n IH]; intros first it k [Hl Hf] Hk Hv He; cbn [scan].
  - f_equal. lia.
  - destruct first as [|f first]; [cbn in Hl; lia|].
    assert (f <> 61) by (apply (Hf O f); [lia|done]). rewrite (proj2 (N.eqb_neq _ _)) by done.
    assert (C : starts_clean n first).
    { split; [cbn in Hl; lia|]. intros i c Hi Hc. apply (Hf (S i) c); [lia|done]. }
    destruct k as [|k].
    + destruct He as [?|(c & Hc & Hc2)]; [done|]. destruct it as [|x it]; [done|]. cbn in Hc. injection Hc as ->.
      by rewrite (proj2 (N.eqb_eq _ _)).
    + destruct (Hv O ltac:(lia)) as (c & Hc & Hc2). destruct it as [|x it]; [done|]. cbn in Hc. injection Hc as ->.
      rewrite (proj2 (N.eqb_neq _ _)) by done. rewrite (IH first it k); [done|done|lia| |].
      * intros i Hi. destruct (Hv (S i) ltac:(lia)) as (d & Hd & Hd2). by exists d.
      * destruct He as [[= ->]|(d & Hd & Hd2)]; [by left|]. right. by exists d.
Qed.
(** The last block compared with itself. *)
Lemma scan_self n : forall it k, (k <= n)%nat -> (forall i, (i < k)%nat -> exists c, it !! i = Some c /\ look c <> 64) ->
  (k = n \/ exists c, it !! k = Some c /\ look c = 64) -> scan n it it = Some k.
Proof.
  induction n as [|n IH]; intros it k Hk Hv He; cbn [scan]; [f_equal; lia|].
  destruct k as [|k].
  - destruct He as [?|(c & Hc & Hc2)]; [done|]. destruct it as [|x it]; [done|]. cbn in Hc. injection Hc as ->.
    rewrite (proj2 (N.eqb_eq (look c) 64)) by done. by destruct (c =? 61).
  - destruct (Hv O ltac:(lia)) as (c & Hc & Hc2). destruct it as [|x it]; [done|]. cbn in Hc. injection Hc as ->.
    assert (c <> 61) by (intros ->; done).
    rewrite !(proj2 (N.eqb_neq _ _)) by done. rewrite (IH it k); [done|lia| |].
    + intros i Hi. destruct (Hv (S i) ltac:(lia)) as (d & Hd & Hd2). by exists d.
    + destruct He as [[= ->]|(d & Hd & Hd2)]; [by left|]. right. by exists d.
Qed.
Definition first_ok (first it : list N) : Prop := first = it \/ starts_clean 4 first.
Lemma scan_ok first it k : first_ok first it -> (k <= 4)%nat ->
  (forall i, (i < k)%nat -> exists c, it !! i = Some c /\ look c <> 64) ->
  (k = 4%nat \/ exists c, it !! k = Some c /\ look c = 64) -> scan 4 first it = Some k.
Proof. intros [-> |C] ? ? ?; [by apply scan_self|by apply scan_clean]. Qed.

Lemma group3 a b c : a < 256 -> b < 256 -> c < 256 ->
  let n := a * 65536 + b * 256 + c in
  byte1 (std_digit (n / 262144)) (std_digit (n / 4096 mod 64)) = a /\
  byte2 (std_digit (n / 4096 mod 64)) (std_digit (n / 64 mod 64)) = b /\
  byte3 (std_digit (n / 64 mod 64)) (std_digit (n mod 64)) = c.
Proof.
  intros Ha Hb Hc n. subst n.
  rewrite byte1_ok, byte2_ok, byte3_ok by lia. split_and!; lia.
Qed.

Definition outs (sgn : bool) (p : list N) : list N := concat (map (put sgn) p).
Lemma decode_tail4 sgn first it i k1 k2 k3 k4 : first_ok first it ->
  k1 < 64 -> k2 < 64 -> k3 < 64 -> k4 < 64 ->
  (i = 2%nat /\ it = [std_digit k1; std_digit k2; 61; 61]) \/
  (i = 3%nat /\ it = [std_digit k1; std_digit k2; std_digit k3; 61]) \/
  (i = 4%nat /\ it = [std_digit k1; std_digit k2; std_digit k3; std_digit k4]) ->
  decode_tail sgn first it = DOk (outs sgn (take (i - 1)
     [byte1 (std_digit k1) (std_digit k2); byte2 (std_digit k2) (std_digit k3); byte3 (std_digit k3) (std_digit k4)])).
Proof.
  intros F H1 H2 H3 H4 Hc. unfold decode_tail.
  assert (L : forall k, k < 64 -> look (std_digit k) <> 64) by (intros; rewrite look_digit by done; lia).
  assert (S : scan 4 first it = Some i).
  { apply scan_ok; [done|destruct Hc as [[-> _]|[[-> _]|[-> _]]]; lia| |].
    - intros j Hj. destruct Hc as [[-> ->]|[[-> ->]|[-> ->]]];
        destruct j as [|[|[|[|j]]]]; try lia; (eexists; split; [reflexivity|auto]).
    - destruct Hc as [[-> ->]|[[-> ->]|[-> ->]]]; [right|right|by left]; by exists 61. }
  rewrite S. clear S.
  destruct Hc as [[-> ->]|[[-> ->]|[-> ->]]]; cbv -[put byte1 byte2 byte3 digit outs app];
    unfold outs; cbn [map concat]; by rewrite ?app_nil_r.
Qed.
Lemma base64_nonempty p : p <> [] -> exists c t, base64 std_digit true p = c :: t.
Proof. destruct p as [|a [|b [|c p]]]; intros H; [done|..]; cbn; by eexists _, _. Qed.
Lemma decode_loop_step sgn first a b c d it : it <> [] ->
  decode_loop sgn first (a :: b :: c :: d :: it) =
    if (look a =? 64) || (look b =? 64) || (look c =? 64) || (look d =? 64) then DErr
    else match decode_loop sgn first it with
         | DOk out => DOk (put sgn (byte1 a b) ++ put sgn (byte2 b c) ++ put sgn (byte3 c d) ++ out)
         | r => r
         end.
Proof. by destruct it. Qed.
Lemma decode_loop_ok sgn p : is_bytes p -> p <> [] -> forall first,
  first_ok first (base64 std_digit true p) ->
  decode_loop sgn first (base64 std_digit true p) = DOk (outs sgn p).
Proof.
  unfold is_bytes. induction p as [|a|a b|a b c p IH] using three_ind; intros H Hne first F; [done|..];
    cbn [base64 app] in *.
  - apply Forall_cons_1 in H as [Ha _]. cbn [decode_loop].
    rewrite (decode_tail4 sgn first _ 2 (a * 65536 / 262144) (a * 65536 / 4096 mod 64) 0 0); [|done|lia..|by left].
    cbn [take Nat.sub]. rewrite byte1_ok by lia. f_equal. unfold outs. cbn [map concat]. f_equal. f_equal. lia.
  - apply Forall2l in H as (Ha & Hb & _). cbn [decode_loop].
    set (n := a * 65536 + b * 256) in *.
    rewrite (decode_tail4 sgn first _ 3 (n / 262144) (n / 4096 mod 64) (n / 64 mod 64) 0); [|done|lia..|by right; left].
    cbn [take Nat.sub]. rewrite byte1_ok, byte2_ok by lia. f_equal. unfold outs. cbn [map concat].
    replace (n / 262144 * 4 + n / 4096 mod 64 / 16) with a by lia.
    by replace ((n / 4096 mod 64) mod 16 * 16 + n / 64 mod 64 / 4) with b by lia.
  - apply Forall3l in H as (Ha & Hb & Hc & H).
    destruct (group3 a b c Ha Hb Hc) as (G1 & G2 & G3).
    set (n := a * 65536 + b * 256 + c) in *.
    assert (D : n / 262144 < 64 /\ n / 4096 mod 64 < 64 /\ n / 64 mod 64 < 64 /\ n mod 64 < 64) by lia.
    destruct D as (D1 & D2 & D3 & D4).
    destruct p as [|x p].
    + cbn [base64 decode_loop].
      rewrite (decode_tail4 sgn first _ 4 (n / 262144) (n / 4096 mod 64) (n / 64 mod 64) (n mod 64)); [|done..|by right; right].
      cbn [take Nat.sub]. by rewrite G1, G2, G3.
    + destruct (base64_nonempty (x :: p)) as (d & t & Et); [done|].
      rewrite decode_loop_step by by rewrite Et. rewrite !look_digit_ok by done. cbn [orb].
      rewrite IH; [|done|done|].
      * rewrite G1, G2, G3. unfold outs. cbn [map concat]. done.
      * right. destruct F as [-> |F]; [|done]. split; [cbn; lia|].
        intros i e Hi He. destruct i as [|[|[|[|i]]]]; [..|lia]; cbn in He; injection He as <-; by apply digit_not_pad.
Qed.
Lemma decode_ok sgn p : is_bytes p -> p <> [] -> decodeBuffer sgn (encodeBuffer p) = DOk (outs sgn p).
Proof. intros H Hne. rewrite encode_ok by done. apply decode_loop_ok; [done|done|by left]. Qed.
Lemma outs_ascii sgn p : Forall (fun b => b < 128) p -> outs sgn p = p.
Proof.
  unfold outs. induction p as [|b p IH]; intros H; [done|]. apply Forall_cons_1 in H as [Hb H]. cbn.
  rewrite IH by done. unfold put. by rewrite (proj2 (N.ltb_lt _ _)).
Qed.
Lemma outs_length sgn p :
  (sgn = true -> (length (outs sgn p) <= length p)%nat) /\ (sgn = false -> (length p <= length (outs sgn p))%nat) /\
  (length (outs sgn p) = length p -> Forall (fun b => b < 128) p).
Proof.
  unfold outs. induction p as [|b p (IH1 & IH2 & IH3)]; cbn [map concat length]; [done|].
  rewrite app_length. unfold put at 1 3 5. destruct (N.ltb_spec b 128); cbn [length].
  - split_and!; [intros; specialize (IH1 H0); lia|intros; specialize (IH2 H0); lia|].
    intros E. constructor; [done|]. apply IH3. lia.
  - destruct sgn; cbn [length].
    + specialize (IH1 eq_refl). split_and!; [lia|done|lia].
    + specialize (IH2 eq_refl). split_and!; [done|lia|lia].
Qed.
Lemma decode_exact sgn p : is_bytes p ->
  decodeBuffer sgn (encodeBuffer p) = DOk p <-> p <> [] /\ Forall (fun b => b < 128) p.
Proof.
  intros H. split.
  - intros E. destruct p as [|b p]; [done|]. split; [done|].
    rewrite decode_ok in E by done. injection E as E. apply (outs_length sgn). by rewrite E.
  - intros [Hne Ha]. rewrite decode_ok by done. by rewrite outs_ascii.
Qed.

(** ** Rejection *)
Lemma look_valid c : look c <> 64 -> in_alphabet c.
Proof.
  intros H. destruct (N.lt_ge_cases c 256) as [Hc|Hc].
  - assert (A : forall c, c < 256 -> (look c =? 64) || ((look c <? 64) && (c =? std_digit (look c))) = true).
    { apply (all_below_spec 256 (fun c => (look c =? 64) || ((look c <? 64) && (c =? std_digit (look c))))). by vm_compute. }
    specialize (A c Hc). exists (look c). split; lia.
  - exfalso. apply H. unfold look. apply nth_overflow. cbn [length ASCII_LOOKUP]. lia.
Qed.
Lemma look_invalid c : ~ in_alphabet c -> look c = 64.
Proof. intros H. destruct (N.eq_dec (look c) 64) as [|Hn]; [done|]. exfalso. by apply H, look_valid. Qed.
Lemma in_alphabet_look c : in_alphabet c -> look c <> 64 /\ c <> 61.
Proof. intros (k & Hk & ->). split; [rewrite look_digit by done; lia|by apply digit_not_pad]. Qed.

Lemma tail_rejects sgn first pre c post : (length (pre ++ c :: post) <= 4)%nat ->
  first_ok first (pre ++ c :: post) -> Forall in_alphabet pre -> ~ in_alphabet c -> c <> 61 ->
  decode_tail sgn first (pre ++ c :: post) = DErr.
Proof.
  intros Hl F Hp Hc H61. unfold decode_tail. rewrite app_length in *. cbn [length] in *.
  rewrite (scan_ok first _ (length pre)); [|done|lia| |].
  - rewrite (proj2 (N.eqb_neq _ _)) by lia. rewrite list_lookup_middle by done.
    by rewrite (proj2 (N.eqb_neq _ _)).
  - intros i Hi. destruct (lookup_lt_is_Some_2 _ _ Hi) as [d Hd]. exists d.
    split; [by apply lookup_app_l_Some|]. apply in_alphabet_look. by eapply Forall_lookup_1.
  - right. exists c. split; [by apply list_lookup_middle|by apply look_invalid].
Qed.
Lemma loop_rejects sgn n : forall first pre c post, (length pre <= n)%nat ->
  first_ok first (pre ++ c :: post) -> Forall in_alphabet pre -> ~ in_alphabet c -> c <> 61 ->
  decode_loop sgn first (pre ++ c :: post) = DErr.
Proof.
  induction n as [n IH] using lt_wf_ind. intros first pre c post Hn F Hp Hc H61.
  assert (Lc := look_invalid c Hc).
  assert (Short : (length (pre ++ c :: post) <= 4)%nat -> decode_loop sgn first (pre ++ c :: post) = DErr).
  { intros Hl. rewrite <- (tail_rejects sgn first pre c post) by done.
    destruct (pre ++ c :: post) as [|x1 [|x2 [|x3 [|x4 [|x5 l]]]]]; try done. cbn in Hl. lia. }
  destruct (decide (length (pre ++ c :: post) <= 4)%nat) as [|Hl]; [auto|].
  destruct pre as [|p1 [|p2 [|p3 [|p4 pre]]]]; cbn [app length] in *.
  - destruct post as [|x2 [|x3 [|x4 post]]]; cbn in Hl; try lia.
    rewrite decode_loop_step by (destruct post; cbn in Hl; [lia|done]). by rewrite Lc.
  - destruct post as [|x3 [|x4 post]]; cbn in Hl; try lia.
    rewrite decode_loop_step by (destruct post; cbn in Hl; [lia|done]). rewrite Lc. cbn. by rewrite orb_true_r.
  - destruct post as [|x4 post]; cbn in Hl; try lia.
    rewrite decode_loop_step by (destruct post; cbn in Hl; [lia|done]). rewrite Lc. change (64 =? 64) with true. by rewrite !orb_true_r.
  - rewrite decode_loop_step by (destruct post; cbn in Hl; [lia|done]). rewrite Lc. change (64 =? 64) with true. by rewrite !orb_true_r.
  - rewrite decode_loop_step by by destruct pre.
    apply Forall2l in Hp as (A1 & A2 & Hp). apply Forall2l in Hp as (A3 & A4 & Hp).
    apply in_alphabet_look in A1 as [L1 N1], A2 as [L2 N2], A3 as [L3 N3], A4 as [L4 N4].
    rewrite !(proj2 (N.eqb_neq _ _)) by done. cbn [orb].
    rewrite (IH (length pre)); [done|lia|lia| |done|done|done].
    right. destruct F as [-> |F]; [|done]. split; [cbn; lia|].
    intros i e Hi He. destruct i as [|[|[|[|i]]]]; [..|lia]; cbn in He; by injection He as <-.
Qed.
Lemma decode_rejects sgn pre c post : Forall in_alphabet pre -> ~ in_alphabet c -> c <> 61 ->
  decodeBuffer sgn (pre ++ c :: post) = DErr.
Proof. intros. eapply loop_rejects; [done|by left|done..]. Qed.

(** ** The URL variant *)
Lemma two_ind {A} (P : list A -> Prop) :
  P [] -> (forall a, P [a]) -> (forall a b, P [a; b]) -> (forall a b c l, P (c :: l) -> P (a :: b :: c :: l)) -> forall l, P l.
Proof.
  intros H0 H1 H2 H3.
  assert (G : forall n l, (length l <= n)%nat -> P l).
  { induction n as [|n IH]; intros l Hl; [by destruct l; [|cbn in Hl; lia]|].
    destruct l as [|a [|b [|c l]]]; [done|done|done|]. apply H3, IH. cbn in *. lia. }
  intros l. by apply (G (length l)).
Qed.
Lemma url_length p : (2 <= length p)%nat ->
  N.of_nat (length (urlEncode_loop p)) = 2 * N.of_nat (length p) - (if Nat.even (length p) then 1 else 0).
Proof.
  assert (G : (1 <= length p)%nat ->
    N.of_nat (length (urlEncode_loop p)) = 2 * N.of_nat (length p) - (if Nat.even (length p) then 1 else 0)).
  { induction p as [|a|a b|a b c p IH] using two_ind; intros H; [cbn in H; lia|done|done|].
    cbn [urlEncode_loop length] in *. specialize (IH ltac:(lia)).
    change (Nat.even (S (S (S (length p))))) with (Nat.even (S (length p))).
    destruct (Nat.even (S (length p))); lia. }
  intros. apply G. lia.
Qed.
Lemma url_size n : urlEncodeSize n = 2 * n.
Proof.
  unfold urlEncodeSize. destruct (0 <? n - n mod 2) eqn:E1, (n - n mod 2 <? n) eqn:E2, (n - n mod 2 =? n - 1) eqn:E3; lia.
Qed.
Lemma url_size_exact p : (2 <= length p)%nat ->
  urlEncodeSize (N.of_nat (length p)) = N.of_nat (length (urlEncode_loop p)) <-> Nat.even (length p) = false.
Proof.
  intros H. rewrite url_size, url_length by done. destruct (Nat.even (length p)); split; try done; lia.
Qed.
Lemma base64_length dg p :
  (3 * N.of_nat (length (base64 dg false p)) <= 4 * N.of_nat (length p) + 2).
Proof.
  induction p as [|a|a b|a b c p IH] using three_ind; cbn [base64 app length]; lia.
Qed.
Lemma url_exact p : is_bytes p ->
  (exists t, urlEncodeBuffer p = DOk t /\ t = base64 url_digit false p) <-> length p = 2%nat.
Proof.
  intros Hb. split.
  - intros (t & E & Et). destruct p as [|a [|b p]]; [done|done|].
    assert (E2 : urlEncode_loop (a :: b :: p) = base64 url_digit false (a :: b :: p)).
    { rewrite <- Et. change (DOk (urlEncode_loop (a :: b :: p)) = DOk t) in E. congruence. }
    clear E Et t. destruct p as [|c p]; [done|]. exfalso.
    assert (L := url_length (a :: b :: c :: p) ltac:(cbn; lia)). rewrite E2 in L.
    assert (B := base64_length url_digit (a :: b :: c :: p)).
    destruct p as [|d p]; [vm_compute in L; done|].
    cbn [length] in *. destruct (Nat.even _); lia.
  - intros Hl. destruct p as [|a [|b [|c p]]]; try done. eexists. split; [done|].
    apply Forall2l in Hb as (Ha & Hb & _). cbn [urlEncode_loop base64 app].
    rewrite top6', low2', top4, low4' by done.
    rewrite lor_swap by (change (2 ^ 4) with 16; lia).
    rewrite !tblU_digit by (change (2 ^ 4) with 16; change (2 ^ 2) with 4; lia).
    change (2 ^ 4) with 16. change (2 ^ 2) with 4.
    replace ((a * 65536 + b * 256) / 262144) with (a / 4) by lia.
    replace ((a * 65536 + b * 256) / 4096 mod 64) with (b / 16 + a mod 4 * 16) by lia.
    by replace ((a * 65536 + b * 256) / 64 mod 64) with (b mod 16 * 4) by lia.
Qed.
(** Decoding what the URL variant wrote. *)
Lemma url_step sgn a b c d it : it <> [] ->
  urlDecodeBuffer sgn (a :: b :: c :: d :: it) =
    if (look a =? 64) || (look b =? 64) || (look c =? 64) || (look d =? 64) then DErr
    else match urlDecodeBuffer sgn it with
         | DOk out => DOk (put sgn (byte1 a b) ++ put sgn (byte2 b c) ++ put sgn (byte3 c d) ++ out)
         | r => r
         end.
Proof. by destruct it. Qed.
Definition same (r : dres) (p : list N) : bool := match r with DOk q => bool_decide (q = p) | _ => false end.
Lemma same_iff r p : same r p = true <-> r = DOk p.
Proof.
  destruct r as [q| |]; cbn; [|done|done]. rewrite bool_decide_eq_true. split; [by intros ->|]. by injection 1.
Qed.
Lemma look_url k : k < 64 -> look (url_digit k) = if k <? 62 then k else 64.
Proof.
  intros Hk. assert (A : forall k, k < 64 -> (look (url_digit k) =? if k <? 62 then k else 64) = true)
    by (apply (all_below_spec 64 (fun k => look (url_digit k) =? if k <? 62 then k else 64)); by vm_compute).
  apply N.eqb_eq, A, Hk.
Qed.
Lemma put_some sgn b : sgn = false \/ b < 128 -> (1 <= length (put sgn b))%nat.
Proof. unfold put. intros [-> |H]; [by destruct (b <? 128); cbn; lia|]. rewrite (proj2 (N.ltb_lt _ _) H). cbn. lia. Qed.
Lemma bytes_of_look a b c d i j k l : i < 64 -> j < 64 -> k < 64 -> l < 64 ->
  look a = i -> look b = j -> look c = k -> look d = l ->
  byte1 a b = i * 4 + j / 16 /\ byte2 b c = j mod 16 * 16 + k / 4 /\ byte3 c d = k mod 4 * 64 + l.
Proof.
  intros Hi Hj Hk Hl Ea Eb Ec Ed. rewrite <- (byte1_ok i j), <- (byte2_ok j k), <- (byte3_ok k l) by done.
  unfold byte1, byte2, byte3. by rewrite !look_digit, Ea, Eb, Ec, Ed by done.
Qed.
Lemma put_two sgn x y a b : put sgn x ++ put sgn y = [a; b] -> x = a /\ y = b /\ a < 128 /\ b < 128.
Proof.
  unfold put. destruct (x <? 128) eqn:Ex, (y <? 128) eqn:Ey; [|by destruct sgn..].
  cbn [app]. intros E. injection E as -> ->. lia.
Qed.
Lemma url_two_form sgn a b : urlDecodeBuffer sgn (urlEncode_loop [a; b]) =
  let t1 := tblU (N.land (N.shiftr a 2) 0x3F) in
  let t2 := tblU (N.lor (N.shiftl (N.land a 0x3) 4) (N.shiftr (N.land b 0xF0) 4)) in
  let t3 := tblU (N.shiftl (N.land b 0xF) 2) in
  DOk (put sgn (byte1 t1 t2) ++ put sgn (byte2 t2 t3)).
Proof.
  cbv zeta. rewrite <- (app_nil_r (put sgn (byte2 _ _))). reflexivity.
Qed.
Lemma url_two sgn a b : a < 256 -> b < 256 ->
  urlDecodeBuffer sgn (urlEncode_loop [a; b]) = DOk [a; b] <-> a < 128 /\ b < 128.
Proof.
  intros Ha Hb. rewrite url_two_form. cbv zeta. split.
  - intros E. injection E as E. apply put_two in E. tauto.
  - intros [Ha' Hb'].
    rewrite top6', low2', top4, low4' by done. rewrite lor_swap by (change (2 ^ 4) with 16; lia).
    change (2 ^ 4) with 16. change (2 ^ 2) with 4. rewrite !tblU_digit by lia.
    assert (L1 := look_url (a / 4) ltac:(lia)). assert (L2 := look_url (b / 16 + a mod 4 * 16) ltac:(lia)).
    assert (L3 := look_url (b mod 16 * 4) ltac:(lia)).
    rewrite (proj2 (N.ltb_lt (a / 4) _)) in L1 by lia. rewrite (proj2 (N.ltb_lt (b / 16 + a mod 4 * 16) _)) in L2 by lia.
    rewrite (proj2 (N.ltb_lt (b mod 16 * 4) _)) in L3 by lia.
    destruct (bytes_of_look _ _ _ _ (a / 4) (b / 16 + a mod 4 * 16) (b mod 16 * 4) 0
      ltac:(lia) ltac:(lia) ltac:(lia) ltac:(lia) L1 L2 L3 (look_url 0 ltac:(lia))) as (B1 & B2 & _).
    rewrite B1, B2.
    replace (a / 4 * 4 + (b / 16 + a mod 4 * 16) / 16) with a by lia.
    replace ((b / 16 + a mod 4 * 16) mod 16 * 16 + b mod 16 * 4 / 4) with b by lia.
    unfold put. rewrite (proj2 (N.ltb_lt a _) Ha'), (proj2 (N.ltb_lt b _) Hb'). done.
Qed.
Lemma url_one sgn a : a < 256 -> sgn = false \/ a < 128 ->
  exists out, urlDecodeBuffer sgn (urlEncode_loop [a]) = DOk out /\ (1 <= length out)%nat.
Proof.
  intros Ha Hs.
  assert (A : forall a, a < 256 -> (match urlDecodeBuffer sgn (urlEncode_loop [a]) with
      DOk out => (negb sgn || (a <? 128)) && (length out =? 0)%nat | _ => true end) = false).
  { intros x Hx. apply negb_true_iff. revert x Hx. apply (all_below_spec 256 (fun a => negb (match urlDecodeBuffer sgn (urlEncode_loop [a]) with
      DOk out => (negb sgn || (a <? 128)) && (length out =? 0)%nat | _ => true end))). destruct sgn; by vm_compute. }
  specialize (A a Ha). destruct (urlDecodeBuffer _ _) as [out| |]; [|done|done]. exists out. split; [done|].
  destruct out; [|cbn; lia]. cbn in A. destruct Hs as [-> |Hs]; [done|].
  rewrite (proj2 (N.ltb_lt _ _) Hs) in A. by destruct sgn.
Qed.
Lemma url_two_len sgn a b : a < 256 -> b < 256 -> sgn = false \/ (a < 128 /\ b < 128) ->
  exists out, urlDecodeBuffer sgn (urlEncode_loop [a; b]) = DOk out /\ (2 <= length out)%nat.
Proof.
  intros Ha Hb [-> |Hs].
  - rewrite url_two_form. cbv zeta. eexists. split; [done|]. rewrite app_length.
    assert (P : forall x, (1 <= length (put false x))%nat) by (intros x; apply put_some; by left).
    match goal with |- (_ <= length (put false ?x) + length (put false ?y))%nat => pose proof (P x); pose proof (P y) end. lia.
  - exists [a; b]. split; [by apply url_two|cbn; lia].
Qed.
Lemma url_nonempty c l : urlEncode_loop (c :: l) <> [].
Proof. destruct l as [|d [|e l]]; done. Qed.
Lemma url_enc_step a b c p : urlEncode_loop (a :: b :: c :: p) =
    tblU (N.land (N.shiftr a 2) 0x3F)
    :: tblU (N.lor (N.shiftl (N.land a 0x3) 4) (N.shiftr (N.land b 0xF0) 4))
    :: tblU (N.lor (N.shiftl (N.land b 0xF) 2) (N.shiftr (N.land c 0xC0) 6))
    :: tblU (N.land c 0x3F)
    :: urlEncode_loop (c :: p).
Proof. reflexivity. Qed.
Lemma url_grows sgn p : is_bytes p -> sgn = false \/ Forall (fun b => b < 128) p -> p <> [] ->
  urlDecodeBuffer sgn (urlEncode_loop p) = DErr \/
  exists out, urlDecodeBuffer sgn (urlEncode_loop p) = DOk out /\
    (length p + (if (2 <? N.of_nat (length p))%N then 1 else 0) <= length out)%nat.
Proof.
  intros Hb Hs Hne. induction p as [|a|a b|a b c p IH] using two_ind; [done| | |].
  - right. inversion Hb as [|? ? Ha ?]; subst. apply url_one; [done|].
    destruct Hs as [|Hs]; [by left|]. right. by inversion Hs.
  - right. apply Forall2l in Hb as (Ha & Hb & _). apply url_two_len; [done..|].
    destruct Hs as [|Hs]; [by left|]. right. by apply Forall2l in Hs as (? & ? & _).
  - apply Forall2l in Hb as (Ha & Hb & Hr).
    assert (Hs' : sgn = false \/ (a < 128 /\ b < 128 /\ Forall (fun b => b < 128) (c :: p))).
    { destruct Hs as [|Hs]; [by left|]. right. by apply Forall2l in Hs. }
    assert (Hc : c < 256) by by inversion Hr.
    destruct IH as [E|(out & E & L)]; [done|tauto|done| |].
    all: rewrite url_enc_step.
    all: rewrite url_step by apply url_nonempty; rewrite E.
    { left. by destruct (_ || _). }
    rewrite top6', low2', top4, low4', top2 by done.
    rewrite !lor_swap by (change (2 ^ 4) with 16; change (2 ^ 2) with 4; lia).
    change (2 ^ 4) with 16. change (2 ^ 2) with 4. rewrite land_3F.
    rewrite !tblU_digit by lia.
    destruct (_ || _) eqn:G; [by left|]. right.
    rewrite !look_url in G by lia. apply orb_false_elim in G as [G G4]. apply orb_false_elim in G as [G G3].
    apply orb_false_elim in G as [G1 G2].
    assert (L1 := look_url (a / 4) ltac:(lia)). assert (L2 := look_url (b / 16 + a mod 4 * 16) ltac:(lia)).
    assert (L3 := look_url (c / 64 + b mod 16 * 4) ltac:(lia)). assert (L4 := look_url (c mod 64) ltac:(lia)).
    destruct (a / 4 <? 62) eqn:E1; [|done]. destruct (b / 16 + a mod 4 * 16 <? 62) eqn:E2; [|done].
    destruct (c / 64 + b mod 16 * 4 <? 62) eqn:E3; [|done]. destruct (c mod 64 <? 62) eqn:E4; [|done].
    destruct (bytes_of_look _ _ _ _ (a / 4) (b / 16 + a mod 4 * 16) (c / 64 + b mod 16 * 4) (c mod 64) ltac:(lia) ltac:(lia) ltac:(lia) ltac:(lia) L1 L2 L3 L4) as (B1 & B2 & B3).
    rewrite B1, B2, B3. eexists. split; [done|]. rewrite !app_length.
    replace (a / 4 * 4 + (b / 16 + a mod 4 * 16) / 16) with a by lia.
    replace ((b / 16 + a mod 4 * 16) mod 16 * 16 + (c / 64 + b mod 16 * 4) / 4) with b by lia.
    replace ((c / 64 + b mod 16 * 4) mod 4 * 64 + c mod 64) with c by lia.
    assert (P1 : (1 <= length (put sgn a))%nat) by (apply put_some; tauto).
    assert (P2 : (1 <= length (put sgn b))%nat) by (apply put_some; tauto).
    assert (P3 : (1 <= length (put sgn c))%nat).
    { apply put_some. destruct Hs' as [|(_ & _ & Hs')]; [by left|]. right. by inversion Hs'. }
    cbn [length] in *. destruct (2 <? _) in L; destruct (2 <? _); lia.
Qed.
(** What the decoder writes with a signed [char] is ASCII. *)
Lemma put_ascii b : Forall (fun x => x < 128) (put true b).
Proof. unfold put. destruct (b <? 128) eqn:E; repeat constructor. lia. Qed.
Lemma out_if_ascii c b r : (forall o, r = DOk o -> Forall (fun x => x < 128) o) ->
  forall o, out_if c b true r = DOk o -> Forall (fun x => x < 128) o.
Proof.
  intros H o E. unfold out_if in E. destruct r as [o'| |]; [|done|done]. destruct c; [|by apply H].
  destruct b as [b|]; [|done]. injection E as <-. apply Forall_app. split; [apply put_ascii|by apply H].
Qed.
Lemma url_ascii n : forall t o, (length t <= n)%nat -> urlDecodeBuffer true t = DOk o -> Forall (fun x => x < 128) o.
Proof.
  assert (T : forall it o, urlDecode_tail true it = DOk o -> Forall (fun x => x < 128) o).
  { intros it. unfold urlDecode_tail. repeat apply out_if_ascii. intros o E. injection E as <-. constructor. }
  induction n as [|n IH]; intros t o Hn E.
  { destruct t; [|cbn in Hn; lia]. by eapply T. }
  destruct t as [|a [|b [|c [|d [|e t]]]]]; try by eapply T.
  rewrite url_step in E by done. destruct (_ || _); [done|].
  destruct (urlDecodeBuffer true (e :: t)) as [q| |] eqn:Eq; [|done|done].
  apply IH in Eq; [|cbn in *; lia]. injection E as <-.
  rewrite !Forall_app. repeat split; try apply put_ascii. done.
Qed.
Definition url_back (sgn : bool) (p : list N) : dres :=
  match urlEncodeBuffer p with DOk t => urlDecodeBuffer sgn t | r => r end.
Lemma url_round_exact sgn p : is_bytes p ->
  (exists t, urlEncodeBuffer p = DOk t /\ urlDecodeBuffer sgn t = DOk p)
  <-> length p = 2%nat /\ Forall (fun b => b < 128) p.
Proof.
  intros Hb. split.
  - intros (t & Et & E). destruct p as [|a [|b p]]; [done|done|].
    assert (t = urlEncode_loop (a :: b :: p)) as ->.
    { change (DOk (urlEncode_loop (a :: b :: p)) = DOk t) in Et. congruence. } clear Et.
    assert (Hs : sgn = false \/ Forall (fun b => b < 128) (a :: b :: p)).
    { destruct sgn; [right|by left]. by eapply url_ascii. }
    destruct p as [|c p].
    + split; [done|]. apply Forall2l in Hb as (Ha & Hb & _). apply url_two in E; [|done..]. destruct E. by repeat constructor.
    + exfalso. destruct (url_grows sgn (a :: b :: c :: p) Hb Hs ltac:(done)) as [G|(out & G & L)].
      * rewrite E in G. done.
      * rewrite E in G. injection G as <-. cbn [length] in L. destruct (2 <? _) eqn:X; lia.
  - intros (Hl & Ha). destruct p as [|a [|b [|c p]]]; try done. eexists. split; [done|].
    apply Forall2l in Hb as (? & ? & _). apply Forall2l in Ha as (? & ? & _). by apply url_two.
Qed.
(** The form of the standard encoding. *)
Lemma base64_form p : is_bytes p -> exists body pad, base64 std_digit true p = body ++ pad /\
  Forall in_alphabet body /\ (pad = [] \/ pad = [61] \/ pad = [61; 61]) /\
  N.of_nat (length (body ++ pad)) = 4 * ((N.of_nat (length p) + 2) / 3).
Proof.
  induction p as [|a|a b|a b c p IH] using three_ind; intros Hb.
  - exists [], []. repeat split; [constructor|by left].
  - apply Forall_cons_1 in Hb as [Ha _]. eexists [_; _], [61; 61]. split; [done|]. split; [|split; [by right; right|done]].
    repeat constructor; eexists; (split; [|reflexivity]); lia.
  - apply Forall2l in Hb as (Ha & Hb & _). eexists [_; _; _], [61]. split; [done|]. split; [|split; [by right; left|done]].
    repeat constructor; eexists; (split; [|reflexivity]); lia.
  - apply Forall3l in Hb as (Ha & Hb & Hc & Hp). destruct (IH Hp) as (body & pad & E & F & P & L).
    cbn [base64]. rewrite E. eexists (_ :: _ :: _ :: _ :: body), pad. split; [done|]. split; [|split; [done|]].
    + repeat constructor; [..|done]; eexists; (split; [|reflexivity]); lia.
    + cbn [app length]. rewrite !Nat2N.inj_succ. cbn [length] in *. lia.
Qed.
