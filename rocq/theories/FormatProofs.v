From Coq Require Import ZifyBool ZifyNat ZifyN.
From stdpp Require Import numbers list.
From Verif Require Import FormatModel FormatSpec Utf8Spec Utf8Proofs.
Local Open Scope N_scope.
Ltac Zify.zify_post_hook ::= Z.div_mod_to_equations.
Local Arguments N.eqb : simpl never.
Local Arguments N.ltb : simpl never.
Local Arguments N.leb : simpl never.

(** [extends s t s']: [s'] holds the text of [s] followed by [t], all else equal. *)
Definition extends (s : fstate) (t : list N) (s' : fstate) : Prop :=
  formatStateToString s' = formatStateToString s ++ t /\
  fs_indent s' = fs_indent s /\ fs_tab s' = fs_tab s /\ fs_ignoreStyle s' = fs_ignoreStyle s.

Lemma extends_refl s : extends s [] s.
Proof. unfold extends. by rewrite app_nil_r. Qed.
Lemma extends_trans s t s' u s'' : extends s t s' -> extends s' u s'' -> extends s (t ++ u) s''.
Proof. unfold extends. intros (-> & -> & -> & ->) (-> & -> & -> & ->). by rewrite app_assoc. Qed.

Lemma toString_cons b bs i t n :
  formatStateToString (FState (b :: bs) i n t) = formatStateToString (FState bs i n t) ++ f_data b.
Proof. unfold formatStateToString. cbn. rewrite map_app, concat_app. cbn. by rewrite app_nil_r. Qed.

Lemma reserve_ok s n :
  extends s [] (reserveBuf s n) /\
  exists b bs, fs_bufs (reserveBuf s n) = b :: bs /\ (length (f_data b) + n <= f_cap b)%nat.
Proof.
  unfold reserveBuf. destruct s as [bufs ig ind tab]. cbn. destruct bufs as [|b bs].
  - split; [|by eexists _, _; split; [done|cbn; lia]]. unfold extends. by rewrite toString_cons.
  - destruct (_ <=? _)%nat eqn:E; cbn.
    + split; [apply extends_refl|]. eexists _, _. split; [done|]. lia.
    + split; [|by eexists _, _; split; [done|cbn; lia]].
      unfold extends. rewrite (toString_cons (FBuf [] _)). cbn. by rewrite app_nil_r.
Qed.
Lemma put_ok s t b bs :
  fs_bufs s = b :: bs -> (length (f_data b) + length t <= f_cap b)%nat ->
  exists s', put s t = Some s' /\ extends s t s'.
Proof.
  intros Eb H. unfold put. rewrite Eb. rewrite (proj2 (Nat.leb_le _ _)) by lia.
  eexists. split; [done|]. destruct s as [bufs ig ind tab]. cbn in *. subst bufs.
  unfold extends. rewrite !toString_cons. cbn. by rewrite app_assoc.
Qed.
Lemma write_ok s t : exists s', write s t = Some s' /\ extends s t s'.
Proof.
  unfold write. destruct (reserve_ok s (length t)) as (He & b & bs & Eb & Hl).
  destruct (put_ok _ t _ _ Eb Hl) as (s' & -> & He'). exists s'. split; [done|].
  apply (extends_trans _ [] _ _ _ He He').
Qed.
Lemma write_times_ok n s t : exists s', write_times n s t = Some s' /\ extends s (concat (repeat t n)) s'.
Proof.
  revert s. induction n as [|n IH]; intros s; cbn.
  - exists s. split; [done|apply extends_refl].
  - destruct (write_ok s t) as (s1 & -> & H1). destruct (IH s1) as (s2 & -> & H2).
    exists s2. split; [done|]. by eapply extends_trans.
Qed.
Lemma snprintf_ok s t :
  (length t < 64)%nat -> exists s', snprintf (reserveBuf s 64) t = Some s' /\ extends s t s'.
Proof.
  intros H. unfold snprintf. rewrite (proj2 (Nat.ltb_lt _ _)) by lia.
  destruct (reserve_ok s 64) as (He & b & bs & Eb & Hl).
  destruct (put_ok _ t _ _ Eb ltac:(lia)) as (s' & -> & He'). exists s'. split; [done|].
  apply (extends_trans _ [] _ _ _ He He').
Qed.
Lemma reserve_write_ok s n t : exists s', write (reserveBuf s n) t = Some s' /\ extends s t s'.
Proof.
  destruct (reserve_ok s n) as (He & _). destruct (write_ok (reserveBuf s n) t) as (s' & -> & He').
  exists s'. split; [done|]. apply (extends_trans _ [] _ _ _ He He').
Qed.
Lemma reserve_times_ok s n k t : exists s', write_times k (reserveBuf s n) t = Some s' /\ extends s (concat (repeat t k)) s'.
Proof.
  destruct (reserve_ok s n) as (He & _). destruct (write_times_ok k (reserveBuf s n) t) as (s' & -> & He').
  exists s'. split; [done|]. apply (extends_trans _ [] _ _ _ He He').
Qed.

(** ** Decimal notation *)
Lemma dec_value_snoc t c : dec_value (t ++ [c]) = 10 * dec_value t + (c - 48).
Proof. unfold dec_value. by rewrite fold_left_app. Qed.
Lemma dec_value_pos t : t <> [] -> Forall (fun c => 48 <= c /\ c <= 57) t -> hd 0 t <> 48 -> 0 < dec_value t.
Proof.
  induction t as [|c t IH] using rev_ind; [done|]. intros _ Hf Hh.
  rewrite dec_value_snoc. apply Forall_app in Hf as [Hf Hc]. apply Forall_cons_1 in Hc as [Hc _].
  destruct t as [|d t]; [cbn in Hh; lia|]. specialize (IH ltac:(done) Hf Hh). lia.
Qed.
Lemma digits_decimal k n t : n < 10 ^ (N.of_nat k + 1) -> is_decimal n t -> digits k n = t.
Proof.
  revert n t. induction k as [|k IH]; intros n t Hn (Hne & Hf & Hv & Hh).
  - change (10 ^ (N.of_nat 0 + 1)) with 10 in Hn.
    destruct (exists_last Hne) as (t' & c & ->). rewrite dec_value_snoc in Hv.
    apply Forall_app in Hf as [Hf Hc]. apply Forall_cons_1 in Hc as [Hc _].
    destruct t' as [|d t'].
    + cbn in *. f_equal. unfold dec_value in Hv. cbn in Hv. lia.
    + exfalso. assert (0 < dec_value (d :: t')); [|lia]. apply dec_value_pos; [done|done|].
      intros E. specialize (Hh E). apply (f_equal length) in Hh. rewrite app_length in Hh. cbn in Hh. lia.
  - cbn. destruct (exists_last Hne) as (t' & c & ->). rewrite dec_value_snoc in Hv.
    apply Forall_app in Hf as [Hf Hc]. apply Forall_cons_1 in Hc as [Hc _].
    destruct t' as [|d t'].
    + unfold dec_value in Hv. cbn in Hv. replace (n <? 10) with true by lia. cbn. f_equal. lia.
    + assert (Hp : 0 < dec_value (d :: t')).
      { apply dec_value_pos; [done|done|]. intros E. specialize (Hh E).
        apply (f_equal length) in Hh. rewrite app_length in Hh. cbn in Hh. lia. }
      replace (n <? 10) with false by lia.
      rewrite (IH (n / 10) (d :: t')).
      * f_equal. f_equal. lia.
      * apply N.div_lt_upper_bound; [done|]. rewrite <- N.pow_succ_r' .
        replace (N.succ (N.of_nat k + 1)) with (N.of_nat (S k) + 1) by lia. done.
      * split; [done|]. split; [done|]. split; [lia|]. intros E. exfalso. specialize (Hh E).
        apply (f_equal length) in Hh. rewrite app_length in Hh. cbn in Hh. lia.
Qed.
Lemma digits_length k n : (length (digits k n) <= S k)%nat.
Proof.
  revert n. induction k as [|k IH]; intros n; [cbn; lia|]. cbn. destruct (n <? 10); [cbn; lia|].
  rewrite app_length. cbn. specialize (IH (n / 10)). lia.
Qed.
Local Opaque digits.
Lemma small_bound n : n <= 2 ^ 64 -> n < 10 ^ (N.of_nat 20 + 1).
Proof. intros H. eapply N.le_lt_trans; [exact H|done]. Qed.
Lemma print_unsigned_ok b n t : n < 2 ^ b -> b <= 64 -> is_decimal n t -> print_unsigned b n = t.
Proof.
  intros Hn Hb Ht. unfold print_unsigned. rewrite N.mod_small by done.
  apply digits_decimal; [|done]. apply small_bound. assert (2 ^ b <= 2 ^ 64) by (apply N.pow_le_mono_r; lia). lia.
Qed.
Lemma print_unsigned_length b n : (length (print_unsigned b n) < 64)%nat.
Proof. unfold print_unsigned. assert (H := digits_length 20 (n mod 2 ^ b)). lia. Qed.
Lemma print_signed_length b n : (length (print_signed b n) < 64)%nat.
Proof.
  unfold print_signed. destruct (_ <? _); cbn [length].
  - assert (H := digits_length 20 (n mod 2 ^ b)). lia.
  - assert (H := digits_length 20 (2 ^ b - n mod 2 ^ b)). lia.
Qed.
Lemma print_signed_pos n t :
  n < 2 ^ 63 -> is_decimal n t -> print_signed 64 (Z.to_N (Z.of_N n mod 2 ^ 64)) = t.
Proof.
  intros Hn Ht. unfold print_signed.
  change (2 ^ 63) with 9223372036854775808 in *. change (2 ^ 64)%Z with 18446744073709551616%Z.
  change (2 ^ 64) with 18446744073709551616. change (2 ^ (64 - 1)) with 9223372036854775808.
  replace (Z.to_N (Z.of_N n mod 18446744073709551616) mod 18446744073709551616) with n by lia.
  replace (n <? 9223372036854775808) with true by lia.
  apply digits_decimal; [|done]. apply small_bound. change (2 ^ 64) with 18446744073709551616. lia.
Qed.
Lemma print_signed_neg n t :
  0 < n -> n <= 2 ^ 63 -> is_decimal n t -> print_signed 64 (Z.to_N ((- Z.of_N n) mod 2 ^ 64)) = 45 :: t.
Proof.
  intros H0 Hn Ht. unfold print_signed.
  change (2 ^ 63) with 9223372036854775808 in *. change (2 ^ 64)%Z with 18446744073709551616%Z.
  change (2 ^ 64) with 18446744073709551616. change (2 ^ (64 - 1)) with 9223372036854775808.
  replace (Z.to_N ((- Z.of_N n) mod 18446744073709551616) mod 18446744073709551616)
    with (18446744073709551616 - n) by lia.
  replace (18446744073709551616 - n <? 9223372036854775808) with false by lia. f_equal.
  replace (18446744073709551616 - (18446744073709551616 - n)) with n by lia.
  apply digits_decimal; [|done]. apply small_bound. change (2 ^ 64) with 18446744073709551616. lia.
Qed.

(** ** The loop *)
Notation plain t := (Forall (fun c : N => c <> 10 /\ c <> 123) t).
Lemma span_plain t p :
  plain t -> (p = [] \/ exists c p', p = c :: p' /\ (c = 10 \/ c = 123)) -> span_text (t ++ p) = (t, p).
Proof.
  intros Ht Hp. induction t as [|c t IH].
  - cbn. destruct Hp as [-> | (c & p' & -> & [-> | ->])]; done.
  - apply Forall_cons_1 in Ht as [[H1 H2] Ht]. cbn.
    rewrite (proj2 (N.eqb_neq _ _) H1), (proj2 (N.eqb_neq _ _) H2). cbn. by rewrite IH.
Qed.
Local Arguments reserveBuf : simpl never.
Local Arguments write : simpl never.
Local Arguments write_times : simpl never.
Local Arguments snprintf : simpl never.
Local Arguments print_unsigned : simpl never.
Local Arguments print_signed : simpl never.
Local Arguments N.of_nat : simpl never.


Lemma utf8_text_ok c : c < 0x110000 -> utf8_text c false = Some (utf8 c).
Proof. intros H. unfold utf8_text. cbn [andb]. rewrite wcharToStr_utf8; [done|]. lia. Qed.

Local Arguments print_escaped : simpl never.
Local Arguments printUtf8 : simpl never.
Local Arguments utf8_text : simpl never.
Ltac eqb_const :=
  repeat (cbn [peek hd tail];
    match goal with
    | |- context [N.eqb (Npos ?a) (Npos ?b)] =>
      let v := eval vm_compute in (N.eqb (Npos a) (Npos b)) in
      change (N.eqb (Npos a) (Npos b)) with v; cbn match
    | |- context [isdec (Npos ?a)] =>
      let v := eval vm_compute in (isdec (Npos a)) in change (isdec (Npos a)) with v; cbn match
    end).
Local Arguments at_brace : simpl never.
Ltac brace_step := change (123 =? 10) with false; cbn match; unfold at_brace; cbn [app]; eqb_const.
Ltac arg_step L1 L2 :=
  brace_step; unfold formatArg; cbn [d_args]; eqb_const; rewrite (L1 _ _ eq_refl);
  try (unfold width; eqb_const); try rewrite (L2 _ _ _ eq_refl).

Lemma format_loop_ok ds : forall t fuel s prev post i out i',
  plain t -> ds_out (fs_tab s) ds (fs_indent s) out i' -> i = length prev ->
  (fs_ignoreStyle s = true \/ Forall (fun d => match d with DStyle _ _ => False | _ => True end) ds) ->
  (length (t ++ fmt_string ds) < fuel)%nat ->
  exists s', format_loop fuel s (t ++ fmt_string ds) i (prev ++ fmt_args ds ++ post) = Some s' /\
    formatStateToString s' = formatStateToString s ++ t ++ out /\
    fs_indent s' = i' /\ fs_tab s' = fs_tab s /\ fs_ignoreStyle s' = fs_ignoreStyle s.
Proof.
  induction ds as [|d ds IH]; intros t fuel s prev post i out i' Ht Ho -> Hst Hf.
  - inversion Ho; subst. unfold fmt_string. cbn [map concat]. rewrite app_nil_r.
    destruct fuel as [|fuel]; [lia|]. cbn [format_loop].
    destruct t as [|c t]; [exists s; by rewrite !app_nil_r|].
    assert (E := span_plain (c :: t) [] Ht (or_introl eq_refl)). rewrite app_nil_r in E.
    rewrite E. destruct (write_ok s (c :: t)) as (s1 & -> & H1 & H2 & H3 & H4).
    exists s1. done.
  - inversion Ho as [|? ? ? o1 i1 o2 ? Hd Hds]; subst.
    assert (Hst' : fs_ignoreStyle s = true \/ Forall (fun d => match d with DStyle _ _ => False | _ => True end) ds).
    { destruct Hst as [?|Hst]; [by left|right]. by apply Forall_cons_1 in Hst as [_ ?]. }
    unfold fmt_string in *. cbn [map concat] in *. unfold fmt_args. cbn [map concat].
    assert (Hdec : (exists u, d = DText u) \/ ~ (exists u, d = DText u)).
    { destruct d; try (right; intros [? ?]; done). left. eauto. }
    destruct Hdec as [[u ->]|Hnt].
    { inversion Hd; subst. cbn [d_text d_args] in *. cbn [app].
      rewrite app_assoc in Hf |- *. rewrite (app_assoc t o1 o2).
      apply (IH (t ++ o1) fuel s prev post _ o2 i'); try done. by apply Forall_app. }
    (* the other directives start with a newline or a brace *)
    assert (Hhead : exists c p', d_text d = c :: p' /\ (c = 10 \/ c = 123)).
    { destruct d; try (cbn; eauto; fail). exfalso. eauto. }
    destruct fuel as [|fuel]; [lia|].
    assert (Hrest : exists c p', d_text d ++ concat (map d_text ds) = c :: p' /\ (c = 10 \/ c = 123)).
    { destruct Hhead as (c & p' & -> & Hc). cbn. eauto. }
    assert (E := span_plain t _ Ht (or_intror Hrest)).
    assert (Hne : t ++ d_text d ++ concat (map d_text ds) <> []).
    { destruct Hrest as (c & p' & -> & _). by destruct t. }
    cbn [format_loop]. destruct (t ++ d_text d ++ concat (map d_text ds)) as [|x xs] eqn:Exs; [done|].
    rewrite E. clear E Hne.
    assert (Hlen : (length t + length (d_text d) + length (concat (map d_text ds)) < S fuel)%nat).
    { apply (f_equal length) in Exs. rewrite !app_length in Exs. cbn in Exs. cbn in Hf. lia. }
    destruct (write_ok s t) as (s1 & -> & X1 & X2 & X3 & X4).
    (* continuing after the directive *)
    assert (K : forall s2 used, extends s1 o1 (set_indent s2 (fs_indent s1)) -> fs_indent s2 = i1 ->
              used = d_args d ->
              exists s', format_loop fuel s2 (concat (map d_text ds)) (length prev + length used)
                           (prev ++ (used ++ concat (map d_args ds)) ++ post) = Some s' /\
                formatStateToString s' = formatStateToString s ++ t ++ o1 ++ o2 /\
                fs_indent s' = i' /\ fs_tab s' = fs_tab s /\ fs_ignoreStyle s' = fs_ignoreStyle s).
    { intros s2 used (Y1 & _ & Y3 & Y4) Y2 ->. cbn in Y3, Y4.
      destruct (IH [] fuel s2 (prev ++ d_args d) post (length (prev ++ d_args d)) o2 i' ltac:(constructor)) as (s' & E' & Z1 & Z2 & Z3 & Z4).
      - rewrite Y3, X3, Y2. exact Hds.
      - done.
      - by rewrite Y4, X4.
      - cbn [app]. destruct Hhead as (c & p' & Hc & _). rewrite Hc in Hlen. cbn in Hlen. lia.
      - exists s'. split; [|split; [|split; [done|split; congruence]]].
        + rewrite <- E', app_length. f_equal. by rewrite <- !app_assoc.
        + rewrite Z1. cbn [app]. replace (formatStateToString s2) with (formatStateToString s1 ++ o1).
          rewrite X1. by rewrite <- !app_assoc. }
    assert (K' : forall s2 used j, extends s1 o1 (set_indent s2 (fs_indent s1)) -> fs_indent s2 = i1 ->
              used = d_args d -> j = (length prev + length used)%nat ->
              exists s', format_loop fuel s2 (concat (map d_text ds)) j
                           (prev ++ (used ++ concat (map d_args ds)) ++ post) = Some s' /\
                formatStateToString s' = formatStateToString s ++ t ++ o1 ++ o2 /\
                fs_indent s' = i' /\ fs_tab s' = fs_tab s /\ fs_ignoreStyle s' = fs_ignoreStyle s).
    { intros s2 used j Y1 Y2 Y3 ->. by apply K. }
    clear K.
    assert (L1 : forall a r, d_args d = a :: r -> (prev ++ (d_args d ++ concat (map d_args ds)) ++ post) !! length prev = Some a).
    { intros a r ->. rewrite lookup_app_r by lia. by rewrite Nat.sub_diag. }
    assert (L2 : forall a b r, d_args d = a :: b :: r -> (prev ++ (d_args d ++ concat (map d_args ds)) ++ post) !! S (length prev) = Some b).
    { intros a b r ->. rewrite lookup_app_r by lia. by replace (S (length prev) - length prev)%nat with 1%nat by lia. }
    inversion Hd; subst d; subst; cbn [d_text app]; cbn [d_text d_args] in K', L1, L2; try (exfalso; by eauto).
    + (* newline *)
      change (10 =? 10) with true. cbn iota.
      destruct (write_ok s1 [10]) as (s2 & -> & V). destruct V as (V1 & V2 & V3 & V4).
      destruct (write_times_ok (fs_indent s2) s2 (fs_tab s2)) as (s3 & -> & W1 & W2 & W3 & W4).
      apply (K' s3 [] (length prev)); [|congruence|done|cbn; lia].
      repeat split; cbn; try congruence. change (concat (map f_data (rev (fs_bufs s3)))) with (formatStateToString s3).
      rewrite W1, V1. rewrite <- app_assoc. f_equal. cbn. congruence.
    + (* brace *)
      brace_step.
      destruct (write_ok s1 [123]) as (s2 & -> & V). destruct V as (V1 & V2 & V3 & V4).
      apply (K' s2 [] (length prev)); [|congruence|done|cbn; lia]. done.
    + brace_step.
      apply (K' (set_indent s1 (S (fs_indent s1))) [] (length prev)); [|cbn; congruence|done|cbn; lia].
      destruct s1; apply extends_refl.
    + brace_step. rewrite X2.
      match goal with H : S _ = fs_indent s |- _ => rewrite <- H end.
      apply (K' (set_indent s1 _) [] (length prev)); [|cbn; congruence|done|cbn; lia].
      destruct s1; apply extends_refl.
    + (* {s} *) arg_step L1 L2.
      destruct (reserve_write_ok s1 64 o1) as (s2 & -> & V1 & V2 & V3 & V4).
      apply (K' s2 [AStr o1] (S (length prev))); [done|congruence|done|cbn; lia].
    + (* {sl} *) arg_step L1 L2.
      destruct (reserve_write_ok s1 64 (take n t0)) as (s2 & -> & V1 & V2 & V3 & V4).
      apply (K' s2 [AStr t0; ALen n] (S (S (length prev)))); [done|congruence|done|cbn; lia].
    + (* {c} *) arg_step L1 L2. unfold printUtf8. rewrite utf8_text_ok by done.
      destruct (reserve_write_ok s1 64 (utf8 c)) as (s2 & -> & V1 & V2 & V3 & V4).
      apply (K' s2 [AChar c] (S (length prev))); [done|congruence|done|cbn; lia].
    + (* {cl} *) arg_step L1 L2. rewrite utf8_text_ok by done.
      destruct (reserve_times_ok s1 64 n (utf8 c)) as (s2 & -> & V1 & V2 & V3 & V4).
      apply (K' s2 [AChar c; ALen n] (S (S (length prev)))); [done|congruence|done|cbn; lia].
    + arg_step L1 L2.
      destruct (reserve_write_ok s1 64 [116; 114; 117; 101]) as (s2 & -> & V1 & V2 & V3 & V4).
      apply (K' s2 [ABool true] (S (length prev))); [done|congruence|done|cbn; lia].
    + arg_step L1 L2.
      destruct (reserve_write_ok s1 64 [102; 97; 108; 115; 101]) as (s2 & -> & V1 & V2 & V3 & V4).
      apply (K' s2 [ABool false] (S (length prev))); [done|congruence|done|cbn; lia].
    + arg_step L1 L2. 
      destruct (snprintf_ok s1 (print_unsigned 64 n) (print_unsigned_length _ _)) as (s2 & -> & V).
      rewrite (print_unsigned_ok 64 n o1) in V by done. destruct V as (V1 & V2 & V3 & V4).
      apply (K' s2 [AInt n] (S (length prev))); [done|congruence|done|cbn; lia].
    + arg_step L1 L2. 
      destruct (snprintf_ok s1 (print_unsigned 32 n) (print_unsigned_length _ _)) as (s2 & -> & V).
      rewrite (print_unsigned_ok 32 n o1) in V by done. destruct V as (V1 & V2 & V3 & V4).
      apply (K' s2 [AInt n] (S (length prev))); [done|congruence|done|cbn; lia].
    + arg_step L1 L2. 
      destruct (snprintf_ok s1 (print_signed 64 (Z.to_N (Z.of_N n mod 2 ^ 64))) (print_signed_length _ _)) as (s2 & -> & V).
      rewrite (print_signed_pos n o1) in V by done. destruct V as (V1 & V2 & V3 & V4).
      apply (K' s2 [_] (S (length prev))); [done|congruence|done|cbn; lia].
    + arg_step L1 L2. 
      destruct (snprintf_ok s1 (print_signed 64 (Z.to_N ((- Z.of_N n) mod 2 ^ 64))) (print_signed_length _ _)) as (s2 & -> & V).
      rewrite (print_signed_neg n t0) in V by done. destruct V as (V1 & V2 & V3 & V4).
      apply (K' s2 [_] (S (length prev))); [done|congruence|done|cbn; lia].
    + brace_step.
      destruct Hst as [Hst|Hst]; [|by apply Forall_cons_1 in Hst as [[] _]].
      replace (fs_ignoreStyle s1) with true by congruence.
      apply (K' s1 [AStyle st co] (S (length prev))); [destruct s1; apply extends_refl|congruence|done|cbn; lia].
Qed.

Local Transparent digits.
Lemma digits_is_decimal k n : n < 10 ^ (N.of_nat k + 1) -> is_decimal n (digits k n).
Proof.
  revert n. induction k as [|k IH]; intros n Hn.
  - change (10 ^ (N.of_nat 0 + 1)) with 10 in Hn. cbn. rewrite N.mod_small by done.
    split; [done|]. split; [repeat constructor; lia|]. split; [unfold dec_value; cbn; lia|]. cbn. by intros ->.
  - cbn. destruct (n <? 10) eqn:E.
    + split; [done|]. split; [repeat constructor; lia|]. split; [unfold dec_value; cbn; lia|]. cbn. by intros ->.
    + destruct (IH (n / 10)) as (H1 & H2 & H3 & H4).
      { apply N.div_lt_upper_bound; [done|]. rewrite <- N.pow_succ_r'.
        by replace (N.succ (N.of_nat k + 1)) with (N.of_nat (S k) + 1) by lia. }
      split; [by destruct (digits k (n / 10))|]. split.
      { apply Forall_app. split; [done|]. repeat constructor; lia. }
      split; [rewrite dec_value_snoc; lia|].
      intros Hh. exfalso. destruct (digits k (n / 10)) as [|d t] eqn:Ed; [done|].
      cbn in Hh. subst d. specialize (H4 eq_refl). rewrite H4 in H3.
      unfold dec_value in H3. cbn in H3. lia.
Qed.

(** ** Sequences of calls *)
Lemma run_calls_ok cs : forall s out i',
  calls_out (fs_tab s) cs (fs_indent s) out i' ->
  fs_ignoreStyle s = true ->
  exists s', run_calls s cs = Some s' /\
    formatStateToString s' = formatStateToString s ++ out /\ fs_indent s' = i' /\
    fs_tab s' = fs_tab s /\ fs_ignoreStyle s' = true.
Proof.
  induction cs as [|c cs IH]; intros s out i' Ho Hi; inversion Ho; subst.
  - exists s. by rewrite app_nil_r.
  - cbn. unfold append. destruct (write_ok s t) as (s1 & -> & W1 & W2 & W3 & W4).
    destruct (IH s1 u i') as (s' & -> & Z1 & Z2 & Z3 & Z4); [by rewrite W3, W2|congruence|].
    exists s'. split; [done|]. split; [|split; [done|split; congruence]].
    by rewrite Z1, W1, app_assoc.
  - cbn [run_calls]. unfold format.
    destruct (format_loop_ok ds [] (S (length (fmt_string ds))) s [] [] 0 t i'0) as (s1 & E & W1 & W2 & W3 & W4);
      [constructor|done|done|by left|cbn; lia|].
    cbn [app] in E. rewrite app_nil_r in E. rewrite E.
    destruct (IH s1 u i') as (s' & -> & Z1 & Z2 & Z3 & Z4); [by rewrite W3, W2|congruence|].
    exists s'. split; [done|]. split; [|split; [done|split; congruence]].
    rewrite Z1, W1. by rewrite <- !app_assoc.
Qed.
