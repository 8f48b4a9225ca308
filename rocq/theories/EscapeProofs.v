From Coq Require Import ZifyBool ZifyNat ZifyN.
From stdpp Require Import numbers list.
From Verif Require Import EscapeModel EscapeSpec.
Local Open Scope N_scope.
Local Arguments N.eqb : simpl never.
Local Arguments N.leb : simpl never.
Local Arguments N.ltb : simpl never.

Lemma escape_loop_length after s : (length (escape_loop after s) <= length s)%nat.
Proof.
  induction s as [s IH] using (induction_ltof1 _ (@length N)). unfold ltof in IH.
  destruct s as [|c s]; [done|]. cbn.
  destruct (negb (c =? 92)).
  { cbn. specialize (IH s ltac:(cbn; lia)). lia. }
  destruct s as [|d s]; [cbn; lia|].
  assert (H1 := IH s ltac:(cbn; lia)). assert (H2 := IH (d :: s) ltac:(cbn; lia)).
  destruct (string_escape d); [cbn in *; lia|].
  destruct (_ && _); cbn in *; lia.
Qed.

Lemma esc_char after c s : negb (c =? 92) = true -> escape_loop after (c :: s) = c :: escape_loop after s.
Proof. intros H. cbn. by rewrite H. Qed.
Lemma esc_back after d s :
  escape_loop after (92 :: d :: s) =
  match string_escape d with
  | Some e => e :: escape_loop after s
  | None => if (d =? 48) && negb (isdigit (hd after s)) then 0 :: escape_loop after s
            else 92 :: escape_loop after (d :: s)
  end.
Proof. done. Qed.
Lemma esc_92 after s : escape_loop after (92 :: 92 :: s) = 92 :: escape_loop after (92 :: s).
Proof. done. Qed.
Lemma esc_39 after s : escape_loop after (92 :: 39 :: s) = 92 :: 39 :: escape_loop after s.
Proof. done. Qed.
Lemma esc_48 after s : isdigit (hd after s) = false -> escape_loop after (92 :: 48 :: s) = 0 :: escape_loop after s.
Proof. intros H. rewrite esc_back. change (string_escape 48) with (@None N). by rewrite H. Qed.
Lemma esc_some after d s e : string_escape d = Some e -> escape_loop after (92 :: d :: s) = e :: escape_loop after s.
Proof. intros H. by rewrite esc_back, H. Qed.
Local Arguments escape_loop : simpl never.

Lemma getStringLiteral_ok s : getStringLiteral s = Some (escape_loop 34 s).
Proof.
  unfold getStringLiteral, escapeString. assert (H := escape_loop_length 34 s).
  by rewrite (proj2 (Nat.ltb_lt _ _)) by lia.
Qed.

(** The entries of the escape table, and what [escapeString] knows of them. *)
Lemma table_cases c v :
  existsb (fun e => (fst e =? c) && (snd e =? v)) escape_table = true ->
  string_escape c = Some v /\ c <> 39 /\ c <> 92 /\ c <> 48 \/
  (c = 39 /\ v = 39) \/ (c = 92 /\ v = 92) \/ (c = 48 /\ v = 0).
Proof.
  intros H. cbn in H. repeat (apply orb_true_iff in H as [H|H]); try done;
    apply andb_true_iff in H as [Hx%N.eqb_eq Hy%N.eqb_eq]; cbn in Hx, Hy; subst;
    first [left; done|right; tauto].
Qed.

Lemma lit_text_head l :
  well_formed l = true ->
  hd 34 (lit_text l) = match head l with Some (TChar c) => c | Some (TEsc _ _) => 92 | None => 34 end.
Proof. destruct l as [|[c|c v] l]; done. Qed.
Lemma isdigit_text l : isdigit (hd 34 (lit_text l)) = is_digit_char (head l).
Proof. destruct l as [|[c|c v] l]; done. Qed.

Definition is_lucky (c : N) : bool := match c with 36 | 34 => true | _ => false end.
Lemma lucky_cases c : is_lucky c = true -> c = 36 \/ c = 34.
Proof. unfold is_lucky. intros H. repeat (case_match; try done); auto. Qed.

Lemma escape_good l :
  well_formed l = true -> backslash_lucky l = true ->
  escape_loop 34 (lit_text l) = lit_value l.
Proof.
  induction l as [|[c|c v] l IH]; intros Hw Hb; [done| |]; cbn in Hw, Hb |- *.
  - apply andb_true_iff in Hw as [Hc Hw]. rewrite esc_char by done. by rewrite IH.
  - apply andb_true_iff in Hw as [Hw1 Hw]. apply andb_true_iff in Hw1 as [Ht Hd].
    apply andb_true_iff in Hb as [Hb1 Hb]. apply andb_true_iff in Hb1 as [H39 H92].
    apply table_cases in Ht as [(E & _)|[[-> ->]|[[-> ->]|[-> ->]]]].
    + rewrite (esc_some _ _ _ _ E). by rewrite IH.
    + done.
    + change (negb (92 =? 92)) with false in H92. cbn in H92.
      rewrite esc_92. f_equal. destruct l as [|[c|c v] l]; [done| |done].
      assert (c = 36 \/ c = 34) as [-> | ->] by (apply lucky_cases; exact H92).
      * cbn in Hb, IH, Hw |- *. specialize (IH Hw Hb). rewrite esc_char in IH by done.
        by rewrite (esc_some _ _ _ 36).
      * cbn in Hb, IH, Hw |- *. specialize (IH Hw Hb). rewrite esc_char in IH by done.
        by rewrite (esc_some _ _ _ 34).
    + rewrite esc_48; [by rewrite IH|]. rewrite isdigit_text.
      change (48 =? 48) with true in *. cbn in Hd. by apply negb_true_iff.
Qed.
(** The other direction: a text that breaks the rule comes out wrong. Lengths
    tell: each token yields at least one byte. *)
Lemma escape_lengths l :
  well_formed l = true ->
  (length l <= length (escape_loop 34%N (lit_text l)))%nat /\
  (length l <= length (escape_loop 34%N (92%N :: lit_text l)))%nat.
Proof.
  induction l as [|[c|c v] l IH]; intros Hw; [by split; cbn; lia| |]; cbn [lit_text length]; cbn in Hw.
  - apply andb_true_iff in Hw as [Hc Hw]. specialize (IH Hw) as [IH _].
    split; [rewrite esc_char by done; cbn; lia|].
    rewrite esc_back. destruct (string_escape c); [cbn; lia|].
    destruct (_ && _); cbn; [lia|]. rewrite esc_char by done. cbn. lia.
  - apply andb_true_iff in Hw as [Hw1 Hw]. apply andb_true_iff in Hw1 as [Ht Hd].
    specialize (IH Hw) as [IH1 IH2].
    assert (H : (S (length l) <= length (escape_loop 34%N (92%N :: c :: lit_text l)))%nat).
    { apply table_cases in Ht as [(E & _)|[[-> ->]|[[-> ->]|[-> ->]]]].
      + rewrite (esc_some _ _ _ _ E). cbn. lia.
      + rewrite esc_39. cbn. lia.
      + rewrite esc_92. cbn. lia.
      + rewrite esc_48; [cbn; lia|]. rewrite isdigit_text. cbn in Hd. by apply negb_true_iff. }
    split; [exact H|]. rewrite esc_92. cbn [length]. lia.
Qed.

Lemma string_escape_same c : string_escape c = Some c -> c = 36 \/ c = 34.
Proof. unfold string_escape. intros H. repeat (case_match; try (injection H as H; lia)); done. Qed.

Lemma escape_wrong l :
  well_formed l = true -> backslash_lucky l = false ->
  escape_loop 34 (lit_text l) <> lit_value l.
Proof.
  induction l as [|[c|c v] l IH]; intros Hw Hb; [done| |]; cbn in Hw, Hb |- *.
  - apply andb_true_iff in Hw as [Hc Hw]. rewrite esc_char by done. intros E.
    injection E as E. by apply IH in E.
  - apply andb_true_iff in Hw as [Hw1 Hw]. apply andb_true_iff in Hw1 as [Ht Hd].
    apply table_cases in Ht as [(E & ? & ? & ?)|[[-> ->]|[[-> ->]|[-> ->]]]].
    + rewrite (esc_some _ _ _ _ E).
      rewrite (proj2 (N.eqb_neq c 39)), (proj2 (N.eqb_neq c 92)) in Hb by done. cbn in Hb.
      intros E2. injection E2 as E2. by apply IH in E2.
    + by rewrite esc_39.
    + rewrite esc_92. intros E. injection E as E.
      change (negb (92 =? 39)) with true in Hb. change (92 =? 92) with true in Hb. cbn in Hb.
      destruct l as [|t l]; [done|]. destruct t as [c|c v].
      * change (is_lucky c && backslash_lucky l = false) in Hb.
        cbn [lit_text lit_value] in E. cbn in Hw. apply andb_true_iff in Hw as [Hc Hw].
        rewrite esc_back in E.
        destruct (string_escape c) as [e|] eqn:Ee.
        { injection E as E1 E2. subst e. apply string_escape_same in Ee.
          assert (HB : backslash_lucky l = false) by (destruct Ee as [-> | ->]; exact Hb).
          apply IH; [cbn; by rewrite Hc|exact HB|]. cbn. rewrite esc_char by done. by rewrite E2. }
        clear Hd. destruct (_ && negb (isdigit _)) eqn:E0.
        { injection E as E1 E2. apply andb_true_iff in E0 as [E0%N.eqb_eq _]. lia. }
        { injection E as E1 E2. subst c. done. }
      * cbn in Hw. apply andb_true_iff in Hw as [Hw1 Hw]. apply andb_true_iff in Hw1 as [Ht _].
        cbn [lit_text lit_value] in E. rewrite esc_92 in E.
        injection E as E1 E2. subst v.
        apply table_cases in Ht as [(E & ? & ? & ?)|[[-> ?]|[[-> ?]|[-> ?]]]]; try done.
        { unfold string_escape in E. repeat (case_match; try done). }
        rewrite esc_92 in E2.
        apply (f_equal length) in E2. cbn [length] in E2.
        assert (HL := escape_lengths l Hw).
        assert (HV : length (lit_value l) = length l).
        { clear. induction l as [|[]]; cbn; congruence. }
        lia.
    + rewrite esc_48.
      2: { rewrite isdigit_text. cbn in Hd. by apply negb_true_iff. }
      intros E. change (48 =? 39) with false in Hb. change (48 =? 92) with false in Hb. cbn in Hb.
      injection E as E. by apply IH in E.
Qed.

(** * C emission *)
Lemma c_value_esc x w rest v :
  c_simple x = Some w -> c_value CPlain rest = Some v -> c_value CPlain (92 :: x :: rest) = Some (w :: v).
Proof. intros E H. cbn [c_value]. change (c_next CPlain 92) with (Some (CBack, @nil N)). cbn. rewrite E, H. done. Qed.
Lemma c_value_raw c rest v :
  c <> 92 -> c <> 34 -> c <> 10 -> c <> 0 ->
  c_value CPlain rest = Some v -> c_value CPlain (c :: rest) = Some (c :: v).
Proof.
  intros ?%N.eqb_neq H1%N.eqb_neq H2%N.eqb_neq H3%N.eqb_neq Hr.
  cbn [c_value]. unfold c_next, c_plain. rewrite H, H1, H2, H3. cbn. by rewrite Hr.
Qed.
Lemma print_decode c p rest v :
  0 < c -> printUtf8_char c true = Some p -> c_value CPlain rest = Some v ->
  c_value CPlain (p ++ rest) = Some (c :: v).
Proof.
  intros H0 Hp Hr. unfold printUtf8_char in Hp. cbn [andb] in Hp.
  destruct (N.eqb_spec c 0); [lia|].
  do 8 (match type of Hp with (if ?x =? ?k then _ else _) = _ =>
    destruct (N.eqb_spec x k); [subst; injection Hp as <-; by apply c_value_esc|] end).
  destruct (c <? 128); [|done]. injection Hp as <-. by apply c_value_raw.
Qed.

Lemma emit_decode s :
  plain_string s = true -> exists t, visitStringLit s = Some t /\ c_string t = Some s.
Proof.
  induction s as [|c s IH]; intros H; [by exists []|].
  cbn in H. apply andb_true_iff in H as [H Hs]. apply andb_true_iff in H as [H Hx].
  apply andb_true_iff in H as [H0 H128].
  destruct (IH Hs) as (t & Et & Ev). cbn [visitStringLit].
  rewrite (proj2 (N.eqb_neq c 0)) by lia. rewrite Et.
  assert (Ee : negb (c =? 92) || (negb (hd 0 s =? 120) && negb (hd 0 s =? 88) && negb (isdigit (hd 0 s))) = true).
  { destruct (c =? 92); [|done]. cbn in Hx |- *. destruct s as [|n s]; [done|]. cbn.
    unfold isdigit. destruct (n =? 120), (n =? 88); try done. }
  rewrite Ee.
  destruct (printUtf8_char c true) as [p|] eqn:Ep.
  - exists (p ++ t). split; [done|]. eapply print_decode; [lia|done|exact Ev].
  - exfalso. unfold printUtf8_char in Ep. by repeat (case_match; try done).
Qed.

Lemma emit_abort s :
  Forall (fun c => 0 < c) s -> (exists c, c ∈ s /\ 128 <= c) -> visitStringLit s = None.
Proof.
  induction s as [|c s IH]; intros Hf (x & Hx & H128); [by apply elem_of_nil in Hx|].
  apply Forall_cons_1 in Hf as [H0 Hf].
  cbn [visitStringLit]. rewrite (proj2 (N.eqb_neq c 0)) by lia.
  apply elem_of_cons in Hx as [-> | Hx].
  - replace (printUtf8_char c _) with (@None (list N)); [done|]. symmetry.
    unfold printUtf8_char.
    repeat match goal with |- (if ?e && (c =? ?k) then _ else _) = _ =>
      replace (c =? k) with false by lia; rewrite andb_false_r end.
    by replace (c <? 128) with false by lia.
  - rewrite (IH Hf (ex_intro _ x (conj Hx H128))). by destruct (printUtf8_char _ _).
Qed.
