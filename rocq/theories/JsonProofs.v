From Coq Require Import ZArith.
From stdpp Require Import list numbers.
From Verif Require Import FormatModel FormatSpec FormatProofs OutStreamModel OutStreamProofs JsonModel JsonSpec.
From Coq Require Import ZifyBool ZifyNat ZifyN.

Section ind.
  Context (P : ty → Prop).
  Context (Hb : P TyBool) (Hi : ∀ sg b, P (TyInt sg b)) (Hs : P TyStr) (Ho : ∀ t, P t → P (TyOpt t)).
  Context (Ht : ∀ ts, Forall P ts → P (TyTuple ts)).
  Context (Hf : ∀ fs, Forall (λ f, P (snd f)) fs → P (TyStruct fs)).
  Fixpoint ty_ind' (t : ty) : P t.
  Proof.
    refine (match t with
    | TyBool => Hb | TyInt sg b => Hi sg b | TyStr => Hs | TyOpt t => Ho t (ty_ind' t)
    | TyTuple ts => Ht ts ((fix go (ts : list ty) : Forall P ts :=
        match ts with [] => List.Forall_nil _ | t :: ts => List.Forall_cons _ _ _ (ty_ind' t) (go ts) end) ts)
    | TyStruct fs => Hf fs ((fix go (fs : list (text * ty)) : Forall (λ f, P (snd f)) fs :=
        match fs with [] => List.Forall_nil _ | f :: fs => List.Forall_cons _ _ _ (ty_ind' (snd f)) (go fs) end) fs)
    end).
  Defined.
End ind.

(** ** Rounding *)
Lemma round53_pos_exact n : (0 <= n)%Z → exact53 (round53_pos n).
Proof.
  intros Hn. unfold round53_pos. set (e := Z.max 0 (Z.log2 n - 52)).
  assert (He : (0 <= e)%Z) by lia.
  assert (Hq : (0 <= n / 2 ^ e < 2 ^ 53)%Z).
  { assert (Hp : (0 < 2 ^ e)%Z) by (apply Z.pow_pos_nonneg; lia).
    split; [by apply Z.div_pos|]. apply Z.div_lt_upper_bound; [done|].
    rewrite <- Z.pow_add_r by lia.
    destruct (Z.eq_dec n 0%Z) as [->|Hn0]; [apply Z.pow_pos_nonneg; lia|].
    pose proof (Z.log2_spec n ltac:(lia)) as [_ HL].
    eapply Z.lt_le_trans; [exact HL|]. apply Z.pow_le_mono_r; lia. }
  set (q := (n / 2 ^ e)%Z) in *. clearbody q.
  exists (if (2 ^ e <? 2 * (n mod 2 ^ e))%Z || (2 ^ e =? 2 * (n mod 2 ^ e))%Z && Z.odd q then (q + 1)%Z else q), e.
  split; [|done]. destruct (_ || _)%bool; lia.
Qed.
Lemma round53_exact z : exact53 (round53 z).
Proof.
  unfold round53. destruct (z <? 0)%Z eqn:E; [|apply round53_pos_exact; lia].
  destruct (round53_pos_exact (- z)) as (m & e & H1 & H2 & H3); [lia|].
  exists (- m)%Z, e. rewrite H3. split; [lia|]. split; [done|]. lia.
Qed.
Lemma round53_pos_id n : (0 <= n)%Z → exact53 n → round53_pos n = n.
Proof.
  intros Hn (m & k & Hm & Hk & E). unfold round53_pos. set (e := Z.max 0 (Z.log2 n - 52)).
  assert (Hp : (0 < 2 ^ e)%Z) by (apply Z.pow_pos_nonneg; lia).
  assert (D : (n mod 2 ^ e = 0)%Z).
  { destruct (Z.eq_dec e 0%Z) as [->|He]; [apply Z.mod_1_r|].
    assert (Hlog : Z.log2 n = (e + 52)%Z) by lia.
    assert (Hn0 : (0 < n)%Z).
    { destruct (Z.eq_dec n 0%Z) as [E0|]; [|lia]. rewrite E0 in Hlog. cbn in Hlog. lia. }
    pose proof (Z.log2_spec n Hn0) as [HL _]. rewrite Hlog in HL.
    assert (Hpk : (0 < 2 ^ k)%Z) by (apply Z.pow_pos_nonneg; lia).
    assert (Hm0 : (0 <= m)%Z) by nia.
    destruct (Z_le_gt_dec e k) as [Hek|Hek].
    - rewrite E. replace k with (k - e + e)%Z by lia. rewrite Z.pow_add_r by lia. rewrite Z.mul_assoc. by apply Z_mod_mult.
    - assert (k = (e - 1)%Z) as ->.
      { destruct (Z.eq_dec k (e - 1)%Z) as [|Hne]; [done|exfalso].
        assert (2 ^ 54 * 2 ^ k <= 2 ^ (e + 52))%Z.
        { rewrite <- Z.pow_add_r by lia. apply Z.pow_le_mono_r; lia. }
        change (2 ^ 54)%Z with (2 * 2 ^ 53)%Z in *. nia. }
      replace (e + 52)%Z with (53 + (e - 1))%Z in HL by lia. rewrite Z.pow_add_r in HL by lia.
      assert (m = (2 ^ 53)%Z) by nia. subst m.
      rewrite E. replace (2 ^ 53 * 2 ^ (e - 1))%Z with (2 ^ 52 * 2 ^ e)%Z; [by apply Z_mod_mult|].
      rewrite <- !Z.pow_add_r by lia. f_equal. lia. }
  rewrite D. replace (2 ^ e <? 2 * 0)%Z with false by lia. replace (2 ^ e =? 2 * 0)%Z with false by lia. cbn [orb andb].
  pose proof (Z.div_mod n (2 ^ e) ltac:(lia)). lia.
Qed.
Lemma round53_id z : exact53 z → round53 z = z.
Proof.
  intros H. unfold round53. destruct (z <? 0)%Z eqn:E; [|apply round53_pos_id; [lia|done]].
  rewrite round53_pos_id; [lia|lia|]. destruct H as (m & e & H1 & H2 & ->). exists (- m)%Z, e. lia.
Qed.
Lemma round53_neg z : (z < 0)%Z → (round53 z < 0)%Z.
Proof.
  intros H. unfold round53. replace (z <? 0)%Z with true by lia.
  assert (0 < round53_pos (- z))%Z; [|lia]. unfold round53_pos.
  set (e := Z.max 0 (Z.log2 (- z) - 52)). set (n := (- z)%Z) in *.
  assert (Hp : (0 < 2 ^ e)%Z) by (apply Z.pow_pos_nonneg; lia).
  assert (Hq : (1 <= n / 2 ^ e)%Z).
  { apply Z.div_le_lower_bound; [done|]. pose proof (Z.log2_spec n ltac:(lia)) as [HL _].
    rewrite Z.mul_1_r. destruct (Z.eq_dec e 0%Z) as [->|]; [cbn; lia|].
    etransitivity; [|exact HL]. apply Z.pow_le_mono_r; lia. }
  destruct (_ || _)%bool; nia.
Qed.

(** ** Lexing *)
Lemma skip_idem s : skipWhitespace (skipWhitespace s) = skipWhitespace s.
Proof. induction s as [|c s IH]; [done|]. cbn. destruct (isSpace c) eqn:E; [done|]. cbn. by rewrite E. Qed.
Lemma skip_cons c s : isSpace c = false → skipWhitespace (c :: s) = c :: s.
Proof. intros E. cbn. by rewrite E. Qed.
Lemma skip_space s : skipWhitespace (32%N :: s) = skipWhitespace s.
Proof. done. Qed.
Lemma take_while_app f a b : Forall (λ c, f c = true) a → match b with c :: _ => f c = false | [] => True end →
  take_while f (a ++ b) = (a, b).
Proof.
  intros Ha Hb. induction Ha as [|c a Hc Ha IH]; cbn.
  - destruct b as [|c b]; [done|]. cbn. by rewrite Hb.
  - by rewrite Hc, IH.
Qed.
Lemma take_while_all f s : Forall (λ c, f c = true) (fst (take_while f s)).
Proof.
  induction s as [|c s IH]; [constructor|]. cbn. destruct (f c) eqn:E; [|constructor].
  destruct (take_while f s). by constructor.
Qed.

Lemma len_ind (P : text → Prop) : (∀ s, (∀ s', length s' < length s → P s') → P s) → ∀ s, P s.
Proof.
  intros H s. assert (G : ∀ n t, length t < n → P t).
  { induction n as [|n IH]; intros t Ht; [lia|]. apply H. intros u Hu. apply IH. lia. }
  apply (G (S (length s))). lia.
Qed.

(** ** Strings *)
(** [qs p s]: [s] is fine behind a character that is a backslash if [p]. *)
Fixpoint qs (p : bool) (s : text) : Prop :=
  match s with
  | [] => p = false
  | c :: s => (c = 34%N → p = true) ∧ c ≠ 0%N ∧ qs (c =? 92)%N s
  end.
Lemma qs_iff s : ∀ p, qs p s ↔
  0%N ∉ s ∧ (∀ i, s !! i = Some 34%N → (i = 0 ∧ p = true) ∨ ∃ j, i = S j ∧ s !! j = Some 92%N) ∧
  match list.last s with Some c => c ≠ 92%N | None => p = false end.
Proof.
  induction s as [|c s IH]; intros p; cbn [qs].
  - split; [|by intros (_ & _ & H)]. intros ->. split; [apply not_elem_of_nil|]. split; [|done]. intros i H. by rewrite lookup_nil in H.
  - rewrite IH. rewrite not_elem_of_cons. split.
    + intros (H1 & H2 & H3 & H4 & H5). split; [split; congruence|]. split.
      * intros [|i] Hi; [left; split; [done|]; apply H1; by inversion Hi|]. right. exists i. split; [done|].
        cbn in Hi. destruct (H4 i Hi) as [[-> E]|(j & -> & Hj)]; [cbn; f_equal; lia|done].
      * rewrite last_cons. destruct (list.last s); [done|]. lia.
    + intros ((H1 & H2) & H3 & H4). split; [|split; [congruence|split; [done|split]]].
      * intros ->. destruct (H3 0 eq_refl) as [[_ ?]|(j & ? & _)]; [done|lia].
      * intros i Hi. destruct (H3 (S i) Hi) as [[? _]|(j & E & Hj)]; [lia|]. injection E as <-.
        destruct i as [|i]; [left; split; [done|]; cbn in Hj; injection Hj as ->; done|]. right. exists i. by split.
      * rewrite last_cons in H4. destruct (list.last s); [done|]. lia.
Qed.
Lemma plain_qs s : plain s ↔ qs false s.
Proof.
  rewrite qs_iff. unfold plain. split; intros (H1 & H2 & H3); (split; [done|]); split.
  - intros i Hi. right. by apply H2.
  - destruct (list.last s); [congruence|done].
  - intros i Hi. destruct (H2 i Hi) as [[_ ?]|?]; done.
  - destruct (list.last s); congruence.
Qed.
Lemma scan_app s : ∀ r, qs false s → scan (s ++ 34%N :: r) = (s, 34%N :: r).
Proof.
  induction s as [s IH] using len_ind. intros r H. destruct s as [|c s]; [done|]. destruct H as (H1 & H2 & H3).
  cbn [app scan]. replace (c =? 0)%N with false by lia. replace (c =? 34)%N with false by (destruct (c =? 34)%N eqn:E; [|done]; assert (c = 34%N) as Hc by lia; by apply H1 in Hc).
  destruct (c =? 92)%N eqn:E; cbn [andb].
  - destruct s as [|d s]; [done|]. cbn [app]. destruct H3 as (H3 & H4 & H5). destruct (d =? 34)%N eqn:Ed.
    + rewrite IH; [done|cbn; lia|]. by replace (d =? 92)%N with false in H5 by lia.
    + replace (d :: s ++ 34%N :: r) with ((d :: s) ++ 34%N :: r) by done. rewrite IH; [done|cbn; lia|]. split; [lia|done].
  - by rewrite IH by (done || cbn; lia).
Qed.
Lemma scan_good s : ∀ a b, scan s = (a, 34%N :: b) → s = a ++ 34%N :: b ∧ qs false a.
Proof.
  induction s as [s IH] using len_ind. intros a b H. destruct s as [|c s]; [done|]. cbn [scan] in H.
  destruct (c =? 0)%N eqn:E0; [inversion H; subst; lia|].
  destruct (c =? 92)%N eqn:E; cbn [andb] in H.
  - assert (c = 92%N) as -> by lia. destruct s as [|d s]; [by inversion H|]. destruct (d =? 34)%N eqn:Ed.
    + destruct (scan s) as [a' b'] eqn:Es. injection H as <- ->. destruct (IH s ltac:(cbn; lia) a' b Es) as [-> Q].
      split; [done|]. cbn [qs]. assert (d = 34%N) as -> by lia. split; [done|]. split; [done|]. split; [done|]. by split.
    + change (92 =? 34)%N with false in H. cbv iota in H.
      destruct (scan (d :: s)) as [a' b'] eqn:Es. injection H as <- ->. destruct (IH (d :: s) ltac:(cbn; lia) a' b Es) as [Eq Q].
      rewrite Eq. split; [done|]. cbn [qs]. split; [done|]. split; [done|]. cbn. destruct a' as [|x a']; [inversion Eq; subst; lia|].
      destruct Q as (Q1 & Q2 & Q3). split; [done|]. by split.
  - destruct (c =? 34)%N eqn:Ec; [inversion H; split; done|].
    destruct (scan s) as [a' b'] eqn:Es. injection H as <- ->. destruct (IH s ltac:(cbn; lia) a' b Es) as [-> Q].
    split; [done|]. cbn [qs]. split; [lia|]. split; [lia|]. by rewrite E.
Qed.
Lemma expectString_quoted s r : plain s → expectString (quote ++ s ++ quote ++ r) = JOk s r.
Proof. intros H. apply plain_qs in H. unfold expectString, quote. cbn [app]. rewrite skip_cons by done. cbn. by rewrite scan_app. Qed.
Lemma expectString_good s a r : expectString s = JOk a r → plain a.
Proof.
  unfold expectString. destruct (skipWhitespace s) as [|c s']; [done|]. destruct (c =? 34)%N; [|done].
  destruct (scan s') as [x y] eqn:E. destruct y as [|d y]; [done|]. destruct (d =? 34)%N eqn:Ed; [|done].
  intros H. inversion H; subst. assert (d = 34%N) as -> by lia. apply plain_qs. by eapply scan_good.
Qed.

(** ** Numbers *)
(** What may follow a value. *)
Definition stops (r : text) : Prop := match r with [] => True | c :: _ => c = 44%N ∨ c = 93%N ∨ c = 125%N end.
Lemma digits_val_app ds : ∀ n, Forall (λ c, 48 <= c ∧ c <= 57)%N ds →
  fold_left (λ n c, n * 10 + (Z.of_N c - 48))%Z ds (Z.of_N n) = Z.of_N (fold_left (λ a c, 10 * a + (c - 48))%N ds n).
Proof.
  induction ds as [|d ds IH]; intros n H; [done|]. apply list.Forall_cons in H as [[H1 H2] H]. cbn [fold_left].
  rewrite <- IH by done. f_equal. lia.
Qed.
Lemma digits_ok n : (n < 10 ^ 20)%N → ∃ ds, digits 20 n = ds ∧ ds ≠ [] ∧ Forall (λ c, isDigit c = true) ds ∧ digits_val ds = Z.of_N n.
Proof.
  intros H. destruct (digits_is_decimal 20 n) as (H1 & H2 & H3 & _).
  { eapply N.lt_le_trans; [exact H|]. by apply N.pow_le_mono_r. }
  exists (digits 20 n). split; [done|]. split; [done|]. split.
  - eapply List.Forall_impl; [|exact H2]. intros c [? ?]. unfold isDigit. lia.
  - unfold digits_val. rewrite (digits_val_app _ 0%N) by done. f_equal. exact H3.
Qed.
Lemma stops_next r : stops r →
  let next := match r with c :: _ => c | [] => 0%N end in
  (next =? 46)%N || (next =? 69)%N || (next =? 101)%N = false ∧ (next =? 88)%N || (next =? 120)%N = false ∧
  match r with c :: _ => isDigit c = false | [] => True end.
Proof. destruct r as [|c r]; [done|]. cbn. unfold isDigit. lia. Qed.
Lemma expectFloat_print z r : (- 2 ^ 63 <= z < 2 ^ 63)%Z → stops r → expectFloat (print_signed z ++ r) = JOk (round53 z) r.
Proof.
  intros Hz Hr. destruct (stops_next r Hr) as (S1 & S2 & S3). unfold print_signed.
  change (2 ^ 63)%Z with 9223372036854775808%Z in Hz.
  destruct (z <? 0)%Z eqn:E.
  - destruct (digits_ok (Z.to_N (- z))) as (ds & -> & D1 & D2 & D3); [change (10 ^ 20)%N with 100000000000000000000%N; lia|].
    unfold expectFloat. cbn [app]. rewrite skip_cons by done. change (45 =? 45)%N with true. cbv iota beta.
    rewrite take_while_app by done. cbv zeta. rewrite S1, S2, andb_false_r. cbn [orb]. destruct ds as [|d ds]; [done|].
    rewrite D3. do 2 f_equal. lia.
  - destruct (digits_ok (Z.to_N z)) as (ds & -> & D1 & D2 & D3); [change (10 ^ 20)%N with 100000000000000000000%N; lia|].
    unfold expectFloat. destruct ds as [|d ds]; [done|]. pose proof D2 as D2'. apply list.Forall_cons in D2' as [Dd _]. unfold isDigit in Dd.
    cbn [app]. rewrite skip_cons by (unfold isSpace; lia). replace (d =? 45)%N with false by lia. cbv iota beta.
    change (d :: ds ++ r) with ((d :: ds) ++ r).
    rewrite take_while_app by done. cbv zeta. rewrite S1, S2, andb_false_r. cbn [orb].
    rewrite D3. do 2 f_equal. lia.
Qed.
Lemma fits_in sg b z : in_range sg b z = true ↔ fits sg b z.
Proof. unfold in_range, fits. destruct sg; lia. Qed.
Lemma expectFloat_exact s z r : expectFloat s = JOk z r → exact53 z.
Proof.
  unfold expectFloat. destruct (skipWhitespace s) as [|c s']; cbn.
  - done.
  - destruct (if (c =? 45)%N then _ else _) as [neg s1]. destruct (take_while isDigit s1) as [ds s2]. cbv zeta.
    destruct (_ || _)%bool; [done|]. destruct ds; [done|]. intros H. inversion H. apply round53_exact.
Qed.

(** ** One value *)
Lemma parse_skip t s : parseJSON t (skipWhitespace s) = parseJSON t s.
Proof.
  destruct t; cbn [parseJSON]; unfold expectBool, expectInteger, expectFloat, expectString, matchNull, expectChar; rewrite ?skip_idem; done.
Qed.
Lemma parse_space t s : parseJSON t (32%N :: s) = parseJSON t s.
Proof. rewrite <- parse_skip. rewrite skip_space. apply parse_skip. Qed.

Definition elems : bool → list ty → text → jres (list value) :=
  fix go (first : bool) (ts : list ty) (s : text) : jres (list value) :=
      match ts with
      | [] => JOk [] s
      | t :: ts =>
        jbind (if first then JOk () s else expectChar 44 s) (λ _ s,
        jbind (parseJSON t s) (λ v s,
        jbind (go false ts s) (λ vs s, JOk (v :: vs) s)))
      end.
Lemma parse_tuple ts s : parseJSON (TyTuple ts) s =
  jbind (expectChar 91 s) (λ _ s, jbind (elems true ts s) (λ vs s, jbind (expectChar 93 s) (λ _ s, JOk (VTuple vs) s))).
Proof. done. Qed.
Definition ftext (f : text * ty) (v : value) : text := quote ++ fst f ++ quote ++ [58; 32]%N ++ toJSON (snd f) v.
Lemma print_tuple ts vs : toJSON (TyTuple ts) (VTuple vs) = [91%N] ++ joined (zip_with toJSON ts vs) ++ [93%N].
Proof. done. Qed.
Lemma print_struct fs vs : toJSON (TyStruct fs) (VTuple vs) = [123%N] ++ joined (zip_with ftext fs vs) ++ [125%N].
Proof. cbn [toJSON]. cbn [app]. f_equal. do 2 f_equal. revert vs. induction fs as [|[n t] fs IH]; intros [|v vs]; try done. cbn. by rewrite IH. Qed.

(** ** Whatever is parsed *)
Lemma matchNull_skip s : matchNull (skipWhitespace s) = matchNull s.
Proof. unfold matchNull. by rewrite skip_idem. Qed.
Lemma not_absent t : ∀ s v r, parseJSON t s = JOk v r → matchNull s = None → ¬ absent v.
Proof.
  induction t as [| | |t IH| |]; intros s v r H Hn Ha; cbn [parseJSON] in H.
  - destruct (expectBool s); inversion H; subst. inversion Ha.
  - destruct (expectInteger signed bits s); inversion H; subst. inversion Ha.
  - destruct (expectString s); inversion H; subst. inversion Ha.
  - rewrite Hn in H. destruct (parseJSON t (skipWhitespace s)) as [w r'| | |] eqn:E; inversion H; subst.
    inversion Ha; subst. eapply IH; [exact E| |done]. by rewrite matchNull_skip.
  - fold elems in H. destruct (expectChar 91 s) as [? s1| | |]; try done. cbn [jbind] in H.
    destruct (elems true ts s1) as [vs s2| | |]; try done. cbn [jbind] in H.
    destruct (expectChar 93 s2) as [? s3| | |]; try done. inversion H; subst. inversion Ha.
  - destruct (expectChar 123 s) as [? s1| | |]; try done. cbn [jbind] in H.
    destruct (fields _ _ _ s1) as [vs s2| | |]; try done. cbn [jbind] in H.
    destruct (expectChar 125 s2) as [? s3| | |]; try done. cbn [jbind] in H.
    destruct (all_some vs); inversion H; subst. inversion Ha.
Qed.
Lemma index_of_lookup {A} key (fs : list (text * A)) : ∀ i p, index_of key fs = Some (i, p) → fs !! i = Some (key, p).
Proof.
  induction fs as [|[n q] fs IH]; intros i p H; [done|]. cbn in H. case_bool_decide.
  - by inversion H; subst.
  - destruct (index_of key fs) as [[j q']|] eqn:E; [|done]. inversion H; subst. cbn. by apply IH.
Qed.
Lemma fields_inv (Q : nat → value → Prop) fs :
  (∀ i n p s v r, fs !! i = Some (n, p) → p s = JOk v r → Q i v) →
  ∀ fuel acc s acc' r, fields fuel fs acc s = JOk acc' r → (∀ i v, acc !! i = Some (Some v) → Q i v) →
    length acc' = length acc ∧ ∀ i v, acc' !! i = Some (Some v) → Q i v.
Proof.
  intros Hp. induction fuel as [|fuel IH]; intros acc s acc' r H Ha; [done|]. cbn [fields] in H. cbv zeta in H.
  destruct (match skipWhitespace s with [] => _ | _ => _ end); [by inversion H; subst|].
  destruct (expectString _) as [key s1| | |]; try done. cbn [jbind] in H.
  destruct (expectChar 58 s1) as [? s2| | |]; try done. cbn [jbind] in H.
  destruct (index_of key fs) as [[i p]|] eqn:Ei; [|done].
  destruct (p s2) as [v s3| | |] eqn:Ev; try done. cbn [jbind] in H.
  apply IH in H as [H1 H2].
  - split; [|done]. by rewrite H1, insert_length.
  - intros j w. rewrite list_lookup_insert_Some. intros [(-> & E & _)|[_ E]]; [|by apply Ha].
    inversion E; subst. eapply Hp; [by apply index_of_lookup|done].
Qed.
Lemma all_some_map {A} (l : list (option A)) vs : all_some l = Some vs ↔ l = map Some vs.
Proof.
  revert vs. induction l as [|[a|] l IH]; intros vs; cbn.
  - destruct vs; by split.
  - destruct (all_some l) as [ws|]; cbn.
    + split; [intros [= <-]; cbn; f_equal; by apply IH|]. destruct vs as [|v vs]; [done|]. cbn. intros [= -> E]. apply IH in E. congruence.
    + split; [done|]. destruct vs as [|v vs]; [done|]. cbn. intros [= -> E]. apply IH in E. congruence.
  - split; [done|]. by destruct vs.
Qed.
Lemma elems_parsed ts : Forall (λ t, ∀ s v r, parseJSON t s = JOk v r → parsed t v) ts →
  ∀ b s vs r, elems b ts s = JOk vs r → Forall2 parsed ts vs.
Proof.
  intros H. induction H as [|t ts Ht _ IH]; intros b s vs r E; cbn in E; [inversion E; constructor|].
  destruct (if b then _ else _) as [? s1| | |]; try done. cbn [jbind] in E.
  destruct (parseJSON t s1) as [v s2| | |] eqn:Ev; try done. cbn [jbind] in E.
  destruct (elems false ts s2) as [ws s3| | |] eqn:Ew; try done. cbn in E. inversion E; subst. constructor; [by eapply Ht|by eapply IH].
Qed.
Lemma parse_parsed t : ∀ s v r, parseJSON t s = JOk v r → parsed t v.
Proof.
  induction t as [|sg b| |t IH|ts IH|fs IH] using ty_ind'; intros s v r H.
  - cbn in H. destruct (expectBool s); inversion H; subst. constructor.
  - cbn in H. unfold expectInteger in H. destruct (expectFloat s) as [z s1| | |] eqn:E; try done. cbn in H.
    destruct (in_range sg b z) eqn:Ei; inversion H; subst. constructor; [by eapply expectFloat_exact|by apply fits_in].
  - cbn in H. destruct (expectString s) eqn:E; inversion H; subst. constructor. by eapply expectString_good.
  - cbn [parseJSON] in H. destruct (matchNull s) eqn:En; [inversion H; subst; constructor|].
    destruct (parseJSON t (skipWhitespace s)) as [w r'| | |] eqn:E; inversion H; subst.
    constructor; [by eapply IH|]. eapply not_absent; [exact E|]. by rewrite matchNull_skip.
  - rewrite parse_tuple in H. destruct (expectChar 91 s) as [? s1| | |]; try done. cbn [jbind] in H.
    destruct (elems true ts s1) as [vs s2| | |] eqn:E; try done. cbn [jbind] in H.
    destruct (expectChar 93 s2) as [? s3| | |]; try done. inversion H; subst. constructor. by eapply elems_parsed.
  - cbn [parseJSON] in H. destruct (expectChar 123 s) as [? s1| | |]; try done. cbn [jbind] in H.
    destruct (fields _ _ _ s1) as [acc s2| | |] eqn:E; try done. cbn [jbind] in H.
    destruct (expectChar 125 s2) as [? s3| | |]; try done. cbn [jbind] in H.
    destruct (all_some acc) as [vs|] eqn:Ea; inversion H; subst. apply all_some_map in Ea. subst acc. constructor.
    eapply (fields_inv (λ i v, ∃ f, fs !! i = Some f ∧ parsed (snd f) v)) in E as [E1 E2].
    + rewrite !map_length in E1. apply Forall2_same_length_lookup. split; [by rewrite map_length|].
      intros i t w Ht Hw. destruct (E2 i w) as (f & Hf & Hp).
      { change (map Some vs) with (Some <$> vs). by rewrite list_lookup_fmap, Hw. }
      change (map snd fs) with (snd <$> fs) in Ht. rewrite list_lookup_fmap, Hf in Ht. by inversion Ht; subst.
    + intros i n p s0 w r0 Hi Hw. change (map ?f fs) with (f <$> fs) in Hi. rewrite list_lookup_fmap in Hi.
      destruct (fs !! i) as [f|] eqn:Ef; [|done]. inversion Hi; subst. exists f. split; [done|].
      rewrite Forall_lookup in IH. by eapply IH.
    + intros i w Hi. change (map (λ _ : text * ty, None) fs) with ((λ _ : text * ty, @None value) <$> fs) in Hi.
      rewrite list_lookup_fmap in Hi. by destruct (fs !! i).
Qed.

(** ** What is printed *)
Lemma head_ok t : ∀ v, wt t v → ∃ c x, toJSON t v = c :: x ∧ isSpace c = false ∧ (¬ absent v → c ≠ 110%N).
Proof.
  induction t as [|sg b| |t IH|ts|fs]; intros v H; inversion H; subst.
  - destruct b; eexists _, _; (split; [reflexivity|done]).
  - cbn [toJSON]. unfold print_integer, print_signed. destruct (_ <? 0)%Z; [eexists _, _; split; [reflexivity|done]|].
    destruct (digits_ok (Z.to_N (to_i64 z))) as (ds & -> & D1 & D2 & _).
    { unfold to_i64. change (2 ^ 63)%Z with 9223372036854775808%Z. change (2 ^ 64)%Z with 18446744073709551616%Z.
      change (10 ^ 20)%N with 100000000000000000000%N.
      pose proof (Z.mod_pos_bound (z + 9223372036854775808) 18446744073709551616). lia. }
    destruct ds as [|d ds]; [done|]. apply list.Forall_cons in D2 as [D2 _]. unfold isDigit in D2. unfold isSpace. exists d, ds. split; [done|]. lia.
  - eexists _, _. split; [reflexivity|done].
  - exists 110%N. eexists. split; [reflexivity|]. split; [done|]. intros H1. exfalso. apply H1. constructor.
  - destruct (IH v0) as (c & x & E & X1 & X2); [done|]. exists c, x. split; [done|]. split; [done|].
    intros Ha. apply X2. intros Ha'. apply Ha. by constructor.
  - eexists _, _. split; [reflexivity|done].
  - eexists _, _. split; [reflexivity|done].
Qed.
Definition comb (t : ty) (v : value) (r : text) : Prop :=
  (good t v ∧ parseJSON t (toJSON t v ++ r) = JOk v r) ∨ (¬ good t v ∧ parseJSON t (toJSON t v ++ r) = JUndef).
Definition tail_text (l : list text) : text := concat (map (λ x, [44; 32]%N ++ x) l).
Lemma joined_cons a l : joined (a :: l) = a ++ tail_text l.
Proof.
  revert a. induction l as [|b l IH]; intros a; [by rewrite app_nil_r|].
  change (joined (a :: b :: l)) with (a ++ [44; 32]%N ++ joined (b :: l)). rewrite IH. unfold tail_text. cbn. done.
Qed.
Lemma tail_cons x l : tail_text (x :: l) = 44%N :: 32%N :: x ++ tail_text l.
Proof. done. Qed.
Lemma stops_tail l r : stops r → stops (tail_text l ++ r).
Proof. destruct l; [done|]. intros _. by left. Qed.
Lemma elems_comb ts : Forall (λ t, ∀ v r, wt t v → parsed t v → stops r → comb t v r) ts →
  ∀ vs r, Forall2 wt ts vs → Forall2 parsed ts vs → stops r →
  let s := tail_text (zip_with toJSON ts vs) ++ r in
  (Forall2 good ts vs ∧ elems false ts s = JOk vs r) ∨ (¬ Forall2 good ts vs ∧ elems false ts s = JUndef).
Proof.
  intros H. induction H as [|t ts Ht _ IH]; intros vs r Hw Hp Hr.
  - inversion Hw; subst. left. by split.
  - inversion Hw as [|? v ? vs' Hv Hvs]; subst. inversion Hp; subst. cbn [zip_with elems]. rewrite tail_cons. cbn [app]. rewrite <- app_assoc. cbv zeta.
    unfold expectChar. rewrite skip_cons by done. cbn [jbind]. change (44 =? 44)%N with true. cbv iota. cbn [jbind].
    rewrite parse_space.
    destruct (Ht v (tail_text (zip_with toJSON ts vs') ++ r)) as [[G ->]|[G ->]]; try done; [by apply stops_tail| |].
    + cbn [jbind]. destruct (IH vs' r) as [[G' ->]|[G' ->]]; try done.
      * left. split; [by constructor|done].
      * right. split; [|done]. intros Q. by inversion Q.
    + right. split; [|done]. intros Q. by inversion Q.
Qed.
Lemma ident_plain n : Forall ident_char n → plain n.
Proof.
  intros H. rewrite list.Forall_forall in H. unfold ident_char in H. split; [|split].
  - intros Hi. apply H in Hi. lia.
  - intros i Hi. apply elem_of_list_lookup_2 in Hi. apply H in Hi. lia.
  - intros Hl. apply last_Some_elem_of in Hl. apply H in Hl. lia.
Qed.
Lemma index_of_middle {A} n (p : A) fs1 fs2 : n ∉ map fst fs1 → index_of n (fs1 ++ (n, p) :: fs2) = Some (length fs1, p).
Proof.
  induction fs1 as [|[m q] fs1 IH]; intros H; cbn.
  - by rewrite bool_decide_eq_true_2.
  - cbn in H. apply not_elem_of_cons in H as [H1 H2]. rewrite bool_decide_eq_false_2 by congruence. by rewrite IH.
Qed.
Lemma fields_space fuel FS acc s : fields fuel FS acc (32%N :: s) = fields fuel FS acc s.
Proof. by destruct fuel. Qed.
Notation parsers fs := (map (λ f : text * ty, (fst f, parseJSON (snd f))) fs).
Notation nones fs := (map (λ _ : text * ty, @None value) fs).
Lemma fields_comb fs2 : Forall (λ f : text * ty, ∀ v r, wt (snd f) v → parsed (snd f) v → stops r → comb (snd f) v r) fs2 →
  ∀ fs1 vs1 vs2 fuel r, NoDup (map fst (fs1 ++ fs2)) → Forall (Forall ident_char) (map fst fs2) → length vs1 = length fs1 →
  Forall2 wt (map snd fs2) vs2 → Forall2 parsed (map snd fs2) vs2 → length fs2 < fuel →
  let R := fields fuel (parsers (fs1 ++ fs2)) (map Some vs1 ++ nones fs2) (joined (zip_with ftext fs2 vs2) ++ 125%N :: r) in
  (Forall2 good (map snd fs2) vs2 ∧ R = JOk (map Some (vs1 ++ vs2)) (125%N :: r)) ∨ (¬ Forall2 good (map snd fs2) vs2 ∧ R = JUndef).
Proof.
  intros H. induction H as [|[n t] fs2 Ht _ IH]; intros fs1 vs1 vs2 fuel r Hn Hi Hl Hw Hp Hf; cbn [map] in Hw, Hp, Hi.
  - inversion Hw; subst. destruct fuel as [|fuel]; [cbn in Hf; lia|]. left. split; [constructor|]. cbn [zip_with joined app fields map].
    rewrite skip_cons by done. cbn. by rewrite !app_nil_r.
  - inversion Hw as [|? v ? vs' Hv Hvs]; subst. inversion Hp as [|? ? ? ? Pv Pvs]; subst. cbn [snd] in *. apply list.Forall_cons in Hi as [In Ifs].
    destruct fuel as [|fuel]; [cbn in Hf; lia|]. cbn [length] in Hf.
    set (R := fields (S fuel) _ _ _). set (X := tail_text (zip_with ftext fs2 vs') ++ 125%N :: r).
    assert (HX : stops X) by (apply stops_tail; right; by right).
    assert (ER : R = jbind (parseJSON t (toJSON t v ++ X)) (λ v s, fields fuel (parsers (fs1 ++ (n, t) :: fs2)) (<[length fs1 := Some v]> (map Some vs1 ++ nones ((n, t) :: fs2))) (consumeChar 44 s))).
    { unfold R. cbn [zip_with]. rewrite joined_cons. unfold ftext at 1. cbn [fst snd]. rewrite <- !app_assoc. fold X.
      cbn [fields]. cbv zeta.
      replace (skipWhitespace (quote ++ n ++ quote ++ [58%N; 32%N] ++ toJSON t v ++ X)) with (quote ++ n ++ quote ++ [58%N; 32%N] ++ toJSON t v ++ X) by done.
      replace (match quote ++ n ++ quote ++ [58%N; 32%N] ++ toJSON t v ++ X with [] => false | c :: _ => (c =? 125)%N end) with false by done.
      rewrite expectString_quoted by (by apply ident_plain). cbn [jbind]. unfold expectChar at 1. cbn [app]. rewrite skip_cons by done.
      change (58 =? 58)%N with true. cbv iota. cbn [jbind].
      rewrite (map_app _ fs1). cbn [map fst snd]. rewrite index_of_middle.
      2:{ rewrite map_map. cbn [fst]. rewrite map_app in Hn. apply NoDup_app in Hn as (_ & Hn & _). intros Hi. apply (Hn n); [done|]. left. }
      by rewrite parse_space, map_length. }
    rewrite ER. clear ER R. destruct (Ht v X) as [[G Ev]|[G Ev]]; try done; cbn [snd] in G, Ev; rewrite Ev; cbn [jbind].
    2:{ right. split; [|done]. intros Q. by inversion Q. }
    cbn [map].
    rewrite insert_app_r_alt by (rewrite map_length; lia). rewrite map_length, Hl, Nat.sub_diag.
    change (<[0:=Some v]> (None :: nones fs2)) with ([Some v] ++ nones fs2). rewrite app_assoc.
    change [Some v] with (map Some [v]). rewrite <- map_app.
    replace (parsers (fs1 ++ (n, t) :: fs2)) with (parsers ((fs1 ++ [(n, t)]) ++ fs2)) by (by rewrite <- app_assoc).
    assert (Ec : fields fuel (parsers ((fs1 ++ [(n, t)]) ++ fs2)) (map Some (vs1 ++ [v]) ++ nones fs2) (consumeChar 44 X) =
                 fields fuel (parsers ((fs1 ++ [(n, t)]) ++ fs2)) (map Some (vs1 ++ [v]) ++ nones fs2) (joined (zip_with ftext fs2 vs') ++ 125%N :: r)).
    { subst X. destruct (zip_with ftext fs2 vs') as [|x l]; [done|]. rewrite joined_cons, tail_cons. cbn [app].
      unfold consumeChar. cbv zeta. rewrite skip_cons by done. change (44 =? 44)%N with true. cbv iota. by rewrite fields_space. }
    rewrite Ec.
    destruct (IH (fs1 ++ [(n, t)]) (vs1 ++ [v]) vs' fuel r) as [[G' ->]|[G' ->]]; try done.
    + by rewrite <- app_assoc.
    + rewrite !app_length. cbn. lia.
    + lia.
    + left. split; [by constructor|]. by rewrite <- app_assoc.
    + right. split; [|done]. intros Q. by inversion Q.
Qed.
Lemma joined_length fs vs : length (zip_with ftext fs vs) ≤ length (joined (zip_with ftext fs vs)).
Proof.
  revert vs. induction fs as [|f fs IH]; intros [|v vs]; cbn [zip_with]; try (cbn; lia). specialize (IH vs).
  rewrite joined_cons. destruct (zip_with ftext fs vs) as [|x l] eqn:E.
  - unfold ftext. cbn. lia.
  - rewrite joined_cons in IH. rewrite tail_cons. cbn [length] in *. rewrite !app_length in *. cbn [length] in *. rewrite app_length. lia.
Qed.
Lemma print_comb t : ∀ v r, wt t v → parsed t v → stops r → comb t v r.
Proof.
  induction t as [|sg b| |t IH|ts IH|fs IH] using ty_ind'; intros v r Hw Hp Hr; unfold comb.
  - inversion Hw; subst. left. split; [constructor|]. cbn [parseJSON toJSON]. unfold expectBool.
    assert (E : skipWhitespace (bool_text b ++ r) = bool_text b ++ r) by (by destruct b). rewrite E.
    rewrite take_while_app; [by destruct b|destruct b; cbn; repeat constructor|]. destruct r as [|c r]; [done|]. cbn in Hr. unfold isAlpha. lia.
  - inversion Hw as [|? ? z Hb Hf| | | | |]; subst. inversion Hp as [|? ? ? He _| | | | |]; subst. cbn [parseJSON toJSON]. unfold expectInteger, print_integer.
    assert (Hz : (- 2 ^ 63 <= z < 2 ^ 64)%Z).
    { unfold fits in Hf. rewrite !elem_of_cons, elem_of_nil in Hb. change (2 ^ 63)%Z with 9223372036854775808%Z. change (2 ^ 64)%Z with 18446744073709551616%Z.
      destruct Hb as [->|[->|[->|[->|[]]]]]; destruct sg; cbn in Hf; lia. }
    destruct (Z_lt_ge_dec z (2 ^ 63)) as [Hs|Hs].
    + left. split; [by constructor|]. rewrite to_i64_small by lia. rewrite expectFloat_print by (done || lia). cbn [jbind].
      rewrite round53_id by done. by rewrite (proj2 (fits_in _ _ _) Hf).
    + right. split; [intros Q; inversion Q; lia|]. rewrite to_i64_big by lia.
      rewrite expectFloat_print; [|change (2 ^ 63)%Z with 9223372036854775808%Z in *; change (2 ^ 64)%Z with 18446744073709551616%Z in *; lia|done].
      cbn [jbind]. pose proof (round53_neg (z - 2 ^ 64) ltac:(lia)) as Hneg.
      replace (in_range sg b (round53 (z - 2 ^ 64))) with false; [done|]. symmetry.
      destruct sg; [|unfold in_range; lia]. exfalso. unfold fits in Hf. rewrite !elem_of_cons, elem_of_nil in Hb. change (2 ^ 63)%Z with 9223372036854775808%Z in Hs.
      destruct Hb as [->|[->|[->|[->|[]]]]]; cbn in Hf; lia.
  - inversion Hp; subst. left. split; [by constructor|]. cbn [parseJSON toJSON]. rewrite <- !app_assoc. by rewrite expectString_quoted.
  - inversion Hw as [| | | |? w Hv| |]; subst.
    + left. split; [constructor|]. done.
    + inversion Hp as [| | | |? ? Pv Na| |]; subst. cbn [parseJSON toJSON].
      destruct (head_ok t w Hv) as (c & x & Et & H1 & H2).
      assert (En : matchNull (toJSON t w ++ r) = None).
      { unfold matchNull. rewrite Et. cbn [app]. rewrite skip_cons by done. cbn [take]. rewrite bool_decide_eq_false_2; [done|].
        specialize (H2 Na). unfold null_text. congruence. }
      rewrite En, parse_skip. destruct (IH w r) as [[G ->]|[G ->]]; try done.
      * left. split; [by constructor|done].
      * right. split; [|done]. intros Q. by inversion Q.
  - inversion Hw as [| | | | |? vs Hvs|]; subst. inversion Hp; subst. rewrite print_tuple, parse_tuple. rewrite <- !app_assoc.
    unfold expectChar at 1 3. cbn [app]. rewrite skip_cons by done. change (91 =? 91)%N with true. cbv iota. cbn [jbind].
    assert (E : (Forall2 good ts vs ∧ elems true ts (joined (zip_with toJSON ts vs) ++ 93%N :: r) = JOk vs (93%N :: r)) ∨
                (¬ Forall2 good ts vs ∧ elems true ts (joined (zip_with toJSON ts vs) ++ 93%N :: r) = JUndef)).
    { destruct ts as [|t ts]; [inversion Hvs; subst; left; by split|]. inversion Hvs as [|? v ? vs' Hv Hvs']; subst.
      apply list.Forall_cons in IH as [IHt IH].
      match goal with P : Forall2 parsed _ _ |- _ => inversion P; subst end.
      cbn [zip_with elems]. rewrite joined_cons, <- app_assoc. cbn [jbind].
      assert (S93 : stops (93%N :: r)) by (right; by left).
      destruct (IHt v (tail_text (zip_with toJSON ts vs') ++ 93%N :: r)) as [[G ->]|[G ->]]; try done; [by apply stops_tail| |].
      - cbn [jbind]. destruct (elems_comb ts IH vs' (93%N :: r)) as [[G' E]|[G' E]]; try done; cbv zeta in E; rewrite E.
        + left. split; [by constructor|done].
        + right. split; [|done]. intros Q. by inversion Q.
      - right. split; [|done]. intros Q. by inversion Q. }
    destruct E as [[G ->]|[G ->]]; cbn [jbind].
    + left. by split; [constructor|].
    + right. split; [|done]. intros Q. by inversion Q.
  - inversion Hw as [| | | | | |? vs Hn Hi Hvs]; subst. inversion Hp; subst. rewrite print_struct. rewrite <- !app_assoc.
    cbn [parseJSON]. unfold expectChar at 1 3. cbn [app]. rewrite skip_cons by done. change (123 =? 123)%N with true. cbv iota. cbn [jbind].
    destruct (fields_comb fs IH [] [] vs (S (length (joined (zip_with ftext fs vs) ++ 125%N :: r))) r) as [[G E]|[G E]]; try done.
    + pose proof (joined_length fs vs) as HL. rewrite zip_with_length in HL. apply Forall2_length in Hvs. rewrite map_length in Hvs.
      rewrite app_length. lia.
    + cbn [app map] in E. rewrite E. cbn [jbind]. left. split; [by constructor|]. change (expectChar 125 (125%N :: r)) with (@JOk unit () r). cbn [jbind].
      by rewrite (proj2 (all_some_map _ _) eq_refl).
    + cbn [app map] in E. rewrite E. right. split; [|done]. intros Q. by inversion Q.
Qed.
Lemma good_parsed t : ∀ v, wt t v → good t v → parsed t v.
Proof.
  assert (L : ∀ ts, Forall (λ t, ∀ v, wt t v → good t v → parsed t v) ts → ∀ vs, Forall2 wt ts vs → Forall2 good ts vs → Forall2 parsed ts vs).
  { intros ts H. induction H as [|u ts Ht _ IH]; intros vs Hw Hg; inversion Hw; subst; [constructor|]. inversion Hg; subst. constructor; auto. }
  induction t as [|sg b| |t IH|ts IH|fs IH] using ty_ind'; intros v Hw Hg; inversion Hg; subst; inversion Hw; subst; constructor; auto.
  apply L; auto. clear -IH. induction IH; cbn; constructor; auto.
Qed.
Theorem round_trip t v : wt t v → (parseJSON t (toJSON t v) = JOk v [] ↔ good t v).
Proof.
  intros Hw. pose proof (λ P, print_comb t v [] Hw P I) as C. unfold comb in C. rewrite app_nil_r in C. split.
  - intros H. destruct (C (parse_parsed _ _ _ _ H)) as [[G _]|[_ E]]; [done|congruence].
  - intros G. destruct (C (good_parsed _ _ Hw G)) as [[_ E]|[G' _]]; [done|]. by apply G' in G.
Qed.
Lemma idents_dec l : forallb (forallb (λ c, isDigit c || isAlpha c || (c =? 95)%N)) l = true → Forall (Forall ident_char) l.
Proof.
  rewrite forallb_forall. intros H. apply list.Forall_forall. intros n Hn. apply elem_of_list_In in Hn. apply H in Hn.
  rewrite forallb_forall in Hn. apply list.Forall_forall. intros c Hc. apply elem_of_list_In in Hc. apply Hn in Hc.
  unfold isDigit, isAlpha in Hc. unfold ident_char. lia.
Qed.
