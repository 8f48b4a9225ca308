From stdpp Require Import list numbers.
From Coq Require Import ZifyBool ZifyNat ZifyN.
Ltac Zify.zify_post_hook ::= Z.div_mod_to_equations.
From Verif Require Import OverloadModel OverloadSpec.

Lemma sub64_ok a b : (b ≤ a)%N → (a < 2 ^ 64)%N → sub64 a b = (a - b)%N.
Proof. unfold sub64. intros. replace (a + 2 ^ 64 - b)%N with ((a - b) + 1 * 2 ^ 64)%N by lia.
  rewrite N.mod_add by lia. apply N.mod_small. lia. Qed.

Section proofs.
Context (resolve : N → N) (assignable constructable : N → N → bool) (perfect : bool).
Notation score_args := (score_args resolve assignable constructable perfect).
Notation passes := (passes resolve assignable constructable perfect).
Notation pass_all := (pass_all resolve assignable constructable perfect).
Notation accepts := (accepts resolve assignable constructable perfect).

Lemma pass_all_len ps as_ c : pass_all ps as_ c → length ps = length as_ ∧ c ≤ length as_.
Proof.
  induction 1 as [|p a ps as_ c cs P _ IH]; cbn; [lia|]. inversion P; lia.
Qed.
Lemma pass_all_fun ps as_ c : pass_all ps as_ c → ∀ c', pass_all ps as_ c' → c = c'.
Proof.
  induction 1 as [|p a ps as_ c cs P H IH]; intros c' H'; inversion H'; subst; [done|].
  rewrite (IH _ ltac:(eassumption)). f_equal.
  match goal with Q : passes p a ?d |- _ => inversion P; inversion Q; subst; congruence end.
Qed.
Lemma score_spec count : ∀ ps as_ score, count ≤ length ps → count ≤ length as_ →
  (N.of_nat count ≤ score < 2 ^ 64)%N →
  match score_args ps as_ count score with
  | Some s => ∃ c, pass_all (take count ps) (take count as_) c ∧ s = (score - N.of_nat c)%N
  | None => ∀ c, ¬ pass_all (take count ps) (take count as_) c
  end.
Proof.
  induction count as [|count IH]; intros ps as_ score Hp Ha Hs.
  - cbn. exists 0. split; [constructor|]. lia.
  - destruct ps as [|p ps], as_ as [|a as_]; cbn [length] in *; try lia. cbn [OverloadModel.score_args take].
    destruct (resolve p =? resolve a)%N eqn:E.
    { specialize (IH ps as_ score ltac:(lia) ltac:(lia) ltac:(lia)).
      destruct (score_args ps as_ count score) as [s|].
      - destruct IH as (c & P & ->). exists (0 + c). split; [constructor; [constructor; lia|done]|]. lia.
      - intros c H. inversion H; subst. by eapply IH. }
    assert (Hne : resolve p ≠ resolve a) by lia.
    destruct perfect eqn:Ep.
    { intros c H. inversion H as [|? ? ? ? c1 cs P _]; subst. inversion P; congruence. }
    assert (Hconv : ∀ b, assignable (resolve p) (resolve a) || constructable (resolve p) (resolve a) = b →
      match (if b then OverloadModel.score_args resolve assignable constructable false ps as_ count (sub64 score 1) else None) with
      | Some s => ∃ c, OverloadSpec.pass_all resolve assignable constructable false (p :: take count ps) (a :: take count as_) c ∧ s = (score - N.of_nat c)%N
      | None => ∀ c, ¬ OverloadSpec.pass_all resolve assignable constructable false (p :: take count ps) (a :: take count as_) c
      end).
    { intros b Eb. destruct b.
      - rewrite sub64_ok by lia. specialize (IH ps as_ (score - 1)%N ltac:(lia) ltac:(lia) ltac:(lia)).
        destruct (OverloadModel.score_args _ _ _ _ ps as_ count (score - 1)) as [s|].
        + destruct IH as (c & P & ->). exists (1 + c). split; [constructor; [|done]|lia].
          apply passes_conv; [done|congruence|]. by apply orb_true_iff in Eb.
        + intros c H. inversion H; subst. by eapply IH.
      - intros c H. inversion H as [|? ? ? ? c1 cs P _]; subst. inversion P; subst; [done|].
        apply orb_false_iff in Eb as [E1 E2]. intuition congruence. }
    destruct (assignable (resolve p) (resolve a)), (constructable (resolve p) (resolve a)); cbn in Hconv;
      first [apply (Hconv true eq_refl) | apply (Hconv false eq_refl)].
Qed.

(** One declaration against [n] arguments. *)
Lemma accepts_fun d args c c' : accepts d args c → accepts d args c' → c = c'.
Proof. intros (_ & _ & _ & _ & P) (_ & _ & _ & _ & P'). by eapply pass_all_fun. Qed.
Lemma accepts_le d args c : accepts d args c → c ≤ length args.
Proof.
  intros (_ & _ & _ & _ & P). apply pass_all_len in P as [_ P]. rewrite take_length in P. lia.
Qed.

Definition step (d : decl) (args : list N) (maxScore argsCount : N) : option N :=
  let variadic := if d_variadic d then 1%N else 0%N in
  let paramsCount := N.of_nat (length (d_params d)) in
  let requiredCount := sub64 (sub64 paramsCount (d_defaults d)) variadic in
  let argsCount := if d_variadic d then N.min argsCount (sub64 paramsCount variadic) else argsCount in
  if negb (d_typed d) then None else if d_hidden d then None else
  if (argsCount <? requiredCount)%N || (paramsCount <? argsCount)%N then None
  else score_args (d_params d) args (N.to_nat argsCount) maxScore.
Lemma step_ok d args n : wf d → n = N.of_nat (length args) → (n < 2 ^ 62)%N →
  match step d args (n * 2) n with
  | Some s => ∃ c, accepts d args c ∧ s = (n * 2 - N.of_nat c)%N
  | None => ∀ c, ¬ accepts d args c
  end.
Proof.
  intros (W1 & W2 & W3) -> Hn. unfold step, OverloadSpec.accepts, fixed in *. cbv zeta.
  destruct (d_typed d); cbn [negb]; [|by intros c (? & _)].
  destruct (d_hidden d); [by intros c (_ & ? & _)|].
  destruct (d_variadic d) eqn:V.
  - specialize (W1 eq_refl). destruct (d_params d) as [|p0 ps0] eqn:Eps; [done|]. rewrite <- Eps in *.
    assert (Hl : 1 ≤ length (d_params d)) by (rewrite Eps; cbn; lia). clear Eps W1 p0 ps0.
    rewrite take_length in *.
    rewrite (sub64_ok _ (d_defaults d)) by lia. rewrite !sub64_ok by lia.
    destruct (_ || _) eqn:Eb.
    + intros c (_ & _ & X & _ & _). apply orb_true_iff in Eb as [Eb|Eb]; lia.
    + apply orb_false_iff in Eb as [Eb1 Eb2].
      set (k := N.to_nat _).
      pose proof (score_spec k (d_params d) args (N.of_nat (length args) * 2)) as S.
      assert (Hk : k = length args `min` (length (d_params d) - 1)) by (unfold k; lia).
      specialize (S ltac:(lia) ltac:(lia) ltac:(lia)).
      assert (E1 : take (length args) (take (length (d_params d) - 1) (d_params d)) = take k (d_params d)).
      { rewrite take_take. by rewrite Hk. }
      assert (E2 : take ((length (d_params d) - 1) `min` length (d_params d)) args = take k args).
      { rewrite Hk. destruct (decide (length args ≤ length (d_params d) - 1)) as [L|L].
        - rewrite !take_ge by lia. done.
        - f_equal. lia. }
      rewrite E1, E2. destruct (score_args _ _ _ _) as [s|].
      * destruct S as (c & P & ->). exists c. split; [|done]. split; [done|]. split; [done|]. split; [lia|].
        split; [by right|done].
      * intros c (_ & _ & _ & _ & P). by eapply S.
  - rewrite (sub64_ok _ (d_defaults d)) by lia. rewrite !sub64_ok by lia.
    destruct (_ || _) eqn:Eb.
    + intros c (_ & _ & X & Y & _). apply orb_true_iff in Eb as [Eb|Eb]; [lia|]. destruct Y as [Y|Y]; [lia|done].
    + apply orb_false_iff in Eb as [Eb1 Eb2].
      pose proof (score_spec (length args) (d_params d) args (N.of_nat (length args) * 2)) as S.
      specialize (S ltac:(lia) ltac:(lia) ltac:(lia)). rewrite Nat2N.id.
      assert (E2 : take (length (d_params d)) args = take (length args) args) by (rewrite !take_ge by lia; done).
      rewrite E2. destruct (score_args _ _ _ _) as [s|].
      * destruct S as (c & P & ->). exists c. split; [|done]. split; [done|]. split; [done|]. split; [lia|].
        split; [left; lia|done].
      * intros c (_ & _ & _ & _ & P). by eapply S.
Qed.

(** The loop, as long as the number of arguments stays what it is. *)
Definition keeps (d : decl) (n : nat) : Prop :=
  d_typed d = true → d_hidden d = false → d_variadic d = true → n ≤ length (d_params d) - 1.
Definition best (decls : list decl) (args : list N) (r : option nat) : Prop :=
  match r with
  | None => ∀ j d c, decls !! j = Some d → ¬ accepts d args c
  | Some i => ∃ d c, decls !! i = Some d ∧ accepts d args c ∧
      ∀ j d' c', decls !! j = Some d' → accepts d' args c' → c ≤ c'
  end.
Lemma loop_ok decls args n pre : n = N.of_nat (length args) → (n < 2 ^ 62)%N → ∀ found ms,
  Forall wf decls → (∀ j d, decls !! j = Some d → j + 1 < length decls → keeps d (length args)) →
  best pre args found →
  (match found with
   | None => ms = 0%N
   | Some i => ∃ d c, pre !! i = Some d ∧ accepts d args c ∧ ms = (n * 2 - N.of_nat c)%N
   end) →
  best (pre ++ decls) args (match_loop resolve assignable constructable perfect decls (length pre) args (n * 2) n ms found).
Proof.
  intros En Hn. revert pre. induction decls as [|d decls IH]; intros pre found ms W K B M; [by rewrite app_nil_r|].
  cbn [match_loop]. assert (Wd : wf d) by (by inversion W). assert (Wr : Forall wf decls) by (by inversion W).
  pose proof (step_ok d args n Wd En Hn) as S. unfold step in S. cbv zeta in S.
  assert (Hrest : ∀ found' ms', best (pre ++ [d]) args found' →
     (match found' with
      | None => ms' = 0%N
      | Some i => ∃ d' c, (pre ++ [d]) !! i = Some d' ∧ accepts d' args c ∧ ms' = (n * 2 - N.of_nat c)%N
      end) →
     best (pre ++ d :: decls) args
       (match_loop resolve assignable constructable perfect decls (Datatypes.S (length pre)) args (n * 2) n ms' found')).
  { intros found' ms' B' M'. replace (pre ++ d :: decls) with ((pre ++ [d]) ++ decls) by (by rewrite <- app_assoc).
    replace (Datatypes.S (length pre)) with (length (pre ++ [d])) by (rewrite app_length; cbn; lia).
    apply IH; [done| |done|done]. intros j d' Hj Hlt. apply (K (Datatypes.S j) d'); [done|]. cbn. lia. }
  assert (Hskip : (∀ c, ¬ accepts d args c) → best (pre ++ [d]) args found ∧
     match found with
      | None => ms = 0%N
      | Some i => ∃ d' c, (pre ++ [d]) !! i = Some d' ∧ accepts d' args c ∧ ms = (n * 2 - N.of_nat c)%N
      end).
  { intros Hno.
    assert (Hall : ∀ j d' c', (pre ++ [d]) !! j = Some d' → accepts d' args c' → pre !! j = Some d').
    { intros j d' c' Hj Ha. apply lookup_app_Some in Hj as [Hj|[Hge Hj]]; [done|].
      apply list_lookup_singleton_Some in Hj as [_ <-]. by apply Hno in Ha. }
    destruct found as [i|]; cbn [best] in *.
    - destruct B as (d1 & c1 & H1 & H2 & H3), M as (d2 & c2 & H4 & H5 & H6). split.
      + exists d1, c1. split; [by apply lookup_app_l_Some|]. split; [done|]. intros j d' c' Hj Ha. apply (H3 j d' c'); [by apply (Hall j d' c')|done].
      + exists d2, c2. split; [by apply lookup_app_l_Some|]. done.
    - split; [|done]. intros j d' c Hj Ha. apply (B j d' c); [by apply (Hall j d' c)|done]. }
  destruct (d_typed d) eqn:Ety; cbn [negb] in *; [|destruct (Hskip S); by apply Hrest].
  destruct (d_hidden d) eqn:Ehid; [destruct (Hskip S); by apply Hrest|].
  (* the count after this declaration matters only if there are more *)
  set (n' := if d_variadic d then N.min n (sub64 (N.of_nat (length (d_params d))) (if d_variadic d then 1 else 0)) else n) in *.
  assert (Hn' : decls = [] ∨ n' = n).
  { destruct decls as [|d2 decls]; [by left|right]. unfold n'.
    pose proof (K 0 d eq_refl ltac:(cbn; lia)) as Kd. unfold keeps in Kd.
    destruct Wd as (W1 & W2 & W3).
    destruct (d_variadic d) eqn:V; [|done]. specialize (W1 eq_refl).
    destruct (d_params d) as [|p0 ps0] eqn:Eps; [done|].
    rewrite sub64_ok; [|cbn [length]; lia|lia]. specialize (Kd Ety Ehid eq_refl). rewrite En. lia. }
  assert (Hrest' : ∀ found' ms', best (pre ++ [d]) args found' →
     (match found' with
      | None => ms' = 0%N
      | Some i => ∃ d' c, (pre ++ [d]) !! i = Some d' ∧ accepts d' args c ∧ ms' = (n * 2 - N.of_nat c)%N
      end) →
     best (pre ++ d :: decls) args
       (match_loop resolve assignable constructable perfect decls (Datatypes.S (length pre)) args (n * 2) n' ms' found')).
  { intros found' ms' B' M'. destruct Hn' as [->| ->]; [done|by apply Hrest]. }
  clear Hrest.
  destruct (_ || _) eqn:Eb; [destruct (Hskip S); by apply Hrest'|].
  destruct (score_args _ _ _ _) as [s|]; [|destruct (Hskip S); by apply Hrest'].
  destruct S as (c & Ha & ->). pose proof (accepts_le _ _ _ Ha) as Hcl.
  assert (Hmid : (pre ++ d :: decls) !! length pre = Some d) by (by apply list_lookup_middle).
  assert (Hmid' : (pre ++ [d]) !! length pre = Some d) by (by apply list_lookup_middle).
  destruct (n * 2 - N.of_nat c =? n * 2)%N eqn:Ez.
  { cbn [best]. exists d, c. split; [done|]. split; [done|]. intros. assert (c = 0) by lia. lia. }
  destruct (ms <=? n * 2 - N.of_nat c)%N eqn:Ems.
  - apply Hrest'; [|by exists d, c]. cbn [best]. exists d, c. split; [done|]. split; [done|].
    intros j d' c' Hj Ha'. apply lookup_app_Some in Hj as [Hj|[Hge Hj]].
    + destruct found as [i|]; cbn [best] in B.
      * destruct B as (d1 & c1 & H1 & H2 & H3), M as (d2 & c2 & H4 & H5 & H6).
        rewrite H1 in H4. injection H4 as <-. rewrite (accepts_fun _ _ _ _ H2 H5) in *.
        specialize (H3 _ _ _ Hj Ha'). pose proof (accepts_le _ _ _ H5). lia.
      * by apply (B _ _ _ Hj) in Ha'.
    + apply list_lookup_singleton_Some in Hj as [_ <-]. by rewrite (accepts_fun _ _ _ _ Ha Ha').
  - destruct found as [i|]; [|subst ms; lia]. apply Hrest'.
    + cbn [best] in *. destruct B as (d1 & c1 & H1 & H2 & H3), M as (d2 & c2 & H4 & H5 & H6).
      rewrite H1 in H4. injection H4 as <-. rewrite (accepts_fun _ _ _ _ H2 H5) in *.
      exists d1, c2. split; [by apply lookup_app_l_Some|]. split; [done|]. intros j d' c' Hj Ha'.
      apply lookup_app_Some in Hj as [Hj|[Hge Hj]]; [by eapply H3|].
      apply list_lookup_singleton_Some in Hj as [_ <-]. rewrite (accepts_fun _ _ _ _ Ha' Ha).
      pose proof (accepts_le _ _ _ H5). lia.
    + destruct M as (d2 & c2 & H4 & H5 & H6). exists d2, c2. split; [by apply lookup_app_l_Some|]. done.
Qed.
End proofs.
