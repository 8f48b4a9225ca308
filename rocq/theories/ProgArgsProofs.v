From stdpp Require Import list numbers.
From Coq Require Import ZifyBool ZifyNat ZifyN.
From Verif Require Import StrModel ProgArgsModel ProgArgsSpec.

(** * Lookups *)
Lemma find_iff (f : param → bool) ps p : (∀ q, q ∈ ps → f p = true → f q = true → p ∈ ps → q = p) →
  List.find f ps = Some p ↔ p ∈ ps ∧ f p = true.
Proof.
  intros U. split.
  - intros H. apply find_some in H as [H1 H2]. split; [by apply elem_of_list_In|done].
  - intros [H1 H2]. destruct (List.find f ps) as [q|] eqn:E.
    + apply find_some in E as [E1 E2]. apply elem_of_list_In in E1. by rewrite (U q).
    + eapply find_none in E; [|by apply elem_of_list_In]. congruence.
Qed.
Lemma names_unique ps p q : NoDup (map p_name ps) → p ∈ ps → q ∈ ps → p_name p = p_name q → p = q.
Proof.
  intros ND Hp Hq E. apply elem_of_list_lookup in Hp as [i Hi], Hq as [j Hj].
  assert (i = j) as ->; [|congruence].
  eapply NoDup_lookup; [exact ND| |]; rewrite list_lookup_fmap; [rewrite Hi|rewrite Hj]; cbn; [done|]. by rewrite E.
Qed.
Lemma findByName_iff ps n p : NoDup (map p_name ps) → findByName ps n = Some p ↔ p ∈ ps ∧ p_name p = n.
Proof.
  intros ND. unfold findByName. rewrite find_iff.
  - by rewrite bool_decide_eq_true.
  - intros q Hq Hp1 Hq1 Hp. rewrite bool_decide_eq_true in *. eapply names_unique; eauto. congruence.
Qed.
Lemma findByFlag_iff ps c p : distinct ps → findParamByFlag ps c = Some p ↔ p ∈ ps ∧ p_sf p = c ∧ p_sf p ≠ 0%N.
Proof.
  intros [_ U]. unfold findParamByFlag. rewrite find_iff.
  - rewrite andb_true_iff, negb_true_iff, N.eqb_neq, N.eqb_eq. tauto.
  - intros q Hq Hp1 Hq1 Hp. apply andb_true_iff in Hp1 as [A1 A2], Hq1 as [B1 B2]. apply U; try done; lia.
Qed.
Lemma lookup_parsed_iff l n : is_some (lookup_parsed l n) = true ↔ n ∈ map fst l.
Proof.
  unfold lookup_parsed. destruct (List.find _ l) as [e|] eqn:E; cbn.
  - apply find_some in E as [E1 E2]. apply bool_decide_eq_true in E2 as <-. split; [|done]. intros _. apply elem_of_list_In, in_map. done.
  - split; [done|]. intros H. apply elem_of_list_In, in_map_iff in H as (e & He & Hi). eapply find_none in E; [|exact Hi]. cbn in E.
    rewrite bool_decide_eq_false in E. done.
Qed.
Lemma addParsed_ok st n v : n ∉ map fst (parsed st) → addParsed st n v = POk (State (parsed st ++ [(n, v)]) (positionals st) (rest st)).
Proof. intros H. unfold addParsed. destruct (is_some _) eqn:E; [|done]. by apply lookup_parsed_iff in E. Qed.
Lemma addParsed_raise st n v : n ∈ map fst (parsed st) → addParsed st n v = PRaise.
Proof. intros H. unfold addParsed. by rewrite (proj2 (lookup_parsed_iff _ _) H). Qed.

(** * Equal signs *)
Lemma indexOf_none s ch : ∀ i, ch ∉ s → indexOf_loop s ch i = None.
Proof.
  induction s as [|c s IH]; intros i H; [done|]. cbn. apply not_elem_of_cons in H as [H1 H2].
  destruct (N.eqb_spec c ch); [congruence|]. by apply IH.
Qed.
Lemma indexOf_app w ch v : ∀ i, ch ∉ w → indexOf_loop (w ++ ch :: v) ch i = Some (i + length w).
Proof.
  induction w as [|c w IH]; intros i H; cbn.
  - rewrite N.eqb_refl. f_equal. lia.
  - apply not_elem_of_cons in H as [H1 H2]. destruct (N.eqb_spec c ch); [congruence|]. rewrite IH by done. f_equal. lia.
Qed.
(** The word and the value of an argument. *)
Definition split (full : text) : text * text := match indexOf full 61 with Some k => (take k full, drop (k + 1) full) | None => (full, []) end.
Lemma split_plain w : 61%N ∉ w → split w = (w, []).
Proof. intros H. unfold split, indexOf. by rewrite indexOf_none. Qed.
Lemma split_app w v : 61%N ∉ w → split (w ++ 61%N :: v) = (w, v).
Proof.
  intros H. unfold split, indexOf. rewrite indexOf_app by done. cbn [Nat.add]. rewrite take_app. f_equal.
  replace (length w + 1) with (length (w ++ [61%N])) by (rewrite app_length; done).
  change (61%N :: v) with ([61%N] ++ v). rewrite app_assoc. apply drop_app.
Qed.
Lemma split_cases full : ∃ w, 61%N ∉ w ∧ (full = w ∧ split full = (w, []) ∨ ∃ v, full = w ++ 61%N :: v ∧ split full = (w, v)).
Proof.
  destruct (decide (61%N ∈ full)) as [H|H].
  - enough (∃ w v, full = w ++ 61%N :: v ∧ 61%N ∉ w) as (w & v & -> & Hw) by (exists w; split; [done|]; right; exists v; split; [done|by apply split_app]).
    clear -H. induction full as [|c s IH]; [by apply elem_of_nil in H|].
    destruct (decide (c = 61%N)) as [->|Hc]; [exists [], s; split; [done|apply not_elem_of_nil]|].
    apply elem_of_cons in H as [H|H]; [congruence|]. destruct (IH H) as (w & v & -> & Hw). exists (c :: w), v. split; [done|].
    apply not_elem_of_cons. split; [congruence|done].
  - exists full. split; [done|]. left. split; [done|by apply split_plain].
Qed.
Lemma dash_iff a : dash a = true ↔ dashed a.
Proof. unfold dashed. destruct a as [|c a]; cbn; [done|]. rewrite N.eqb_eq. split; congruence. Qed.
Lemma dash_false a : dash a = false ↔ ¬ dashed a.
Proof. rewrite <- dash_iff. by destruct (dash a). Qed.
Lemma dash_app w e : w ≠ [] → dash (w ++ e) = dash w.
Proof. by destruct w. Qed.

(** * Groups of options *)
Definition put (st : state) (given : list (text * text)) : state := State (parsed st ++ given) (positionals st) (rest st).
Lemma put_put st a b : put (put st a) b = put st (a ++ b).
Proof. unfold put. cbn. by rewrite app_assoc. Qed.
Lemma put_nil st : put st [] = st.
Proof. destruct st. unfold put. cbn. by rewrite app_nil_r. Qed.
Definition fresh (st : state) (given : list (text * text)) : Prop := NoDup (map fst (parsed st ++ given)).
Lemma fresh_app st a b : fresh st (a ++ b) ↔ fresh (put st a) b.
Proof. unfold fresh, put. cbn. by rewrite app_assoc. Qed.
Lemma fresh_pre st a b : fresh st (a ++ b) → fresh st a.
Proof. unfold fresh. rewrite app_assoc, map_app. intros H. by apply NoDup_app in H as (H & _). Qed.
Lemma fresh_one st n v : NoDup (map fst (parsed st)) → fresh st [(n, v)] ↔ n ∉ map fst (parsed st).
Proof.
  intros ND. unfold fresh. rewrite map_app, NoDup_app. cbn. split.
  - intros (_ & H & _) Hi. apply (H n Hi). by left.
  - intros H. split; [done|]. split; [|apply NoDup_singleton]. intros x Hx E. apply elem_of_list_singleton in E as ->. done.
Qed.
Lemma fresh_nodup st a : fresh st a → NoDup (map fst (parsed st)).
Proof. unfold fresh. rewrite map_app, NoDup_app. tauto. Qed.
Lemma many_step ps c more st : more ≠ [] → parseMultipleOptions ps (c :: more) st =
  match findParamByFlag ps c with
  | None => PRaise
  | Some p => if p_option p then pbind (addParsed st (p_name p) []) (parseMultipleOptions ps more) else PRaise
  end.
Proof. by destruct more. Qed.
Lemma many_complete ps : distinct ps → ∀ gs c st, Forall (λ g, g ∈ ps ∧ p_option g = true) gs → Forall (λ g, p_sf g ≠ 0%N) gs → fresh st (flags_of gs) →
  parseMultipleOptions ps (map p_sf gs ++ [c]) st = POk (put st (flags_of gs)).
Proof.
  intros D. induction gs as [|g gs IH]; intros c st F Z Fr; [cbn; by rewrite put_nil|].
  apply list.Forall_cons in F as [[G1 G2] F], Z as [Z1 Z].
  change (flags_of (g :: gs)) with ([(p_name g, [])] ++ flags_of gs) in *.
  pose proof (fresh_pre _ _ _ Fr) as F1. apply fresh_one in F1; [|by eapply fresh_nodup].
  assert (findParamByFlag ps (p_sf g) = Some g) as Ef by (by apply findByFlag_iff).
  cbn [map app]. rewrite many_step by (by destruct gs). rewrite Ef, G2, addParsed_ok by done. cbn [pbind].
  change (State (parsed st ++ [(p_name g, [])]) (positionals st) (rest st)) with (put st [(p_name g, [])]).
  rewrite IH; [by rewrite put_put|done|done|]. by apply fresh_app.
Qed.
Lemma many_sound ps : distinct ps → ∀ opts st, opts ≠ [] → NoDup (map fst (parsed st)) →
  parseMultipleOptions ps opts st = PRaise ∨
  ∃ gs c, opts = map p_sf gs ++ [c] ∧ Forall (λ g, g ∈ ps ∧ p_option g = true) gs ∧ Forall (λ g, p_sf g ≠ 0%N) gs ∧ fresh st (flags_of gs) ∧
    parseMultipleOptions ps opts st = POk (put st (flags_of gs)).
Proof.
  intros D. induction opts as [|c opts IH]; intros st N ND; [done|]. destruct opts as [|c' opts].
  { right. exists [], c. split; [done|]. split; [constructor|]. split; [constructor|]. split; [unfold fresh, flags_of; cbn; by rewrite app_nil_r|].
    cbn. by rewrite put_nil. }
  rewrite many_step by done. destruct (findParamByFlag ps c) as [g|] eqn:Ef; [|by left].
  apply findByFlag_iff in Ef as (G1 & G2 & G3); [|done]. destruct (p_option g) eqn:Go; [|by left].
  destruct (decide (p_name g ∈ map fst (parsed st))) as [H|H]; [rewrite addParsed_raise by done; by left|].
  rewrite addParsed_ok by done. cbn [pbind]. change (State (parsed st ++ [(p_name g, [])]) (positionals st) (rest st)) with (put st [(p_name g, [])]).
  assert (fresh st [(p_name g, [])]) as F1 by (by apply fresh_one).
  destruct (IH (put st [(p_name g, [])])) as [E|(gs & c'' & E & F & Z & Fr & Ep)]; [done|exact F1|by left|].
  right. exists (g :: gs), c''. rewrite E. cbn [map app]. split; [by rewrite G2|]. split; [by constructor|]. split; [by constructor|].
  change (flags_of (g :: gs)) with ([(p_name g, [])] ++ flags_of gs). split; [by apply (proj2 (fresh_app _ _ _))|]. rewrite <- E, Ep. by rewrite put_put.
Qed.

(** * The loop *)
Definition res (st : state) (given : list (text * text)) (pos : list text) (r : option (list text)) : pres state :=
  match r with
  | None => POk (State (parsed st ++ given) (positionals st ++ pos) (rest st))
  | Some [] => PAssert
  | Some (_ :: l) => POk (State (parsed st ++ given) (positionals st ++ pos) (rest st ++ l))
  end.
Lemma res_put st g given pos r : res (put st g) given pos r = res st (g ++ given) pos r.
Proof. unfold res, put. cbn. by rewrite app_assoc. Qed.

(** What follows the word. *)
Definition finish (ps : list param) (val : text) (args : list text) (o : option param) (st : state) : pres state :=
  match o with
  | None => PRaise
  | Some p =>
    if p_option p then if is_empty val then pbind (addParsed st (p_name p) val) (parse_loop ps args) else PRaise
    else if is_empty val then
      match args with
      | [] => PRaise
      | v :: args => if dash v then PRaise else pbind (addParsed st (p_name p) v) (parse_loop ps args)
      end
    else pbind (addParsed st (p_name p) val) (parse_loop ps args)
  end.
Definition lead (ps : list param) (full arg val : text) (args : list text) (st : state) : pres state :=
  if dash (tail full) then
    match drop 2 arg with
    | [] => if is_empty val then populateRest (match args with [] => None | _ :: l => Some l end) st else PRaise
    | name => finish ps val args (findByName ps name) st
    end
  else
    match tail arg with
    | [] => PRaise
    | opts => pbind (parseMultipleOptions ps opts st) (finish ps val args (findParamByFlag ps (List.last opts 0%N)))
    end.
Lemma loop_dash ps full args st w v : dash full = true → split full = (w, v) → parse_loop ps (full :: args) st = lead ps full w v args st.
Proof. intros H E. cbn [parse_loop]. rewrite H. cbn [negb]. unfold split in E. rewrite E. reflexivity. Qed.
Lemma word_no_eq ps w gs p : Word ps w gs p → 61%N ∉ w.
Proof.
  intros [q Hq Hn He|gs' q Hq F Z Hd].
  - apply not_elem_of_cons. split; [done|]. apply not_elem_of_cons. split; [done|exact He].
  - apply not_elem_of_cons. split; [done|]. intros H. apply elem_of_list_In, in_map_iff in H as (x & Hx & Hi). apply elem_of_list_In in Hi.
    rewrite list.Forall_forall in Z. destruct (Z x Hi). congruence.
Qed.
Lemma last_map (gs : list param) p : List.last (map p_sf (gs ++ [p])) 0%N = p_sf p.
Proof. rewrite map_app. cbn [map]. apply last_last. Qed.
(** A word leads to its parameter. *)
Lemma lead_word ps w gs p e v args st : distinct ps → Word ps w gs p → fresh st (flags_of gs) →
  lead ps (w ++ e) w v args st = finish ps v args (Some p) (put st (flags_of gs)).
Proof.
  intros D Hw Fr. destruct Hw as [q Hq Hn He|gs q Hq F Z Hd]; unfold lead.
  - cbn [app tail dash]. rewrite N.eqb_refl. cbn [drop].
    assert (findByName ps (p_name q) = Some q) as Ef by (apply findByName_iff; [apply D|done]).
    rewrite put_nil. rewrite drop_0. destruct (p_name q) eqn:E; [done|]. by rewrite Ef.
  - assert (∃ c r, map p_sf (gs ++ [q]) = c :: r) as (c & r & E) by (destruct gs; cbn; eauto).
    cbn [app tail].
    assert (dash (map p_sf (gs ++ [q]) ++ e) = false) as -> by (rewrite E in *; cbn in *; apply N.eqb_neq; congruence).
    rewrite E. rewrite <- E at 2. rewrite last_map, <- E.
    apply Forall_app in Z as [Z1 Z2]. apply list.Forall_cons in Z2 as [Z2 _].
    rewrite map_app. cbn [map]. rewrite many_complete; try done; [|eapply List.Forall_impl; [|exact Z1]; cbn; tauto].
    cbn [pbind]. f_equal. apply findByFlag_iff; [done|]. split; [done|]. split; [done|]. tauto.
Qed.
Lemma split_e w e v : 61%N ∉ w → (e = [] ∨ e = [61%N]) ∧ v = [] ∨ e = 61%N :: v → split (w ++ e) = (w, v).
Proof. intros H [[[->| ->] ->]| ->]; [rewrite app_nil_r; by apply split_plain|by apply split_app..]. Qed.
Lemma word_dash ps w gs p e : Word ps w gs p → dash (w ++ e) = true.
Proof. by intros []. Qed.
Lemma flags_snoc gs p : flags_of (gs ++ [p]) = flags_of gs ++ [(p_name p, [])].
Proof. unfold flags_of. by rewrite map_app. Qed.
Lemma complete ps : distinct ps → ∀ args given pos r, Accepts ps args given pos r → ∀ st, fresh st given → parse_loop ps args st = res st given pos r.
Proof.
  intros D args given pos r A. induction A as [|seg gs pos args gs' pos' r I A IH|e args He]; intros st Fr.
  - destruct st. cbn. by rewrite !app_nil_r.
  - assert (∀ p v, fresh st (gs ++ gs') → ∀ g0, gs = g0 ++ [(p, v)] → pbind (addParsed (put st g0) p v) (parse_loop ps args) = res st (gs ++ gs') ([] ++ pos') r) as K.
    { clear -IH. intros p v Fr g0 ->. pose proof (fresh_pre _ _ _ Fr) as F1. rewrite fresh_app in F1.
      rewrite addParsed_ok by (eapply fresh_one; [by eapply fresh_nodup|exact F1]). cbn [pbind].
      change (State (parsed (put st g0) ++ [(p, v)]) (positionals (put st g0)) (rest (put st g0))) with (put (put st g0) [(p, v)]).
      rewrite put_put in *. rewrite IH; [by rewrite res_put|]. by apply fresh_app. }
    destruct I as [a Ha|w g p e Hw Ho He|w g p v Hw Ho Hv|w g p e v Hw Ho He Hv].
    + cbn [app parse_loop]. rewrite (proj2 (dash_false a) Ha). cbn [negb].
      set (st1 := State _ _ _). rewrite (IH st1) by exact Fr. unfold res, st1. cbn. by rewrite <- app_assoc.
    + cbn [app]. rewrite (loop_dash _ _ _ _ w []); [|by eapply word_dash|apply split_e; [by eapply word_no_eq|by left]].
      rewrite flags_snoc in *. rewrite (lead_word ps w g p); [|done|done|]; [|eapply fresh_pre; rewrite app_assoc; exact Fr].
      cbn [finish]. rewrite Ho. cbn [is_empty]. by apply K.
    + cbn [app]. rewrite (loop_dash _ _ _ _ w v); [|by eapply word_dash|apply split_e; [by eapply word_no_eq|by right]].
      rewrite (lead_word ps w g p); [|done|done|]; [|eapply fresh_pre; rewrite app_assoc; exact Fr].
      cbn [finish]. rewrite Ho. destruct (is_empty v) eqn:Ev; [by destruct v|]. by apply K.
    + cbn [app]. rewrite (loop_dash _ _ _ _ w []); [|by eapply word_dash|apply split_e; [by eapply word_no_eq|by left]].
      rewrite (lead_word ps w g p); [|done|done|]; [|eapply fresh_pre; rewrite app_assoc; exact Fr].
      cbn [finish]. rewrite Ho. cbn [is_empty]. rewrite (proj2 (dash_false v) Hv). by apply K.
  - rewrite (loop_dash _ _ _ _ [45; 45]%N []); [|done|apply split_e; [|by left]].
    2: { apply not_elem_of_cons. split; [done|]. apply not_elem_of_cons. split; [done|apply not_elem_of_nil]. }
    unfold lead. cbn. destruct args as [|a args]; cbn; [done|]. by rewrite !app_nil_r.
Qed.

Lemma finish_sound ps val args p st w gs st0 e full : distinct ps → Word ps w gs p → st = put st0 (flags_of gs) → fresh st0 (flags_of gs) →
  (∀ args' st, length args' ≤ length args → NoDup (map fst (parsed st)) → parse_loop ps args' st = PRaise ∨
     ∃ given pos r, Accepts ps args' given pos r ∧ fresh st given ∧ parse_loop ps args' st = res st given pos r) →
  full = w ++ e → (e = [] ∨ e = [61%N]) ∧ val = [] ∨ e = 61%N :: val →
  finish ps val args (Some p) st = PRaise ∨
  ∃ given pos r, Accepts ps (full :: args) given pos r ∧ fresh st0 given ∧ finish ps val args (Some p) st = res st0 given pos r.
Proof.
  intros D Hw -> Fr IH -> He. unfold finish.
  assert (∀ v args' seg, length args' ≤ length args → Item ps seg (flags_of gs ++ [(p_name p, v)]) [] → (w ++ e) :: args = seg ++ args' →
    pbind (addParsed (put st0 (flags_of gs)) (p_name p) v) (parse_loop ps args') = PRaise ∨
    ∃ given pos r, Accepts ps ((w ++ e) :: args) given pos r ∧ fresh st0 given ∧
      pbind (addParsed (put st0 (flags_of gs)) (p_name p) v) (parse_loop ps args') = res st0 given pos r) as K.
  { intros v args' seg L I E. destruct (decide (p_name p ∈ map fst (parsed (put st0 (flags_of gs))))) as [H|H]; [rewrite addParsed_raise by done; by left|].
    rewrite addParsed_ok by done. cbn [pbind].
    change (State (parsed (put st0 (flags_of gs)) ++ [(p_name p, v)]) _ _) with (put (put st0 (flags_of gs)) [(p_name p, v)]). rewrite put_put.
    assert (fresh st0 (flags_of gs ++ [(p_name p, v)])) as F1 by (apply fresh_app, fresh_one; [exact Fr|done]).
    destruct (IH args' (put st0 (flags_of gs ++ [(p_name p, v)])) L F1) as [->|(given & pos & r & A & F2 & ->)]; [by left|]. right.
    exists ((flags_of gs ++ [(p_name p, v)]) ++ given), ([] ++ pos), r. rewrite E. split; [by constructor|]. split; [by apply fresh_app|]. by rewrite res_put. }
  destruct (p_option p) eqn:Ho.
  - destruct val as [|c val]; cbn [is_empty]; [|by left]. apply (K [] args [w ++ e]); [done| |done]. rewrite <- flags_snoc.
    apply Item_option; try done. destruct He as [[He _]|He]; auto.
  - destruct val as [|c val]; cbn [is_empty].
    + destruct args as [|v args]; [by left|]. destruct (dash v) eqn:Dv; [by left|]. apply dash_false in Dv.
      apply (K v args [w ++ e; v]); [cbn; lia| |done]. apply Item_next; try done. destruct He as [[He _]|He]; auto.
    + destruct He as [[_ He]| ->]; [done|]. apply (K (c :: val) args [w ++ 61%N :: c :: val]); [done| |done]. by apply Item_value.
Qed.
Lemma sound ps : distinct ps → ∀ n args st, length args ≤ n → NoDup (map fst (parsed st)) → parse_loop ps args st = PRaise ∨
  ∃ given pos r, Accepts ps args given pos r ∧ fresh st given ∧ parse_loop ps args st = res st given pos r.
Proof.
  intros D. induction n as [|n IH]; intros args st L ND.
  { destruct args; [|cbn in L; lia]. right. exists [], [], None. split; [constructor|]. unfold fresh. destruct st. cbn. rewrite !app_nil_r. done. }
  destruct args as [|full args].
  { right. exists [], [], None. split; [constructor|]. unfold fresh. destruct st. cbn. rewrite !app_nil_r. done. }
  cbn in L. assert (length args ≤ n) as La by lia.
  destruct (dash full) eqn:Hd.
  2: { cbn [parse_loop]. rewrite Hd. cbn [negb]. set (st1 := State _ _ _).
       destruct (IH args st1 La ND) as [->|(given & pos & r & A & Fr & ->)]; [by left|]. right. exists ([] ++ given), ([full] ++ pos), r.
       split; [apply (Acc_item _ [full]); [constructor; by apply dash_false|done]|]. split; [done|]. unfold res, st1. cbn. by rewrite <- app_assoc. }
  assert (∃ w e v, 61%N ∉ w ∧ full = w ++ e ∧ ((e = [] ∨ e = [61%N]) ∧ v = [] ∨ e = 61%N :: v) ∧ split full = (w, v)) as (w & e & v & Hw & Ef & He & Sp).
  { destruct (split_cases full) as (w & Hw & [[E S1]|(v & E & S1)]).
    - exists w, [], []. rewrite app_nil_r. split; [done|]. split; [done|]. split; [by left; split; [left|]|done].
    - exists w, (61%N :: v), v. split; [done|]. split; [done|]. split; [by right|done]. }
  rewrite (loop_dash _ _ _ _ w v) by done. unfold lead.
  assert (∃ w', w = 45%N :: w') as [w' ->].
  { rewrite Ef in Hd. destruct w as [|c w]; cbn in Hd; [|apply N.eqb_eq in Hd as ->; eauto]. destruct He as [[[->| ->] _]| ->]; done. }
  assert (∀ args' st, length args' ≤ length args → NoDup (map fst (parsed st)) → parse_loop ps args' st = PRaise ∨
     ∃ given pos r, Accepts ps args' given pos r ∧ fresh st given ∧ parse_loop ps args' st = res st given pos r) as IH'.
  { intros args' st' L' ND'. apply IH; [lia|done]. }
  assert (fresh st (flags_of [])) as F0 by (unfold fresh; cbn; by rewrite app_nil_r).
  destruct (dash (tail full)) eqn:Hd2.
  - assert (∃ w, w' = 45%N :: w) as [w ->].
    { rewrite Ef in Hd2. cbn in Hd2. destruct w' as [|c w]; cbn in Hd2; [|apply N.eqb_eq in Hd2 as ->; eauto]. destruct He as [[[->| ->] _]| ->]; done. }
    cbn [drop]. rewrite drop_0. destruct w as [|c w].
    + destruct (is_empty v) eqn:Ev; [|by left]. destruct v; [|done]. right. exists [], [], (Some args).
      split. { rewrite Ef. change ((45 :: 45 :: [])%N ++ e) with ([45; 45]%N ++ e). apply Acc_rest. destruct He as [[He _]|He]; auto. }
      split; [exact F0|]. destruct args; cbn; [done|]. by rewrite !app_nil_r.
    + destruct (findByName ps (c :: w)) as [p|] eqn:Ep; [|by left]. apply findByName_iff in Ep as [P1 P2]; [|apply D].
      assert (Word ps (45 :: 45 :: c :: w)%N [] p) as Wd.
      { rewrite <- P2. constructor; rewrite ?P2; try done. apply not_elem_of_cons in Hw as [_ Hw]. by apply not_elem_of_cons in Hw as [_ Hw]. }
      eapply (finish_sound ps v args p st _ []); try done. by rewrite put_nil.
  - cbn [tail]. destruct w' as [|c w]; [by left|].
    destruct (many_sound ps D (c :: w) st) as [->|(gs & c' & E & F & Z & Fr & ->)]; [done|done|by left|]. cbn [pbind]. rewrite E, last_last.
    destruct (findParamByFlag ps c') as [p|] eqn:Ep; [|by left]. apply findByFlag_iff in Ep as (P1 & P2 & P3); [|done].
    assert (c :: w = map p_sf (gs ++ [p])) as E' by (rewrite map_app, E; cbn; congruence).
    eapply (finish_sound ps v args p _ (45%N :: c :: w) gs st); try done. rewrite E'. constructor; try done.
    + rewrite list.Forall_forall. intros g Hg. split.
      * apply elem_of_app in Hg as [Hg|Hg]; [rewrite list.Forall_forall in Z; by apply Z|]. apply elem_of_list_singleton in Hg as ->. done.
      * intros Eg. apply Hw. right. rewrite E'. rewrite <- Eg. apply elem_of_list_In, in_map, elem_of_list_In. done.
    + rewrite <- E'. rewrite Ef in Hd2. cbn in *. apply N.eqb_neq in Hd2. congruence.
Qed.

(** * Defaults and required parameters *)
Lemma some_bool l n : is_some (lookup_parsed l n) = bool_decide (n ∈ map fst l).
Proof. apply eq_true_iff_eq. by rewrite lookup_parsed_iff, bool_decide_eq_true. Qed.
Lemma defaults_other ps l n v : n ∉ map p_name ps → defaults ps (l ++ [(n, v)]) = defaults ps l.
Proof.
  intros H. unfold defaults. f_equal. apply filter_ext_in. intros p Hp. f_equal. f_equal. rewrite map_app. cbn [map fst].
  apply bool_decide_ext. rewrite elem_of_app, elem_of_list_singleton. split; [|by left]. intros [?|E]; [done|]. destruct H. rewrite <- E.
  by apply elem_of_list_In, in_map.
Qed.
Lemma validate_ok ps : NoDup (map p_name ps) → ∀ l, (∀ p, p ∈ ps → needed p → p_name p ∈ map fst l) → validate ps l = POk (l ++ defaults ps l).
Proof.
  induction ps as [|p ps IH]; intros ND l H; [cbn; by rewrite app_nil_r|].
  cbn [map] in ND. apply list.NoDup_cons in ND as [Np ND].
  assert (∀ q, q ∈ ps → needed q → p_name q ∈ map fst l) as H' by (intros q Hq; apply H; by right).
  cbn [validate]. rewrite some_bool. unfold defaults. cbn [List.filter].
  destruct (p_option p) eqn:Ho; cbn [orb negb andb]; [by apply IH|].
  destruct (bool_decide_reflect (p_name p ∈ map fst l)) as [Hi|Hi]; cbn [negb]; [by apply IH|].
  destruct (p_def p) as [|c v] eqn:Hd; cbn [is_empty].
  { destruct Hi. apply H; [by left|done]. }
  rewrite IH; [|done|].
  - rewrite <- app_assoc. cbn [map app]. rewrite Hd. f_equal. f_equal. f_equal. by apply defaults_other.
  - intros q Hq Nq. rewrite map_app. apply elem_of_app. left. by apply H'.
Qed.
Lemma validate_raise ps p : p ∈ ps → needed p → NoDup (map p_name ps) → ∀ l, p_name p ∉ map fst l → validate ps l = PRaise.
Proof.
  intros Hp [N1 N2]. induction ps as [|q ps IH]; intros ND l H; [by apply elem_of_nil in Hp|].
  cbn [map] in ND. apply list.NoDup_cons in ND as [Nq ND]. cbn [validate]. rewrite some_bool.
  apply elem_of_cons in Hp as [<-|Hp].
  - rewrite N1, (bool_decide_eq_false_2 _ H), N2. done.
  - destruct (p_option q || _); [by apply IH|]. destruct (is_empty _); [done|]. apply IH; [done|done|].
    rewrite map_app, elem_of_app. intros [?|E]; [done|]. apply elem_of_list_singleton in E. cbn in E. destruct Nq. rewrite <- E. by apply elem_of_list_In, in_map, elem_of_list_In.
Qed.
Lemma parse_iff ps : distinct ps → ∀ args st, parse ps args = POk st ↔
  ∃ given pos r, Accepts ps args given pos r ∧ NoDup (map fst given) ∧ (∀ p, p ∈ ps → needed p → p_name p ∈ map fst given) ∧ r ≠ Some [] ∧
    st = State (given ++ defaults ps given) pos (match r with None => [] | Some l => tail l end).
Proof.
  intros D args st. unfold parse. split.
  - intros H. destruct (sound ps D (length args) args init) as [E|(given & pos & r & A & Fr & E)]; [done|constructor|by rewrite E in H|].
    rewrite E in H. exists given, pos, r. split; [done|]. split; [exact Fr|].
    assert (∀ x, validate ps given = x → (∃ l, x = POk l) → ∀ p, p ∈ ps → needed p → p_name p ∈ map fst given) as K.
    { intros x V [l ->] p Hp Np. destruct (decide (p_name p ∈ map fst given)) as [|Ni]; [done|]. rewrite (validate_raise ps p) in V; try done. apply D. }
    destruct r as [[|a l]|]; cbn in H; [done| |]; destruct (validate ps given) as [l'| |] eqn:V; try done;
      (assert (∀ p, p ∈ ps → needed p → p_name p ∈ map fst given) as K' by (apply (K _ eq_refl); eauto));
      rewrite validate_ok in V by (apply D || done); injection V as <-; injection H as <-; done.
  - intros (given & pos & r & A & ND & H & Hr & ->). rewrite (complete ps D _ _ _ _ A) by exact ND.
    destruct r as [[|a l]|]; [done|..]; cbn; rewrite validate_ok by (apply D || done); done.
Qed.
Lemma parse_assert ps : distinct ps → ∀ args, parse ps args = PAssert ↔ ∃ given pos, Accepts ps args given pos (Some []) ∧ NoDup (map fst given).
Proof.
  intros D args. unfold parse. split.
  - intros H. destruct (sound ps D (length args) args init) as [E|(given & pos & r & A & Fr & E)]; [done|constructor|by rewrite E in H|].
    rewrite E in H. assert (∀ l, validate ps l ≠ PAssert) as V.
    { clear. induction ps as [|p ps IH]; intros l; [done|]. cbn [validate]. destruct (p_option p || _); [done|]. by destruct (is_empty _). }
    exists given, pos. destruct r as [[|a l]|]; [done|exfalso..]; cbn in H; destruct (validate ps given) eqn:E'; try done; by destruct (V given).
  - intros (given & pos & A & ND). by rewrite (complete ps D _ _ _ _ A) by exact ND.
Qed.
(** * Adding parameters *)
Lemma adjust_name p : p_name (adjust p) = p_name p ∧ p_sf (adjust p) = p_sf p.
Proof. unfold adjust. destruct (p_option p && _); cbn; destruct (_ && _); done. Qed.
Lemma find_none_iff {A} (f : A → bool) l : is_some (List.find f l) = false ↔ ∀ x, x ∈ l → f x = false.
Proof.
  destruct (List.find f l) as [x|] eqn:E; cbn.
  - apply find_some in E as [E1 E2]. split; [done|]. intros H. rewrite H in E2; [done|]. by apply elem_of_list_In.
  - split; [|done]. intros _ x Hx. eapply find_none in E; [done|]. by apply elem_of_list_In.
Qed.
Lemma add_distinct ps p ps' : distinct ps → container_add ps p = POk ps' → ps' = ps ++ [p] ∧ distinct ps'.
Proof.
  intros [D1 D2] H. unfold container_add in H. destruct (is_some (findByName _ _)) eqn:E1; [done|].
  destruct (negb _ && _) eqn:E2; [done|]. injection H as <-. split; [done|].
  unfold findByName in E1. rewrite find_none_iff in E1. split.
  - rewrite map_app. apply NoDup_app. split; [done|]. split; [|apply NoDup_singleton]. intros n Hn E. apply elem_of_list_singleton in E as ->.
    apply elem_of_list_In, in_map_iff in Hn as (q & Hq & Hi). apply elem_of_list_In in Hi. apply E1 in Hi. by rewrite bool_decide_eq_false in Hi.
  - assert (∀ q, q ∈ ps → p_sf p ≠ 0%N → p_sf q ≠ p_sf p) as N.
    { intros q Hq Hz E. apply andb_false_iff in E2 as [E2|E2]; [lia|]. unfold findParamByFlag in E2. rewrite find_none_iff in E2. apply E2 in Hq. lia. }
    intros a b Ha Hb E Z. apply elem_of_app in Ha as [Ha|Ha], Hb as [Hb|Hb]; rewrite ?elem_of_list_singleton in *; subst.
    + by apply D2.
    + destruct (N a Ha); congruence.
    + destruct (N b Hb); congruence.
    + done.
Qed.
Lemma adds_distinct l : ∀ ps ps', distinct ps → addParams ps l = POk ps' → ps' = ps ++ map adjust l ∧ distinct ps'.
Proof.
  induction l as [|p l IH]; intros ps ps' D H; cbn in H; [injection H as <-; by rewrite app_nil_r|].
  unfold addParam in H. destruct (container_add ps (adjust p)) as [ps1| |] eqn:E; try done. apply add_distinct in E as [-> D1]; [|done].
  apply IH in H as [-> D2]; [|done]. split; [|done]. by rewrite <- app_assoc.
Qed.
