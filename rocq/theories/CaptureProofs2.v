From stdpp Require Import list numbers.
From Coq Require Import ZifyBool ZifyNat ZifyN.
From Verif Require Import HTableModel KTableModel KTableProofs CaptureModel CaptureSpec CaptureProofs.

Section bind.
Context (hashs : N → N) (ntop : N).
Notation setrep := (setrep hashs).

Definition cap (lo : N) (s : sym) : bool := negb (s_top s) && (s_id s <? lo)%N.
Definition captured (lo : N) (U : list sym) : list sym := nub same_sym (filter (λ s, cap lo s = true) U).

(** The invariant of the frames: [hi] bounds the declarations so far, a ghost
    (lo, U) belongs to each frame but the global one: the number of
    declarations when it was opened, and the uses since. *)
Fixpoint einv (hi : N) (env : list frame) (gs : list (N * list sym)) : Prop :=
  match gs, env with
  | [], [g] =>
    f_set g = None ∧ (ntop ≤ hi)%N ∧
    (∀ x s, assoc x (f_names g) = Some s → s_name s = x ∧ s_top s = true ∧ (s_id s < ntop)%N)
  | (lo, U) :: gs', f :: env' =>
    (lo ≤ hi)%N ∧ (ntop ≤ lo)%N ∧
    (∀ x s, assoc x (f_names f) = Some s →
       s_name s = x ∧ s_top s = false ∧ (lo ≤ s_id s < hi)%N ∧ s_parent s = Some (f_node f)) ∧
    (∀ g, g ∈ env' → (f_node g < f_node f)%N) ∧
    match f_set f with
    | None => True
    | Some set => setrep set (captured lo U) ∧
                  ∀ s, s ∈ U → cap lo s = true → find_sym env' (s_name s) = Some s
    end ∧
    einv lo env' gs'
  | _, _ => False
  end.

Definition sk1 (f : frame) := (f_node f, f_names f, match f_set f with Some _ => true | None => false end).
Definition sk (env : list frame) := map sk1 env.
Lemma find_sk env env' x : sk env = sk env' → find_sym env x = find_sym env' x.
Proof.
  revert env'. induction env as [|f env IH]; intros [|f' env']; cbn; try done.
  intros [= H1 H2 _ H3]. rewrite H2. by rewrite (IH _ H3).
Qed.
Lemma sk_node env env' g : sk env = sk env' → g ∈ env' → ∃ h, h ∈ env ∧ f_node h = f_node g.
Proof.
  revert env'. induction env as [|f env IH]; intros [|f' env']; cbn; try done.
  { intros _ X. by apply elem_of_nil in X. }
  intros [= H1 H2 _ H3] [->|Hg]%elem_of_cons; [exists f; split; [by left|done]|].
  destruct (IH _ H3 Hg) as (h & Hh & E). exists h. split; [by right|done].
Qed.
Lemma einv_mono env gs : ∀ hi hi', (hi ≤ hi')%N → einv hi env gs → einv hi' env gs.
Proof.
  destruct gs as [|[lo U] gs], env as [|f [|g env]]; cbn; intros hi hi' Hle; try done; intuition (try lia);
    match goal with H : assoc ?x _ = Some ?s, H' : ∀ x s, _ → _ |- _ => destruct (H' x s H) as (? & ? & ? & ?); (done || lia) end.
Qed.

(** Where a symbol was found. *)
Lemma find_where env : ∀ gs hi x s, einv hi env gs → find_sym env x = Some s →
  s_name s = x ∧ (s_id s < hi)%N ∧
  (s_top s = true ∧ (s_id s < ntop)%N ∨
   s_top s = false ∧ (ntop ≤ s_id s)%N ∧ ∃ f, f ∈ env ∧ s_parent s = Some (f_node f)).
Proof.
  induction env as [|f env IH]; intros [|[lo U] gs] hi x s; try done.
  - destruct env; [|done]. cbn. intros (_ & Hhi & H). destruct (assoc x (f_names f)) as [s'|] eqn:E; [|done].
    intros [= ->]. destruct (H _ _ E) as (? & ? & ?). split; [done|]. split; [lia|]. by left.
  - cbn [einv find_sym]. intros (H1 & H2 & H3 & H4 & H5 & H6).
    destruct (assoc x (f_names f)) as [s'|] eqn:E.
    + intros [= ->]. destruct (H3 _ _ E) as (? & ? & ? & ?). split; [done|]. split; [lia|]. right.
      split; [done|]. split; [lia|]. exists f. split; [by left|done].
    + intros F. destruct (IH _ _ _ _ H6 F) as (? & ? & D). split; [done|]. split; [lia|].
      destruct D as [D|(? & ? & g & ? & ?)]; [by left|]. right. split; [done|]. split; [done|].
      exists g. split; [by right|done].
Qed.

Definition ext (u : list sym) (g : N * list sym) := (fst g, snd g ++ u).
(** A use that captures nothing in these frames. *)
Lemma einv_skip s env : ∀ gs hi, (∀ g, g ∈ gs → cap (fst g) s = false) → einv hi env gs →
  einv hi env (map (ext [s]) gs).
Proof.
  induction env as [|f env IH]; intros [|[lo U] gs] hi Hc; try done.
  cbn [map ext fst snd einv]. intros (H1 & H2 & H3 & H4 & H5 & H6). do 4 (split; [done|]).
  assert (Hlo : cap lo s = false) by (apply (Hc (lo, U)); by left).
  split; [|apply IH; [intros g Hg; apply Hc; by right|done]].
  destruct (f_set f) as [set|]; [|done]. destruct H5 as [H5 H7]. split.
  - unfold captured. rewrite list.filter_app, filter_cons_False by (by rewrite Hlo).
    by rewrite filter_nil, app_nil_r.
  - intros s' [Hs| ->%elem_of_list_singleton]%elem_of_app Hcs'; [by apply H7|congruence].
Qed.
(** No closure is open. *)
Lemma einv_none u env : ∀ gs hi, (∀ f, f ∈ env → f_set f = None) → einv hi env gs →
  einv hi env (map (ext u) gs).
Proof.
  induction env as [|f env IH]; intros [|[lo U] gs] hi Hn; try done.
  cbn [map ext fst snd einv]. intros (H1 & H2 & H3 & H4 & H5 & H6). do 4 (split; [done|]).
  rewrite Hn by (by left). split; [done|]. apply IH; [intros; apply Hn; by right|done].
Qed.
Lemma lo_below env : ∀ gs hi, einv hi env gs → ∀ g, g ∈ gs → (fst g ≤ hi)%N.
Proof.
  induction env as [|f env IH]; intros [|[lo U] gs] hi; try done.
  { cbn. intros _ g Hg. by apply elem_of_nil in Hg. }
  cbn [einv]. intros (H1 & H2 & H3 & H4 & H5 & H6) g [->|Hg]%elem_of_cons; [done|].
  pose proof (IH _ _ H6 g Hg). lia.
Qed.

(** The walk of captureSymbol. *)
Lemma walk_ok s env : ∀ gs hi c, einv hi env gs → find_sym env (s_name s) = Some s → s_top s = false →
  (∀ g, g ∈ gs → (N.of_nat (length (snd g)) < 2 ^ 32)%N) →
  ∃ env' c', walk hashs env s c = TOk (env', c') ∧ sk env' = sk env ∧ einv hi env' (map (ext [s]) gs).
Proof.
  induction env as [|f env IH]; intros gs hi c E F Ht Hb; [by destruct gs as [|[] ?]|].
  destruct gs as [|[lo U] gs].
  { destruct env; [|done]. cbn in E, F. destruct E as (_ & _ & E).
    destruct (assoc (s_name s) (f_names f)) as [s'|] eqn:A; [|done]. injection F as ->.
    destruct (E _ _ A) as (_ & X & _). congruence. }
  cbn [walk find_sym] in *. pose proof E as E0. cbn [einv] in E. destruct E as (H1 & H2 & H3 & H4 & H5 & H6).
  destruct (assoc (s_name s) (f_names f)) as [s'|] eqn:A.
  { injection F as ->. destruct (H3 _ _ A) as (_ & _ & Hid & Hp). rewrite Hp, N.eqb_refl.
    exists (f :: env), c. split; [done|]. split; [done|]. apply einv_skip; [|done].
    intros g [->|Hg]%elem_of_cons; unfold cap; cbn [fst]; [lia|]. pose proof (lo_below _ _ _ H6 g Hg). lia. }
  destruct (find_where _ _ _ _ _ H6 F) as (_ & Hlt & [[X _]|(_ & Hge & g & Hg & Hp)]); [congruence|].
  assert (Hne : (f_node g <? f_node f)%N = true) by (apply N.ltb_lt; by apply H4).
  rewrite Hp. replace (f_node g =? f_node f)%N with false by lia.
  assert (Hcap : cap lo s = true) by (unfold cap; rewrite Ht; cbn; lia).
  assert (Hb' : ∀ g, g ∈ gs → (N.of_nat (length (snd g)) < 2 ^ 32)%N) by (intros; apply Hb; by right).
  assert (Hn : ∀ env', sk env' = sk env → ∀ g, g ∈ env' → (f_node g < f_node f)%N).
  { intros env' Hsk h Hh. destruct (sk_node env env' h) as (h' & Hh' & <-); [done|done|]. by apply H4. }
  destruct (f_set f) as [set|] eqn:Ef.
  - destruct H5 as [HS HU].
    assert (HlenC : (N.of_nat (length (captured lo U)) < 2 ^ 32)%N).
    { pose proof (Hb (lo, U) ltac:(by left)) as X. cbn [snd] in X. unfold captured.
      pose proof (nub_length same_sym (filter (λ s, cap lo s = true) U)).
      pose proof (filter_length (λ s, cap lo s = true) U). lia. }
    assert (Hcs : captured lo (U ++ [s]) = if existsb (λ y, same_sym y s) (captured lo U)
                    then captured lo U else captured lo U ++ [s]).
    { unfold captured. rewrite list.filter_app, filter_cons_True by done. rewrite filter_nil.
      apply nub_snoc, same_sym_trans. }
    assert (Hadd : ∃ set' k, add_capture hashs set s = TOk (set', k) ∧ setrep set' (captured lo (U ++ [s]))).
    { pose proof (add_ok hashs set _ s HS HlenC) as A2. rewrite Hcs.
      destruct (slots 0 (captured lo U) (s_name s)) as [[s' k]|] eqn:Es.
      - pose proof (slots_some _ _ _ _ _ Es) as (_ & Hk & Hname). rewrite N.sub_0_r in Hk.
        pose proof (nub_elem _ _ _ (elem_of_list_lookup_2 _ _ _ Hk)) as Hin.
        apply elem_of_list_filter in Hin as [Hc' Hin]. pose proof (HU _ Hin Hc') as F'.
        rewrite Hname, F in F'. injection F' as <-. rewrite N.eqb_refl in A2.
        destruct A2 as (set' & Ea & Sr). exists set', k. split; [done|].
        assert (existsb (λ y, same_sym y s) (captured lo U) = true) as ->; [|done].
        apply existsb_exists. exists s. split; [apply elem_of_list_In; by eapply elem_of_list_lookup_2|].
        apply same_sym_refl.
      - destruct A2 as (set' & Ea & Sr). exists set', (N.of_nat (length (captured lo U))). split; [done|].
        assert (existsb (λ y, same_sym y s) (captured lo U) = false) as ->; [|done].
        apply not_true_is_false. intros (y & Hy & Ey)%existsb_exists. apply elem_of_list_In in Hy.
        apply (slots_none _ _ _ Es y Hy). unfold same_sym in Ey. lia. }
    destruct Hadd as (set' & k & -> & HS'). cbn [tbind fst snd].
    destruct (IH gs lo (Some (f_node f)) H6 F Ht Hb') as (env' & c' & -> & Hsk & E'). cbn [tbind fst snd].
    eexists _, c'. split; [done|]. split; [unfold sk in *; cbn; rewrite Hsk; unfold sk1; cbn; by rewrite Ef|].
    cbn [map ext fst snd einv f_names f_set f_node]. do 3 (split; [done|]). split; [by apply Hn|].
    split; [|done]. split; [done|].
    intros t [Ht'| ->%elem_of_list_singleton]%elem_of_app Hct; rewrite (find_sk env' env) by done; [by apply HU|done].
  - destruct (IH gs lo c H6 F Ht Hb') as (env' & c' & -> & Hsk & E'). cbn [tbind fst snd].
    eexists _, c'. split; [done|]. split; [unfold sk in *; cbn; by rewrite Hsk|].
    cbn [map ext fst snd einv]. do 3 (split; [done|]). split; [by apply Hn|]. rewrite Ef. done.
Qed.

Definition rel (ρ : N → option N) (env : list frame) : Prop := ∀ x, ρ x = s_id <$> find_sym env x.
Definition Inv (st : bstate) (gs : list (N * list sym)) : Prop :=
  einv (b_nsym st) (b_env st) gs ∧ (∀ f, f ∈ b_env st → (f_node f < b_nscope st)%N) ∧
  (b_closure st = None → ∀ f, f ∈ b_env st → f_set f = None).
Definition shape (env env' : list frame) : Prop :=
  match env, env' with
  | f :: r, f' :: r' => f_node f = f_node f' ∧ (f_set f = None ↔ f_set f' = None) ∧ sk r = sk r'
  | _, _ => False
  end.
Lemma shape_trans a b c : shape a b → shape b c → shape a c.
Proof. destruct a, b, c; cbn; try done. intros (? & ? & ?) (? & ? & ?). split; [congruence|]. split; [naive_solver|congruence]. Qed.
Lemma sk_shape a b : a ≠ [] → sk a = sk b → shape a b.
Proof.
  destruct a as [|f a], b as [|g b]; cbn; try done. intros _ [= H1 _ H2 H3]. split; [done|]. split; [|done].
  destruct (f_set f), (f_set g); done.
Qed.
Lemma sk_none env env' : sk env = sk env' → (∀ f, f ∈ env → f_set f = None) → ∀ f, f ∈ env' → f_set f = None.
Proof.
  revert env'. induction env as [|f env IH]; intros [|f' env']; cbn; try done.
  intros [= _ _ H2 H3] Hn g [->|Hg]%elem_of_cons.
  - rewrite (Hn f ltac:(by left)) in H2. by destruct (f_set f').
  - eapply IH; [done| |done]. intros h Hh. apply Hn. by right.
Qed.

Lemma define_ok f env x n gs env1 ρ :
  define_sym (f :: env) (Sym n x false (Some (f_node f))) = Some env1 →
  gs ≠ [] → einv n (f :: env) gs → rel ρ (f :: env) →
  ∃ f1, env1 = f1 :: env ∧ f_node f1 = f_node f ∧ f_set f1 = f_set f ∧
    einv (n + 1) (f1 :: env) gs ∧ rel (bound ρ x n) (f1 :: env).
Proof.
  unfold define_sym. cbn [s_name]. destruct (assoc x (f_names f)) eqn:A; [done|]. intros [= <-] Hg E R.
  eexists. split; [done|]. split; [done|]. split; [done|]. split.
  - destruct gs as [|[lo U] gs]; [done|]. cbn [einv f_names f_set f_node] in *.
    destruct E as (H1 & H2 & H3 & H4 & H5 & H6). split; [lia|]. split; [done|]. split; [|done].
    intros y s. cbn [assoc]. destruct (x =? y)%N eqn:Exy.
    + intros [= <-]. cbn. apply N.eqb_eq in Exy. split; [done|]. split; [done|]. split; [lia|done].
    + intros Hy. destruct (H3 _ _ Hy) as (? & ? & ? & ?). split; [done|]. split; [done|]. split; [lia|done].
  - intros y. unfold bound. cbn [find_sym f_names assoc]. destruct (x =? y)%N; [done|]. apply R.
Qed.
Lemma define_params_ok ps : ∀ f env n gs env1 n1 ρ,
  define_params (f :: env) n (f_node f) ps = Some (env1, n1) →
  gs ≠ [] → einv n (f :: env) gs → rel ρ (f :: env) →
  ∃ f1 ρ1, env1 = f1 :: env ∧ f_node f1 = f_node f ∧ f_set f1 = f_set f ∧ bound_all ρ n ps = (ρ1, n1) ∧
    einv n1 (f1 :: env) gs ∧ rel ρ1 (f1 :: env) ∧ (n ≤ n1)%N.
Proof.
  induction ps as [|p ps IH]; intros f env n gs env1 n1 ρ; cbn [define_params bound_all].
  - intros [= <- <-] Hg E R. exists f, ρ. repeat (split; [done|]). lia.
  - destruct (define_sym _ _) as [env2|] eqn:D; [|done]. intros P Hg E R.
    destruct (define_ok _ _ _ _ _ _ _ D Hg E R) as (f1 & -> & Hn1 & Hs1 & E1 & R1).
    rewrite <- Hn1 in P. destruct (IH _ _ _ _ _ _ _ P Hg E1 R1) as (f2 & ρ2 & -> & Hn2 & Hs2 & B & E2 & R2 & Hle).
    exists f2, ρ2. split; [done|]. split; [congruence|]. split; [congruence|]. split; [done|]. split; [done|].
    split; [done|]. lia.
Qed.

Definition orel (o : N * (list (option sym) * N)) (c : list (N * N)) : Prop :=
  ∃ L, snd o = (map Some L, N.of_nat (length L)) ∧ map var L = c.
Definition topok (s : sym) : Prop := s_top s = (s_id s <? ntop)%N.
Lemma ext_ext u v gs : map (ext v) (map (ext u) gs) = map (ext (u ++ v)) gs.
Proof. rewrite map_map. apply map_ext. intros [lo U]. unfold ext. cbn. by rewrite app_assoc. Qed.
Lemma filter_cap n u : Forall topok u →
  filter (λ v, (ntop <=? snd v)%N && (snd v <? n)%N = true) (map var u) = map var (filter (λ s, cap n s = true) u).
Proof.
  induction 1 as [|s u Hs Hu IH]; [done|]. cbn [map]. rewrite !filter_cons.
  assert (X : (ntop <=? (var s).2)%N && ((var s).2 <? n)%N = cap n s).
  { unfold cap, var. cbn [snd]. rewrite Hs. lia. }
  rewrite X. case_decide; cbn [map]; by rewrite IH.
Qed.

Lemma bind_ok t : no_case t = true → ∀ st gs ρ, Inv st gs → gs ≠ [] → rel ρ (b_env st) →
  (∀ g, g ∈ gs → (N.of_nat (length (snd g)) + uses t ≤ 2 ^ 32)%N) →
  bind hashs t st = TOk None ∨
  ∃ st' u ρ' cs o us, bind hashs t st = TOk (Some st') ∧
    sem ntop t ρ (b_nsym st) = (ρ', b_nsym st', map var u, cs) ∧
    N.of_nat (length u) = uses t ∧ Forall topok u ∧
    Inv st' (map (ext u) gs) ∧ rel ρ' (b_env st') ∧ shape (b_env st) (b_env st') ∧
    b_closure st' = b_closure st ∧ b_out st' = b_out st ++ o ∧ Forall2 orel o cs ∧
    b_uses st' = b_uses st ++ us ∧ map fst us = map s_id u ∧
    (b_nsym st ≤ b_nsym st')%N ∧ (b_nscope st ≤ b_nscope st')%N.
Proof.
  assert (ext_nil : ∀ gs, map (ext []) gs = gs).
  { induction gs as [|[lo U] gs IH]; [done|]. cbn. unfold ext at 1. cbn. by rewrite app_nil_r, IH. }
  assert (shape_refl : ∀ st gs, Inv st gs → shape (b_env st) (b_env st)).
  { intros st gs (E & _). destruct (b_env st); [by destruct gs as [|[] ?]|]. done. }
  induction t as [|x|x e IHe|a IHa b IHb|t IHt|x t IHt|ps t IHt]; cbn [no_case]; intros Hnc st gs ρ I Hg R Hu.
  - right. exists st, [], ρ, [], [], []. cbn. rewrite ext_nil, !app_nil_r.
    split; [done|]. split; [done|]. split; [done|]. split; [constructor|]. split; [done|]. split; [done|].
    split; [by eapply shape_refl|]. split; [done|]. split; [done|]. split; [constructor|]. split; [done|]. split; [done|]. lia.
  - (* use *)
    cbn [bind sem uses] in *. destruct (find_sym (b_env st) x) as [s|] eqn:F; [right|by left].
    assert (Rx : ρ x = Some (s_id s)) by (rewrite R, F; done). rewrite Rx.
    pose proof I as (E & Hn & Hc).
    destruct (find_where _ _ _ _ _ E F) as (Hname & Hlt & Hwhere).
    assert (Hcapt : ∃ env' c', capture_symbol hashs (b_env st) (b_closure st) s = TOk (env', c') ∧
              sk env' = sk (b_env st) ∧ einv (b_nsym st) env' (map (ext [s]) gs)).
    { unfold capture_symbol. destruct (b_closure st) as [c|] eqn:Eb.
      - destruct Hwhere as [[Ht Hid]|(Ht & Hid & _)]; rewrite Ht.
        + exists (b_env st), None. split; [done|]. split; [done|]. apply einv_skip; [|done].
          intros g _. unfold cap. by rewrite Ht.
        + apply walk_ok; [done|by rewrite Hname|done|]. intros g Hin. specialize (Hu g Hin). lia.
      - exists (b_env st), None. split; [done|]. split; [done|]. apply einv_none; [|done]. by apply Hc. }
    destruct Hcapt as (env' & c' & -> & Hsk & E'). cbn [tbind fst snd].
    eexists _, [s], ρ, [], [], [(s_id s, c')]. split; [done|]. cbn [b_nsym b_env b_closure b_out b_uses b_nscope].
    split; [cbn; unfold var; by rewrite Hname|]. split; [done|].
    split; [constructor; [|constructor]; unfold topok; destruct Hwhere as [[-> ?]|(-> & ? & _)]; lia|].
    split; [split; [done|]; split|].
    + intros f Hf. destruct (sk_node (b_env st) env' f) as (h & Hh & <-); [done|done|]. by apply Hn.
    + intros Hb. eapply sk_none; [symmetry; exact Hsk|]. by apply Hc.
    + split; [intros y; rewrite (find_sk env' (b_env st)) by done; apply R|].
      split; [apply sk_shape; [|done]; destruct (b_env st); [by destruct gs as [|[] ?]|done]|].
      split; [done|]. split; [by rewrite app_nil_r|]. split; [constructor|]. split; [done|]. split; [done|]. lia.
  - (* let *)
    cbn [bind sem uses] in *.
    destruct (IHe Hnc st gs ρ I Hg R Hu) as [->|(st1 & u & ρ1 & cs & o & us & -> & S1 & Hl & Ht & I1 & R1 & Sh & C1 & O1 & F1 & U1 & M1 & L1 & L2)].
    { by left. }
    cbn [tbind]. rewrite S1. pose proof I1 as (E1 & Hn1 & Hc1).
    destruct (b_env st1) as [|f1 env1] eqn:Eenv; [by destruct (map (ext u) gs) as [|[] ?]|]. cbn [top_node].
    destruct (define_sym _ _) as [env2|] eqn:D; [right|by left].
    assert (Hg1 : map (ext u) gs ≠ []) by (by destruct gs).
    destruct (define_ok _ _ _ _ _ _ _ D Hg1 E1 R1) as (f2 & -> & Hn2 & Hs2 & E2 & R2).
    eexists _, u, _, cs, o, us. split; [done|]. cbn [b_nsym b_env b_closure b_out b_uses b_nscope].
    split; [done|]. split; [done|]. split; [done|]. split; [split; [done|]; split|].
    + cbn [b_env b_nscope]. intros f [->|Hf]%elem_of_cons; [rewrite Hn2; apply Hn1; by left|apply Hn1; by right].
    + cbn [b_env b_closure]. intros Hb f [->|Hf]%elem_of_cons; [rewrite Hs2; apply Hc1; [done|by left]|apply Hc1; [done|by right]].
    + split; [done|]. split; [|split; [done|]; split; [done|]; split; [done|]; split; [done|]; split; [done|]; lia].
      eapply shape_trans; [exact Sh|]. cbn. rewrite Hn2, Hs2. done.
  - (* sequence *)
    cbn [bind sem uses] in *. apply andb_true_iff in Hnc as [Hna Hnb].
    destruct (IHa Hna st gs ρ I Hg R) as [->|(st1 & u & ρ1 & cs & o & us & -> & S1 & Hl & Ht & I1 & R1 & Sh & C1 & O1 & F1 & U1 & M1 & L1 & L2)].
    { intros g Hin. specialize (Hu g Hin). lia. }
    { by left. }
    cbn [tbind]. rewrite S1.
    destruct (IHb Hnb st1 (map (ext u) gs) ρ1 I1 ltac:(by destruct gs) R1)
      as [->|(st2 & u2 & ρ2 & cs2 & o2 & us2 & -> & S2 & Hl2 & Ht2 & I2 & R2 & Sh2 & C2 & O2 & F2 & U2 & M2 & L3 & L4)].
    { intros g (g0 & -> & Hin)%elem_of_list_fmap. specialize (Hu g0 Hin). unfold ext. cbn [snd]. rewrite app_length. lia. }
    { by left. }
    right. rewrite S2. exists st2, (u ++ u2), ρ2, (cs ++ cs2), (o ++ o2), (us ++ us2).
    split; [done|]. split; [by rewrite map_app|]. split; [rewrite app_length; lia|]. split; [by apply Forall_app|].
    split; [by rewrite <- ext_ext|]. split; [done|]. split; [by eapply shape_trans|]. split; [congruence|].
    split; [rewrite O2, O1; by rewrite app_assoc|]. split; [by apply Forall2_app|].
    split; [rewrite U2, U1; by rewrite app_assoc|]. split; [rewrite !map_app; congruence|]. lia.
  - (* scope *)
    cbn [bind sem uses] in *. pose proof I as (E & Hn & Hc).
    edestruct (IHt Hnc (BState (Frame (b_nscope st) None [] :: b_env st) (b_nsym st) (b_nscope st + 1)
                 (b_closure st) (b_out st) (b_uses st)) ((b_nsym st, []) :: gs) ρ)
      as [->|(st1 & u & ρ1 & cs & o & us & -> & S1 & Hl & Ht & I1 & R1 & Sh & C1 & O1 & F1 & U1 & M1 & L1 & L2)].
    { split; [|split]; cbn [b_env b_nsym b_nscope b_closure].
      - cbn [einv f_names f_set f_node assoc]. split; [lia|]. split; [|split; [done|]; split; [done|]; split; done].
        clear - E Hg. destruct gs as [|[lo U] gs]; [done|]. destruct (b_env st); [done|]. cbn in E. lia.
      - intros f [->|Hf]%elem_of_cons; cbn; [lia|]. specialize (Hn f Hf). lia.
      - intros Hb f [->|Hf]%elem_of_cons; [done|by apply Hc]. }
    { done. }
    { intros x. cbn. apply R. }
    { intros g [->|Hin]%elem_of_cons; [|by apply Hu]. cbn [snd length].
      destruct gs as [|g0 gs]; [done|]. specialize (Hu g0 ltac:(by left)). lia. }
    { by left. }
    right. cbn [tbind b_nsym b_closure b_out b_uses b_nscope b_env] in *. rewrite S1.
    destruct I1 as (E1 & Hn1 & Hc1). destruct (b_env st1) as [|f1 env1] eqn:Eenv; [done|].
    cbn [map ext fst snd einv app] in E1. destruct E1 as (B1 & B2 & B3 & B4 & B5 & B6).
    destruct Sh as (Sh1 & Sh2 & Sh3). cbn [pop_frame].
    eexists _, u, ρ, cs, o, us. split; [done|]. cbn [b_nsym b_env b_closure b_out b_uses b_nscope].
    split; [done|]. split; [done|]. split; [done|]. split; [split; [|split]|].
    + cbn [b_nsym b_env]. eapply einv_mono; [|exact B6]. lia.
    + cbn [b_env b_nscope]. intros f Hf. apply Hn1. by right.
    + cbn [b_env b_closure]. intros Hb. eapply sk_none; [exact Sh3|]. by apply Hc.
    + split; [intros y; rewrite (find_sk env1 (b_env st)) by done; apply R|].
      split; [apply sk_shape; [|done]; destruct (b_env st); [by destruct gs as [|[] ?]|done]|].
      split; [done|]. split; [done|]. split; [done|]. split; [done|]. split; [done|]. lia.
  - done.
  - (* closure *)
    cbn [bind sem uses] in *. pose proof I as (E & Hn & Hc).
    destruct (define_params _ _ _ _) as [[env1 n1]|] eqn:P; [|by left].
    change (b_nscope st) with (f_node (Frame (b_nscope st) (Some cset_new) [])) in P at 2.
    assert (E0 : einv (b_nsym st) (Frame (b_nscope st) (Some cset_new) [] :: b_env st) ((b_nsym st, []) :: gs)).
    { cbn [einv f_names f_set f_node assoc]. split; [lia|]. split; [|split; [done|]; split; [done|]; split; [|done]].
      - clear - E Hg. destruct gs as [|[lo U] gs]; [done|]. destruct (b_env st); [done|]. cbn in E. lia.
      - split; [apply new_setrep|]. intros s X. by apply elem_of_nil in X. }
    assert (R0 : rel ρ (Frame (b_nscope st) (Some cset_new) [] :: b_env st)) by (intros x; cbn; apply R).
    assert (Hg0 : (b_nsym st, []) :: gs ≠ []) by done.
    destruct (define_params_ok _ _ _ _ _ _ _ _ P Hg0 E0 R0) as (f1 & ρ1 & -> & Nf & Sf & B & E1 & R1 & Ln).
    rewrite B. cbn [f_node f_set] in Nf, Sf.
    edestruct (IHt Hnc (BState (f1 :: b_env st) n1 (b_nscope st + 1)
                 (Some (b_nscope st)) (b_out st) (b_uses st)) ((b_nsym st, []) :: gs) ρ1)
      as [->|(st1 & u & ρ2 & cs & o & us & -> & S1 & Hl & Ht & I1 & R2 & Sh & C1 & O1 & F1 & U1 & M1 & L1 & L2)].
    { split; [|split]; cbn [b_env b_nsym b_nscope b_closure].
      - exact E1.
      - intros f [->|Hf]%elem_of_cons; cbn; [rewrite Nf; lia|]. specialize (Hn f Hf). lia.
      - done. }
    { done. }
    { exact R1. }
    { intros g [->|Hin]%elem_of_cons; [|by apply Hu]. cbn [snd length].
      destruct gs as [|g0 gs]; [done|]. specialize (Hu g0 ltac:(by left)). lia. }
    { by left. }
    right. cbn [tbind b_nsym b_closure b_out b_uses b_nscope b_env] in *. rewrite S1.
    destruct I1 as (E2 & Hn1 & Hc1). destruct (b_env st1) as [|f2 env2] eqn:Eenv; [done|].
    cbn [map ext fst snd einv app] in E2. destruct E2 as (B1 & B2 & B3 & B4 & B5 & B6).
    destruct Sh as (Sh1 & Sh2 & Sh3). cbn [pop_frame top_set].
    destruct (f_set f2) as [set2|] eqn:Ef2; [|rewrite Sf in Sh2; by destruct Sh2 as [_ Sh2]; specialize (Sh2 eq_refl)].
    destruct B5 as [B5 _].
    eexists _, u, ρ, _, (o ++ [_]), us. split; [done|]. cbn [b_nsym b_env b_closure b_out b_uses b_nscope].
    split; [done|]. split; [done|]. split; [done|]. split; [split; [|split]|].
    + cbn [b_nsym b_env]. eapply einv_mono; [|exact B6]. lia.
    + cbn [b_env b_nscope]. intros f Hf. apply Hn1. by right.
    + cbn [b_env b_closure]. intros Hb. eapply sk_none; [exact Sh3|]. by apply Hc.
    + split; [intros y; rewrite (find_sk env2 (b_env st)) by done; apply R|].
      split; [apply sk_shape; [|done]; destruct (b_env st); [by destruct gs as [|[] ?]|done]|].
      split; [done|]. split; [rewrite O1; by rewrite <- app_assoc|].
      split; [|split; [done|]; split; [done|]; lia].
      apply Forall2_app; [done|]. constructor; [|constructor].
      exists (captured (b_nsym st) u). cbn [snd]. rewrite (ordered_ok hashs _ _ B5). split; [done|].
      unfold captured. rewrite filter_cap by done. symmetry. by apply nub_map.
Qed.
End bind.
