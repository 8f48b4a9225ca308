From stdpp Require Import list numbers.
From Coq Require Import ZifyBool ZifyNat ZifyN.
From Verif Require Import FnvModel HTableModel HTableSpec HTableProofs InternModel InternSpec.
#[local] Arguments mask : simpl never.
#[local] Arguments N.land : simpl never.
#[local] Arguments N.lor : simpl never.
#[local] Arguments N.eqb : simpl never.
#[local] Arguments N.testbit : simpl never.

Section ind.
  Variable P : type → Prop.
  Hypothesis HBase : ∀ k, P (TBase k).
  Hypothesis HPrim : ∀ i, P (TPrim i).
  Hypothesis HLit : ∀ l, P (TLit l).
  Hypothesis HThis : ∀ o f n, P (TThis o f n).
  Hypothesis HOne : ∀ k f t, P t → P (TOne k f t).
  Hypothesis HArr : ∀ f n t, P t → P (TArr f n t).
  Hypothesis HMap : ∀ k v, P k → P v → P (TMap k v).
  Hypothesis HAlias : ∀ f n t, P t → P (TAlias f n t).
  Hypothesis HWrap : ∀ f t, P t → P (TWrap f t).
  Hypothesis HName : ∀ k f n ns d, P (TName k f n ns d).
  Hypothesis HMany : ∀ k f ts, Forall P ts → P (TMany k f ts).
  Hypothesis HApplied : ∀ f t ts, P t → Forall P ts → P (TApplied f t ts).
  Hypothesis HFunc : ∀ f n s t ts, P t → Forall P ts → P (TFunc f n s t ts).
  Hypothesis HModule : ∀ f n ns p, P (TModule f n ns p).
  Hypothesis HGeneric : ∀ n ns d k, P (TGeneric n ns d k).
  Hypothesis HExc : ∀ n d, P (TExc n d).
  Hypothesis HAnon : ∀ o f ms, P (TAnon o f ms).
  Fixpoint type_ind' (t : type) : P t :=
    let all := fix all (l : list type) : Forall P l :=
      match l with [] => List.Forall_nil P | x :: l => @List.Forall_cons _ P x l (type_ind' x) (all l) end in
    match t with
    | TBase k => HBase k | TPrim i => HPrim i | TLit l => HLit l | TThis o f n => HThis o f n
    | TOne k f t => HOne k f t (type_ind' t) | TArr f n t => HArr f n t (type_ind' t)
    | TMap k v => HMap k v (type_ind' k) (type_ind' v) | TAlias f n t => HAlias f n t (type_ind' t)
    | TWrap f t => HWrap f t (type_ind' t) | TName k f n ns d => HName k f n ns d
    | TMany k f ts => HMany k f ts (all ts) | TApplied f t ts => HApplied f t ts (type_ind' t) (all ts)
    | TFunc f n s t ts => HFunc f n s t ts (type_ind' t) (all ts)
    | TModule f n ns p => HModule f n ns p | TGeneric n ns d k => HGeneric n ns d k | TExc n d => HExc n d
    | TAnon o f ms => HAnon o f ms
    end.
End ind.

(** ** Flags *)
Lemma mask_mask f : mask (mask f) = mask f.
Proof. unfold mask. by rewrite <- N.land_assoc, N.land_diag. Qed.
Lemma mask_lor a b : mask (N.lor a b) = N.lor (mask a) (mask b).
Proof. unfold mask. apply N.land_lor_distr_l. Qed.
Lemma mask_0 : mask 0 = 0%N.
Proof. reflexivity. Qed.
Lemma split_flags w f g f' g' : N.land f w = f → N.land g w = 0%N → N.land f' w = f' → N.land g' w = 0%N →
  N.lor f g = N.lor f' g' → f = f' ∧ g = g'.
Proof.
  intros H1 H2 H3 H4 E.
  assert (∀ a b, N.land a w = a → N.land b w = 0%N → N.land (N.lor a b) w = a ∧ N.ldiff (N.lor a b) w = b) as K.
  { intros a b Ha Hb. split.
    - rewrite N.land_lor_distr_l, Ha, Hb, N.lor_0_r. done.
    - apply N.bits_inj. intros n. rewrite N.ldiff_spec, N.lor_spec.
      assert (N.testbit (N.land a w) n = N.testbit a n) as A by (by rewrite Ha).
      assert (N.testbit (N.land b w) n = false) as B by (rewrite Hb; apply N.bits_0).
      rewrite N.land_spec in A, B. destruct (N.testbit a n), (N.testbit b n), (N.testbit w n); done. }
  destruct (K f g H1 H2) as [A B]. destruct (K f' g' H3 H4) as [A' B']. rewrite E in A, B. split; congruence.
Qed.

(** ** Normal forms *)
Lemma tag_norm t : tag (norm t) = tag t.
Proof. destruct t as [[]| | | |[] ? ?| | | | |[] ? ? ? ?|[] ? ?| | | | | |]; done. Qed.
Lemma flags_norm t : flags (norm t) = mask (flags t).
Proof. by destruct t. Qed.
Lemma is_wrap_norm t : is_wrap (norm t) = is_wrap t.
Proof. by destruct t. Qed.
Lemma extern_mask f : isExtern (mask f) = isExtern f.
Proof. unfold isExtern, mask. rewrite N.land_spec. replace (N.testbit applicable 37) with true by reflexivity. apply andb_true_r. Qed.
Lemma forallb_norm (f g : type → bool) ts : Forall (λ t, f (norm t) = g t) ts → forallb f (map norm ts) = forallb g ts.
Proof. induction 1 as [|t ts H _ IH]; [done|]. cbn. by rewrite H, IH. Qed.
Lemma good_norm d t : good d (norm t) = good d t.
Proof.
  induction t as [k|i|l|o f n|k f t IH|f n t IH|k v IHk IHv|f n t IH|f t IH|k f n ns dd|k f ts IH|f t ts IH IHs|f n s t ts IH IHs|f n ns p|n ns dd k|n dd|o f ms] using type_ind';
    cbn [norm good is_wrap flags tag orb]; rewrite ?extern_mask, ?mask_mask, ?tag_norm, ?is_wrap_norm; try done.
  all: try (by rewrite IH).
  - by rewrite IHk, IHv.
  - by rewrite (forallb_norm _ (good d)).
  - by rewrite IH, (forallb_norm _ (good d)).
  - rewrite IH, (forallb_norm _ (good d)) by done. by destruct n, s.
Qed.
Section hashing.
Context (u8 u32 u64 : N → N → N).
Lemma head_norm h t : hash_head u32 u64 h (norm t) = hash_head u32 u64 h t.
Proof. unfold hash_head. by rewrite tag_norm, flags_norm, mask_mask. Qed.
Lemma tags_norm ts : ∀ h, hash_tags u64 h (map norm ts) = hash_tags u64 h ts.
Proof. unfold hash_tags. induction ts as [|t ts IH]; intros h; [done|]. cbn [map fold_left]. by rewrite tag_norm, IH. Qed.
Lemma hash_norm d t : good d t = true → ∀ h, hash_in u8 u32 u64 (norm t) h = hash_in u8 u32 u64 t h.
Proof.
  induction t as [k|i|l|o f n|k f t IH|f n t IH|k v IHk IHv|f n t IH|f t IH|k f n ns dd|k f ts IH|f t ts IH IHs|f n s t ts IH IHs|f n ns p|n ns dd k|n dd|o f ms] using type_ind';
    intros G h; cbn [good] in G; rewrite ?andb_true_iff in G; cbn [norm hash_in]; rewrite ?head_norm, ?tags_norm; try done.
  - rewrite IH by naive_solver. done.
  - rewrite IH by naive_solver. done.
  - rewrite IHk, IHv by naive_solver. done.
  - rewrite extern_mask. destruct (isExtern f); [naive_solver|]. apply IH. naive_solver.
  - rewrite IH by naive_solver. done.
  - rewrite IH by naive_solver. done.
  - rewrite IH by naive_solver. done.
  - naive_solver.
Qed.
Lemma type_hash_norm d a b h : good d a = true → good d b = true → norm a = norm b → hash_type u8 u32 u64 h a = hash_type u8 u32 u64 h b.
Proof.
  intros Ga Gb E. unfold hash_type. rewrite <- (hash_norm d a), <- (hash_norm d b), <- (head_norm _ a), <- (head_norm _ b) by done. by rewrite E.
Qed.
End hashing.

(** ** Comparison *)
Fixpoint all (ls rs : list type) : bool :=
  match ls, rs with
  | [], [] => true
  | l :: ls, r :: rs => compare l 0 r && all ls rs
  | _, _ => false
  end.
Lemma unwrap_wrap f t acc : is_wrap t = false → unwrap (TWrap f t) acc = (t, N.lor acc f).
Proof. intros H. cbn. by destruct t. Qed.
Lemma unwrap_id t acc : is_wrap t = false → unwrap t acc = (t, acc).
Proof. by destruct t. Qed.
(** The wrapper flags and the rest of a good type. *)
Definition core (t : type) : type := match t with TWrap _ t => t | _ => t end.
Definition wflags (t : type) : N := match t with TWrap f _ => f | _ => 0%N end.
Lemma good_core d t : good d t = true →
  good d (core t) = true ∧ is_wrap (core t) = false ∧ unwrap t 0 = (core t, wflags t) ∧
  N.land (mask (wflags t)) (W d (tag (core t))) = mask (wflags t) ∧ N.land (mask (flags (core t))) (W d (tag (core t))) = 0%N ∧
  (is_wrap t = true ↔ mask (wflags t) ≠ 0%N).
Proof.
  intros G. destruct (is_wrap t) eqn:E.
  - destruct t; try done. cbn [good is_wrap] in G. rewrite !andb_true_iff in G. cbn [core wflags]. destruct G as (_ & ((Hw & H0) & HW) & G).
    apply negb_true_iff in Hw, H0. apply N.eqb_eq in HW. apply N.eqb_neq in H0. split_and!; try done.
    + rewrite unwrap_wrap by done. by rewrite N.lor_0_l.
    + destruct t; try done; cbn [good is_wrap orb] in G; rewrite andb_true_iff in G; destruct G as [G _]; apply N.eqb_eq in G; done.
  - assert (core t = t) as -> by (by destruct t). assert (wflags t = 0%N) as -> by (by destruct t).
    split_and!; try done.
    + by apply unwrap_id.
    + destruct t; try done; cbn [good is_wrap orb] in G; rewrite andb_true_iff in G; destruct G as [G _]; apply N.eqb_eq in G; done.
Qed.
Lemma meet_good d l lf r : good d r = true →
  meet l lf r = if (tag l =? tag (core r))%N && (mask (N.lor lf (flags l)) =? mask (N.lor (wflags r) (flags (core r))))%N then Some (core r) else None.
Proof.
  intros G. destruct (good_core d r G) as (_ & _ & U & _). unfold meet. rewrite U.
  destruct (tag l =? tag (core r))%N, (mask _ =? mask _)%N; done.
Qed.
(** The comparison of two cores whose tags and flags agree. *)
Definition body (l r : type) : bool :=
  match l, r with
  | TBase _, TBase _ => true
  | TPrim a, TPrim b => (a =? b)%N
  | TLit a, TLit b => lit_eq a b
  | TThis o _ _, TThis o' _ _ => (o =? o')%N
  | TOne _ _ a, TOne _ _ b => compare a 0 b
  | TArr _ n a, TArr _ n' b => (n =? n')%N && compare a 0 b
  | TMap k v, TMap k' v' => compare k 0 k' && compare v 0 v'
  | TAlias f n a, TAlias _ n' b => if isExtern f then eqn n n' else compare a 0 b
  | TName k _ n ns _, TName _ _ n' ns' _ => match k with Opaque | UntaggedUnion => eqn n n' | _ => eqn n n' && eqo ns ns' end
  | TMany _ _ ts, TMany _ _ ts' => all ts ts'
  | TApplied _ from args, TApplied _ from' args' => compare from 0 from' && all args args'
  | TFunc _ n s ret ps, TFunc _ n' s' ret' ps' => eqo n n' && negb (scopes_differ n s s') && compare ret 0 ret' && all ps ps'
  | TModule _ _ _ p, TModule _ _ _ p' => eqn p p'
  | TGeneric n ns d _, TGeneric n' ns' d' _ => eqn n n' && eqo ns ns' && (d =? d')%N
  | TExc _ d, TExc _ d' => (d =? d')%N
  | _, _ => false
  end.
Lemma compare_core l lf r : is_wrap l = false → (∀ o f ms, l ≠ TAnon o f ms) →
  compare l lf r = match meet l lf r with Some r => body l r | None => false end.
Proof. intros H A. destruct l; try done; cbn [compare body]; try (destruct (meet _ _ _) as [[]|]; done). by destruct (A obj fl ms). Qed.
Lemma all_iff d ts : Forall (λ t, good d t = true → ∀ r, good d r = true → compare t 0 r = true ↔ norm t = norm r) ts →
  forallb (good d) ts = true → ∀ rs, forallb (good d) rs = true → all ts rs = true ↔ map norm ts = map norm rs.
Proof.
  induction 1 as [|t ts H _ IH]; intros Gt [|r rs] Gr; cbn [all map]; try done.
  cbn in Gt, Gr. rewrite !andb_true_iff in *. destruct Gt, Gr. rewrite H, IH by done. split; [intros [-> ->]; done|intros [= -> ->]; done].
Qed.
Lemma float_iff a b : lit_ok (LFloat a) = true → lit_ok (LFloat b) = true → float_eq a b = true ↔ a = b.
Proof.
  cbn [lit_ok]. rewrite !andb_true_iff, !negb_true_iff. intros ((Na & Za) & La) ((Nb & Zb) & Lb). unfold float_eq. rewrite Na, Nb. cbn [negb andb].
  rewrite orb_true_iff, andb_true_iff, N.eqb_eq. split; [|by left]. intros [H|[H1 H2]]; [done|].
  unfold is_zero in *. apply N.eqb_eq in H1, H2. apply N.eqb_neq in Za, Zb. apply N.ltb_lt in La, Lb.
  pose proof (N.div_mod a (2 ^ 63) ltac:(done)) as Ea. pose proof (N.div_mod b (2 ^ 63) ltac:(done)) as Eb. rewrite H1 in Ea. rewrite H2 in Eb.
  change (2 ^ 64)%N with (2 * 2 ^ 63)%N in La, Lb.
  set (q := (a / 2 ^ 63)%N) in *. set (q' := (b / 2 ^ 63)%N) in *. clearbody q q'. generalize dependent (2 ^ 63)%N. intros m; intros.
  assert (q = 0 ∨ q = 1 ∨ 2 ≤ q)%N as [->|[->|?]] by lia; [|lia|nia]. assert (q' = 0 ∨ q' = 1 ∨ 2 ≤ q')%N as [->|[->|?]] by lia; [lia|lia|nia].
Qed.
Lemma lit_iff a b : lit_ok a = true → lit_ok b = true → lit_eq a b = true ↔ a = b.
Proof.
  intros Ga Gb. destruct a, b; cbn [lit_eq]; try done; unfold eqn; rewrite ?andb_true_iff, ?N.eqb_eq, ?Bool.eqb_true_iff, ?bool_decide_eq_true.
  all: try (rewrite (float_iff _ _ Ga Gb)).
  all: try (split; [intros; naive_solver|intros [=]; naive_solver]).
Qed.
Lemma extern_good d f n t : good d (TAlias f n t) = true → isExtern f = false.
Proof. cbn [good]. rewrite !andb_true_iff, negb_true_iff. tauto. Qed.
Ltac sv := split; [intros; destruct_and?; congruence|let H := fresh in intros H; injection H; intros; repeat split; congruence].
Lemma body_iff d l : good d l = true → is_wrap l = false →
  (∀ t, (∃ k f, l = TOne k f t) ∨ (∃ f n, l = TArr f n t) ∨ (∃ v, l = TMap t v) ∨ (∃ k, l = TMap k t) ∨ (∃ f n, l = TAlias f n t) ∨
        (∃ f ts, l = TApplied f t ts) ∨ (∃ f n s ts, l = TFunc f n s t ts) →
     good d t = true → ∀ r, good d r = true → compare t 0 r = true ↔ norm t = norm r) →
  (∀ ts, (∃ k f, l = TMany k f ts) ∨ (∃ f t, l = TApplied f t ts) ∨ (∃ f n s t, l = TFunc f n s t ts) →
     Forall (λ t, good d t = true → ∀ r, good d r = true → compare t 0 r = true ↔ norm t = norm r) ts) →
  ∀ r, good d r = true → is_wrap r = false → tag l = tag r → mask (flags l) = mask (flags r) → body l r = true ↔ norm l = norm r.
Proof.
  intros Gl Wl IH IHs r Gr Wr T F.
  destruct l as [k|i|l|o f n|k f t|f n t|k v|f n t|f t|k f n ns dd|k f ts|f t ts|f n s t ts|f n ns p|n ns dd k|n dd|o f ms]; try done;
  destruct r as [k'|i'|l'|o' f' n'|k' f' t'|f' n' t'|k' v'|f' n' t'|f' t'|k' f' n' ns' dd'|k' f' ts'|f' t' ts'|f' n' s' t' ts'|f' n' ns' p'|n' ns' dd' k'|n' dd'|o' f' ms'];
    try (exfalso; destruct k; try destruct k'; done); try (exfalso; destruct k'; done); try done; cbn [flags] in F; cbn [body norm].
  - destruct k, k'; try done.
  - rewrite N.eqb_eq. sv.
  - rewrite lit_iff; [sv|..]; cbn [good] in Gl, Gr; apply andb_true_iff in Gl, Gr; tauto.
  - rewrite N.eqb_eq, F. sv.
  - assert (k = k') as -> by (destruct k, k'; done). rewrite F. cbn [good] in Gl, Gr. apply andb_true_iff in Gl as [_ Gl], Gr as [_ Gr].
    rewrite (IH t) by eauto 10. sv.
  - rewrite F, andb_true_iff, N.eqb_eq. cbn [good] in Gl, Gr. apply andb_true_iff in Gl as [_ Gl], Gr as [_ Gr].
    rewrite (IH t) by eauto 10. sv.
  - cbn [good] in Gl, Gr. rewrite !andb_true_iff in Gl, Gr. destruct Gl as (_ & ? & ?), Gr as (_ & ? & ?). rewrite andb_true_iff.
    rewrite (IH k), (IH v) by eauto 10. sv.
  - rewrite (extern_good _ _ _ _ Gl), F. cbn [good] in Gl, Gr. rewrite !andb_true_iff in Gl, Gr. destruct Gl as (_ & _ & ?), Gr as (_ & _ & ?).
    rewrite (IH t) by eauto 10. sv.
  - assert (k = k') as -> by (destruct k, k'; done). cbn [good] in Gl, Gr. rewrite !andb_true_iff in Gl, Gr. destruct Gl as (_ & D & O), Gr as (_ & D' & O').
    apply N.eqb_eq in D, D'. unfold eqn, eqo in *. rewrite F.
    destruct k'; rewrite ?andb_true_iff, ?bool_decide_eq_true in *; (split; [intros E; destruct_and?; subst; congruence|intros [=]; subst; done]).
  - assert (k = k') as -> by (destruct k, k'; done). cbn [good] in Gl, Gr. apply andb_true_iff in Gl as [_ Gl], Gr as [_ Gr]. rewrite F.
    rewrite (all_iff d ts) by eauto 10. sv.
  - cbn [good] in Gl, Gr. rewrite !andb_true_iff in Gl, Gr. destruct Gl as (_ & ? & ?), Gr as (_ & ? & ?). rewrite F, andb_true_iff.
    rewrite (IH t), (all_iff d ts) by eauto 10. sv.
  - cbn [good] in Gl, Gr. rewrite !andb_true_iff in Gl, Gr. destruct Gl as (_ & (S1 & ?) & ?), Gr as (_ & (S2 & ?) & ?). rewrite F, !andb_true_iff.
    assert (∀ r, good d r = true → compare t 0 r = true ↔ norm t = norm r) as K1. { apply IH; [|done]. do 6 right. eauto. }
    rewrite (K1 t'), (all_iff d ts) by eauto 10. unfold eqo. rewrite bool_decide_eq_true, negb_true_iff.
    split; [intros (((-> & X) & ->) & ->); destruct n', s, s'; try done; cbn in X; apply negb_false_iff, N.eqb_eq in X; by subst|].
    intros [= -> E2 -> ->]. destruct n', s, s'; try done; split_and!; try done; cbn. injection E2 as ->. by rewrite N.eqb_refl.
  - cbn [good] in Gl, Gr. unfold eqn, eqo in *. rewrite !andb_true_iff, !bool_decide_eq_true in *. destruct Gl as (_ & -> & ->), Gr as (_ & -> & ->). rewrite F.
    split; [intros ->; done|intros [=]; done].
  - cbn [good] in Gl, Gr. unfold eqn, eqo in *. apply andb_true_iff in Gl as [_ G1], Gr as [_ G2]. apply N.eqb_eq in G1, G2.
    rewrite !andb_true_iff, !bool_decide_eq_true, N.eqb_eq. sv.
  - rewrite N.eqb_eq. sv.
  - cbn [good] in Gl. by rewrite andb_false_r in Gl.
Qed.
Lemma not_anon d l : good d l = true → ∀ o f ms, l ≠ TAnon o f ms.
Proof. intros G o f ms ->. cbn [good] in G. by rewrite andb_false_r in G. Qed.
Lemma norm_core d a b : good d a = true → good d b = true →
  norm a = norm b ↔ mask (wflags a) = mask (wflags b) ∧ norm (core a) = norm (core b).
Proof.
  intros Ga Gb. destruct (good_core d a Ga) as (_ & Ca & _ & _ & _ & Wa). destruct (good_core d b Gb) as (_ & Cb & _ & _ & _ & Wb).
  destruct (is_wrap a) eqn:Ea, (is_wrap b) eqn:Eb.
  - destruct a, b; try done. cbn [norm wflags core]. split; [intros [= -> ->]; done|intros [-> ->]; done].
  - split.
    + intros H. assert (is_wrap (norm a) = is_wrap (norm b)) as X by (by rewrite H). rewrite !is_wrap_norm in X. congruence.
    + intros [H _]. destruct (proj1 Wa eq_refl). rewrite H. destruct b; done.
  - split.
    + intros H. assert (is_wrap (norm a) = is_wrap (norm b)) as X by (by rewrite H). rewrite !is_wrap_norm in X. congruence.
    + intros [H _]. destruct (proj1 Wb eq_refl). rewrite <- H. destruct a; done.
  - assert (core a = a) as -> by (by destruct a). assert (core b = b) as -> by (by destruct b).
    assert (wflags a = 0%N) as -> by (by destruct a). assert (wflags b = 0%N) as -> by (by destruct b). tauto.
Qed.
(** The comparison of any two good types whose left core satisfies [body_iff]. *)
Lemma cores_iff d l w : good d l = true → is_wrap l = false →
  (∀ r, good d r = true → is_wrap r = false → tag l = tag r → mask (flags l) = mask (flags r) → body l r = true ↔ norm l = norm r) →
  N.land (mask w) (W d (tag l)) = mask w → N.land (mask (flags l)) (W d (tag l)) = 0%N →
  ∀ r, good d r = true → compare l w r = true ↔ mask w = mask (wflags r) ∧ norm l = norm (core r).
Proof.
  intros Gl Wl B Hw Hf r Gr. destruct (good_core d r Gr) as (Gc & Wc & _ & Hw' & Hf' & _).
  rewrite compare_core by (done || by eapply not_anon). rewrite (meet_good d) by done.
  destruct (N.eqb_spec (tag l) (tag (core r))) as [T|T]; cbn [andb].
  - destruct (N.eqb_spec (mask (N.lor w (flags l))) (mask (N.lor (wflags r) (flags (core r))))) as [F|F].
    + rewrite !mask_lor in F. rewrite T in *. destruct (split_flags _ _ _ _ _ Hw Hf Hw' Hf' F) as [E1 E2].
      rewrite B by done. tauto.
    + split; [done|]. intros [E1 E2]. destruct F. rewrite !mask_lor, E1, <- !flags_norm, E2. done.
  - split; [done|]. intros [_ E]. destruct T. rewrite <- (tag_norm l), E. apply tag_norm.
Qed.
Theorem compare_iff d a : good d a = true → ∀ b, good d b = true → compare a 0 b = true ↔ norm a = norm b.
Proof.
  enough (good d a = true → (∀ b, good d b = true → compare a 0 b = true ↔ norm a = norm b) ∧
     (is_wrap a = false → ∀ r, good d r = true → is_wrap r = false → tag a = tag r → mask (flags a) = mask (flags r) → body a r = true ↔ norm a = norm r)) by tauto.
  induction a as [k|i|l|o f n|k f t IH|f n t IH|k v IHk IHv|f n t IH|f t IH|k f n ns dd|k f ts IH|f t ts IH IHs|f n s t ts IH IHs|f n ns p|n ns dd k|n dd|o f ms] using type_ind';
    intros G.
  9: { split; [|done]. intros b Gb. destruct (good_core d _ G) as (Gc & Wc & _ & Hw & Hf & _). cbn [core wflags] in *.
       destruct (IH Gc) as [_ IH2]. rewrite (norm_core d) by done. cbn [core wflags compare]. rewrite N.lor_0_l. apply (cores_iff d); auto. }
  all: match goal with |- _ ∧ (is_wrap ?a = false → _) => assert (is_wrap a = false) as Wa by done;
    enough (∀ r, good d r = true → is_wrap r = false → tag a = tag r → mask (flags a) = mask (flags r) → body a r = true ↔ norm a = norm r) as K;
    [split; [|by intros _]; intros b Gb; rewrite (norm_core d a) by done; destruct (good_core d _ G) as (_ & _ & _ & Hw & Hf & _);
     change (core a) with a in *; change (wflags a) with 0%N in *; rewrite (cores_iff d a 0 G Wa K Hw Hf b Gb); done
    |apply (body_iff d); [exact G|exact Wa| |]; clear G Wa;
     [intros t' [(?&?&H)|[(?&?&H)|[(?&H)|[(?&H)|[(?&?&H)|[(?&?&H)|(?&?&?&?&H)]]]]]]; try discriminate H; inversion H; subst; intros G'; match goal with IH : good _ _ = true → _ |- _ => exact (proj1 (IH G')) end
     |intros ts' [(?&?&H)|[(?&?&H)|(?&?&?&?&H)]]; try discriminate H;
      (inversion H; subst; eapply List.Forall_impl; [|eassumption]; cbn beta; intros ? IH' G'; exact (proj1 (IH' G')))]]
  end.
Qed.
Lemma compare_refl d a : good d a = true → compare a 0 a = true.
Proof. intros G. by apply (compare_iff d). Qed.

(** * Making a type respects [norm] *)
Lemma resolve_norm t : resolve (norm t) = norm (resolve t).
Proof. induction t as [k|i|l|o f n|k f t IH|f n t IH|k v IHk IHv|f n t IH|f t IH|k f n ns dd|k f ts IH|f t ts IH IHs|f n s t ts IH IHs|f n ns p|n ns dd k|n dd|o f ms] using type_ind'; try done. by destruct k. Qed.
Lemma unwrap_norm t : ∀ f, unwrap (norm t) (mask f) = (norm (fst (unwrap t f)), mask (snd (unwrap t f))).
Proof.
  induction t as [k|i|l|o f' n|k f' t IH|f' n t IH|k v IHk IHv|f' n t IH|f' t IH|k f' n ns dd|k f' ts IH|f' t ts IH IHs|f' n s t ts IH IHs|f' n ns p|n ns dd k|n dd|o f' ms] using type_ind';
    intros f; try done. cbn [norm unwrap]. rewrite <- mask_lor. apply IH.
Qed.
Lemma flatten_norm t f : flatten (norm t) (mask f) = (norm (fst (flatten t f)), mask (snd (flatten t f))).
Proof. unfold flatten. rewrite resolve_norm. apply unwrap_norm. Qed.
Definition made_norm (m : made) : made := match m with Same => Same | New t => New (norm t) end.
Lemma zip_norm (ms : list (N * name)) : ∀ ts, map (λ m, (m.1, norm m.2)) (zip ms ts) = zip ms (map norm ts).
Proof. induction ms as [|m ms IH]; intros [|t ts]; cbn; try done. by rewrite <- IH. Qed.
Lemma build_norm b ns o is : wrap_ok (Make b is) = true → ∀ args args', map norm args = map norm args' →
  option_map made_norm (build b ns o args) = option_map made_norm (build b ns o args').
Proof.
  intros Wb args args' E.
  assert (length args = length args') as L by (erewrite <- (map_length norm args), E, map_length; done).
  destruct b.
  17: { cbn [build]. rewrite L. destruct (_ =? _)%nat; [|done]. cbn [option_map made_norm norm]. by rewrite !zip_norm, E. }
  all: try (destruct args as [|t [|t2 [|? ?]]], args' as [|t' [|t2' [|? ?]]]; try discriminate L; cbn [map] in E; try done).
  all: try (injection E; intros; cbn [build option_map made_norm norm map]; congruence).
  - injection E as E. cbn [build].
    assert (∀ f, flatten t f = (fst (flatten t f), snd (flatten t f))) as Pt by (intros; apply surjective_pairing).
    assert (∀ f, flatten t' f = (fst (flatten t' f), snd (flatten t' f))) as Pt' by (intros; apply surjective_pairing).
    pose proof (flatten_norm t f) as A. pose proof (flatten_norm t' f) as A'. rewrite E, A' in A. injection A as A1 A2.
    destruct k; try (rewrite Pt, Pt'); cbn [option_map made_norm norm]; congruence.
  - injection E as E. cbn [build].
    pose proof (flatten_norm t f) as A. pose proof (flatten_norm t' f) as A'. rewrite E, A' in A. injection A as A1 A2.
    destruct (flatten t f), (flatten t' f). cbn [fst snd option_map made_norm norm] in *. congruence.
  - injection E as E. cbn [build]. cbn [wrap_ok] in Wb. apply N.eqb_eq in Wb.
    assert (∀ u, N.land (flags u) f = N.land (mask (flags u)) f) as M.
    { intros u. rewrite <- Wb. unfold mask. rewrite <- !N.land_assoc. f_equal. rewrite !(N.land_comm applicable). by rewrite <- !N.land_assoc, N.land_diag. }
    rewrite !M, <- !flags_norm, E. destruct (_ =? f)%N; [done|].
    pose proof (flatten_norm t f) as A. pose proof (flatten_norm t' f) as A'. rewrite E, A' in A. injection A as A1 A2.
    destruct (flatten t f), (flatten t' f). cbn [fst snd option_map made_norm norm] in *. congruence.
Qed.

(** * The table *)
Section agree.
Context {E : Type} (hash : E → N) (c c' : E → E → bool).
Lemma probe_agree fuel : ∀ d i h e, (∀ x, x ∈ enumerate d → c x e = c' x e) →
  probe_loop c fuel d i h e = probe_loop c' fuel d i h e.
Proof.
  induction fuel as [|fuel IH]; intros d i h e H; [done|]. cbn [probe_loop].
  destruct (d !! i) as [[[h' e']|]|] eqn:L; try done. rewrite H by (apply elem_of_enumerate; eauto).
  destruct (_ && _); [done|]. by apply IH.
Qed.
Lemma find_agree t e : (∀ x, x ∈ enumerate (ht_slots t) → c x e = c' x e) → ht_find hash c t e = ht_find hash c' t e.
Proof. intros H. unfold ht_find. by rewrite (probe_agree _ _ _ _ _ H). Qed.
Lemma insert_agree t e : (∀ x, x ∈ enumerate (ht_slots t) → c x e = c' x e) → ht_insert hash c t e = ht_insert hash c' t e.
Proof. intros H. unfold ht_insert. by rewrite (probe_agree _ _ _ _ _ H). Qed.
End agree.

Section table.
Context (d : discipline).
Definition cmp (a b : elem) : bool := good d (snd a) && good d (snd b) && elem_compare a b.
Lemma cmp_iff a b : cmp a b = true ↔ good d (snd a) = true ∧ good d (snd b) = true ∧ norm (snd a) = norm (snd b).
Proof.
  unfold cmp, elem_compare. rewrite !andb_true_iff. split.
  - intros [[Ga Gb] C]. apply (compare_iff d) in C; done.
  - intros (Ga & Gb & C). apply (compare_iff d) in C; done.
Qed.
Lemma cmp_sym a b : cmp a b = true → cmp b a = true.
Proof. rewrite !cmp_iff. intros (?&?&?). done. Qed.
Lemma cmp_trans a b e : cmp a b = true → cmp b e = true → cmp a e = true.
Proof. rewrite !cmp_iff. intros (?&?&?) (?&?&?). split; [done|]. split; [done|]. congruence. Qed.
Lemma cmp_hash a b : cmp a b = true → elem_hash a = elem_hash b.
Proof. rewrite !cmp_iff. intros (?&?&?). unfold elem_hash. by apply (type_hash_norm _ _ _ d). Qed.
Lemma cmp_agree a b : good d (snd a) = true → good d (snd b) = true → elem_compare a b = cmp a b.
Proof. intros A B. unfold cmp. by rewrite A, B. Qed.

Definition inv (st : table) (ws : list type) (l : list elem) : Prop :=
  TR elem_hash cmp (types st) l ∧
  (∀ e, e ∈ l → good d (snd e) = true ∧ (fst e < count st)%N) ∧
  (∀ a b, a ∈ l → b ∈ l → fst a = fst b → a = b) ∧
  (∀ a b, a ∈ l → b ∈ l → norm (snd a) = norm (snd b) → a = b) ∧
  Forall2 (λ e w, e ∈ l ∧ norm (snd e) = norm w) (results st) ws.
Lemma insert_inv st ws l key w : inv st ws l → good d w = true → norm key = norm w →
  ∃ st', getOrInsert st key = TOk st' ∧ ns st' = ns st ∧ ∃ l', inv st' (ws ++ [w]) l'.
Proof.
  intros (HR & Hg & Hn & Hu & Hf) Gw E.
  assert (good d key = true) as Gk by (rewrite <- good_norm, E, good_norm; done).
  pose proof HR as [_ HP].
  assert (∀ x, x ∈ enumerate (ht_slots (types st)) → elem_compare x (count st, key) = cmp x (count st, key)) as A.
  { intros x Hx. rewrite HP in Hx. apply cmp_agree; [by apply Hg|done]. }
  unfold getOrInsert. rewrite (find_agree _ _ cmp) by done. rewrite (insert_agree _ _ cmp) by done.
  destruct (find_cases elem_hash cmp cmp_sym cmp_trans cmp_hash (types st) l (count st, key) HR) as [(Ab & f & Ef & _)|(s & h & x & Hs & C & Ef)];
    unfold ht_find at 1; rewrite Ef; cbn [tbind].
  - destruct (insert_refines elem_hash cmp cmp_sym cmp_trans cmp_hash (types st) l (count st, key) HR) as (t' & -> & HR'). cbn [tbind fst].
    assert (∀ y, y ∈ l → norm (snd y) ≠ norm key) as Nk.
    { intros y Hy Ey. rewrite <- HP in Hy. pose proof (proj1 (absent_enumerate cmp _ _) Ab y Hy) as F.
      rewrite HP in Hy. enough (cmp y (count st, key) = true) by congruence. apply cmp_iff. split; [by apply Hg|]. split; done. }
    unfold HTableSpec.set_insert in HR'. rewrite set_mem_false in HR'.
    2: { intros y Hy. apply not_true_is_false. intros F. apply cmp_iff in F as (_ & _ & F). by destruct (Nk y Hy). }
    eexists. split; [done|]. split; [done|]. exists ((count st, key) :: l). split; [done|]. cbn [count types results]. split; [|split; [|split]].
    + intros e [->|He]%elem_of_cons; cbn [fst snd]; [split; [done|lia]|]. destruct (Hg e He). split; [done|lia].
    + intros a b [->|Ha]%elem_of_cons [->|Hb]%elem_of_cons E'; cbn [fst snd] in *; try done; [apply Hg in Hb as [_ Hb]|apply Hg in Ha as [_ Ha]|by apply Hn]; lia.
    + intros a b [->|Ha]%elem_of_cons [->|Hb]%elem_of_cons E'; cbn [fst snd] in *; try done; [by destruct (Nk b Hb)|by destruct (Nk a Ha)|by apply Hu].
    + apply Forall2_app.
      * eapply Forall2_impl; [exact Hf|]. intros e w' [? ?]. split; [by right|done].
      * constructor; [|constructor]. split; [by left|done].
  - unfold elem_at. rewrite Hs. apply cmp_iff in C as (_ & _ & C). cbn [snd] in C.
    eexists. split; [done|]. split; [done|]. exists l. split; [done|]. split; [done|]. split; [done|]. split; [done|]. cbn [results].
    apply Forall2_app; [done|]. constructor; [|constructor]. split; [|congruence]. rewrite <- HP. apply elem_of_enumerate. eauto.
Qed.
Lemma pick_rel (l : list elem) (rs : list elem) (ws : list type) : Forall2 (λ e w, e ∈ l ∧ norm (snd e) = norm w) rs ws →
  ∀ is ts, pick ws is = Some ts → ∃ es, pick rs is = Some es ∧ Forall2 (λ e w, e ∈ l ∧ norm (snd e) = norm w) es ts.
Proof.
  unfold elem in *. intros F. induction is as [|i is IH]; intros ts P; cbn [pick] in *; [injection P as <-; eauto|].
  destruct (ws !! i) as [w|] eqn:Lw; [|done]. destruct (pick ws is) as [r|]; [|done]. injection P as <-.
  destruct (Forall2_lookup_r _ _ _ _ _ F Lw) as (e & -> & He). destruct (IH r eq_refl) as (es & -> & Hes). eauto.
Qed.
Lemma wanted_pre ops : ∀ n ws rs, wanted ops n ws = Some rs → ∃ more, rs = ws ++ more.
Proof.
  induction ops as [|[b is|n'] ops IH]; intros n ws rs H; cbn [wanted] in H; [injection H as <-; exists []; by rewrite app_nil_r| |by eapply IH].
  destruct (pick ws is) as [args|]; [|done].
  destruct (build b n _ args) as [[|t]|]; [destruct args as [|a args]; [done|]| |done]; apply IH in H as [m ->]; rewrite <- app_assoc; eauto.
Qed.
Lemma run_inv ops : ∀ st ws l rs, inv st ws l → wanted ops (ns st) ws = Some rs → forallb (good d) rs = true → forallb wrap_ok ops = true →
  ∃ st' l', run st ops = TOk st' ∧ inv st' rs l'.
Proof.
  induction ops as [|o ops IH]; intros st ws l rs I H G Wo; cbn [wanted run] in *; [injection H as <-; eauto|].
  cbn [forallb] in Wo. apply andb_true_iff in Wo as [Wb Wo].
  destruct o as [b is|n]; cbn [step].
  2: { cbn [tbind]. destruct I as (HR & Hg & Hn & Hu & Hf). eapply (IH (Table _ _ _ _)); [|exact H|done|done]. split; [exact HR|]. done. }
  pose proof I as (HR & Hg & Hn & Hu & Hf). assert (length (results st) = length ws) as Hl by (exact (Forall2_length _ _ _ Hf)).
  destruct (pick ws is) as [ts|] eqn:P; [|done].
  destruct (pick_rel _ _ _ Hf _ _ P) as (es & -> & Fe). rewrite Hl.
  assert (map norm (map snd es) = map norm ts) as En.
  { clear -Fe. induction Fe as [|e t es ts [_ H] _ IH]; [done|]. cbn [map]. by rewrite H, IH. }
  pose proof (build_norm b (ns st) (N.of_nat (length ws)) is Wb _ _ En) as B.
  destruct (build b (ns st) _ ts) as [[|w]|] eqn:Bt; [| |done];
    destruct (build b (ns st) _ (map snd es)) as [[|key]|] eqn:Be; try discriminate B.
  - destruct ts as [|t ts]; [done|]. inversion Fe as [|e ? es' ? [He Ee] Fe']; subst. cbn [tbind].
    eapply (IH (Table _ _ _ _)); [|exact H|done|done]. split; [exact HR|]. split; [done|]. split; [done|]. split; [done|]. cbn [results].
    apply Forall2_app; [done|]. constructor; [done|constructor].
  - cbn [option_map made_norm] in B. injection B as B.
    assert (good d w = true) as Gw.
    { apply wanted_pre in H as [m ->]. rewrite !forallb_app in G. cbn [forallb] in G. rewrite !andb_true_iff in G. tauto. }
    destruct (insert_inv st ws l key w I Gw B) as (st' & -> & En' & l' & I'). cbn [tbind]. rewrite <- En' in H.
    destruct ts; by eapply IH.
Qed.
Lemma new_inv' n : inv (new_table n) [] [].
Proof. split; [apply new_TR|]. split; [by intros ? ?%elem_of_nil|]. split; [by intros ? ? ?%elem_of_nil|]. split; [by intros ? ? ?%elem_of_nil|]. apply Forall2_nil_2. Qed.
Theorem interned n ops ws : wanted ops n [] = Some ws → forallb (good d) ws = true → forallb wrap_ok ops = true →
  ∃ st, run (new_table n) ops = TOk st ∧ length (results st) = length ws ∧
    ∀ i j a b u v, results st !! i = Some a → results st !! j = Some b → ws !! i = Some u → ws !! j = Some v →
      (fst a = fst b ↔ norm u = norm v) ∧ (fst a = fst b → a = b).
Proof.
  intros H G Wo. destruct (run_inv ops (new_table n) [] [] ws (new_inv' n) H G Wo) as (st & l & R & HR & Hg & Hn & Hu & Hf).
  exists st. split; [done|]. split; [by eapply Forall2_length|]. intros i j a b u v Ra Rb Wu Wv.
  pose proof (Forall2_lookup_lr _ _ _ _ _ _ Hf Ra Wu) as [Ia Na]. pose proof (Forall2_lookup_lr _ _ _ _ _ _ Hf Rb Wv) as [Ib Nb].
  split; [split|]; intros E.
  - by rewrite <- Na, <- Nb, (Hn a b).
  - rewrite (Hu a b); congruence.
  - by apply Hn.
Qed.
End table.
