(** Lemmas on exceptions. *)
From Coq Require Import List Bool Arith Lia.
From Verif Require Import ExcModel ExcSpec.
Import ListNotations.

Scheme prog_mut := Induction for prog Sort Prop
  with clauses_mut := Induction for clauses Sort Prop.
Combined Scheme prog_clauses_ind from prog_mut, clauses_mut.

Lemma upd_same {A} (f : nat -> A) i x : upd f i x i = x.
Proof. unfold upd. now rewrite Nat.eqb_refl. Qed.
Lemma upd_other {A} (f : nat -> A) i j x : j <> i -> upd f i x j = f j.
Proof. unfold upd. intros H. now destruct (Nat.eqb_spec j i). Qed.

(** Subtypes *)
Lemma extends_sound sup : forall fuel t u, extends sup fuel t u = true -> subtype sup t u.
Proof.
  induction fuel as [|f IH]; cbn; intros t u H; [discriminate|].
  destruct (Nat.eqb_spec (sup t) t) as [E|E]; [discriminate|].
  destruct (Nat.eqb_spec (sup t) u) as [E'|E'].
  - apply sub_up. rewrite E'. constructor.
  - apply sub_up. now apply IH.
Qed.

Lemma sub_root sup : rooted sup -> forall t u, subtype sup t u -> t = 0 -> u = 0.
Proof.
  intros [H0 H1] t u H. induction H as [t|t u H IH]; intros ->; [reflexivity|].
  apply IH. exact H0.
Qed.

Lemma extends_complete sup : rooted sup ->
  forall fuel t u, t < fuel -> t <> u -> subtype sup t u -> extends sup fuel t u = true.
Proof.
  intros Hr. induction fuel as [|f IH]; intros t u Hf Hn H; [lia|].
  cbn. inversion H as [t'|t' u' Hs E1 E2]; subst; [contradiction|].
  destruct Hr as [H0 H1].
  destruct (Nat.eq_dec t 0) as [->|Ht].
  - exfalso. apply Hn. symmetry. eapply (sub_root sup (conj H0 H1)); [exact H|reflexivity].
  - specialize (H1 t ltac:(lia)) as Hlt.
    destruct (Nat.eqb_spec (sup t) t) as [E|E]; [lia|].
    destruct (Nat.eqb_spec (sup t) u) as [E'|E']; [reflexivity|].
    apply IH; [lia|exact E'|exact Hs].
Qed.

Lemma instance_spec sup t u : rooted sup -> instance sup t u = true <-> subtype sup t u.
Proof.
  intros Hr. unfold instance. rewrite orb_true_iff, Nat.eqb_eq. split.
  - intros [->|H]; [constructor|]. now apply extends_sound in H.
  - intros H. destruct (Nat.eq_dec t u) as [->|Hn]; [now left|]. right.
    apply extends_complete; auto.
Qed.

(** What stays the same below the current frame. *)
Definition keeps (m m' : mach) (o : list nat) (unc : bool) : Prop :=
  m_frames m' = m_frames m /\
  m_out m' = m_out m ++ o /\
  (forall i, i < m_frames m -> m_frame m' i = m_frame m i /\ m_jump m' i = m_jump m i) /\
  m_frame m' (m_frames m) = (fst (m_frame m (m_frames m)), unc) /\
  m_next m <= m_next m'.

Definition fresh (m : mach) : Prop := forall i, i < m_frames m -> m_jump m i < m_next m.

Definition raised (m' : mach) : outcome :=
  if 0 <? m_frames m' then Jump (m_jump m' (m_frames m' - 1)) m' else Exit m'.

Definition agrees (m : mach) (o : list nat) (r : result) (out : outcome) : Prop :=
  match r with
  | Normal => exists m', out = Done m' /\ keeps m m' o (snd (m_frame m (m_frames m)))
  | Raised t => exists m', out = raised m' /\ m_err m' = t /\ keeps m m' o true
  end.

(** Agreement of an execution that also keeps the exception on its way. *)
Definition quiet (m : mach) (r : result) (out : outcome) : Prop :=
  match r, out with Normal, Done m' => m_err m' = m_err m | _, _ => True end.

Lemma keeps_fresh m m' o u : keeps m m' o u -> fresh m -> fresh m'.
Proof.
  intros (H1 & H2 & H3 & H4 & H5) Hf i Hi. rewrite H1 in Hi.
  destruct (H3 i Hi) as [_ ->]. specialize (Hf i Hi). lia.
Qed.

Lemma keeps_trans m m1 m2 o1 o2 u1 u2 :
  keeps m m1 o1 u1 -> keeps m1 m2 o2 u2 -> keeps m m2 (o1 ++ o2) u2.
Proof.
  intros (A1 & A2 & A3 & A4 & A5) (B1 & B2 & B3 & B4 & B5). unfold keeps.
  rewrite B1, A1. split; [reflexivity|]. split; [now rewrite B2, A2, app_assoc|].
  split; [|split].
  - intros i Hi. rewrite A1 in B3. destruct (A3 i Hi) as [C1 C2], (B3 i Hi) as [D1 D2].
    now rewrite D1, D2.
  - rewrite A1 in B4. rewrite B4, A4. reflexivity.
  - lia.
Qed.

Lemma throw_agrees m t : agrees m [] (Raised t) (throw t m).
Proof.
  unfold throw, propagate, agrees, raised.
  exists (set_frame (m_frames m) (fst (m_frame m (m_frames m)), true) (set_err t m)).
  split; [|split; [|unfold keeps]].
  - reflexivity.
  - reflexivity.
  - cbn. split; [reflexivity|]. split; [now rewrite app_nil_r|]. split; [|split; [|lia]].
    + intros i Hi. split; [|reflexivity]. rewrite upd_other; [reflexivity|lia].
    + now rewrite upd_same.
Qed.

Opaque Nat.ltb Nat.leb.

(** One try block: the rounds of its loop, given what its parts do. *)
Section rounds.
  Context (tok : nat) (branch : mach -> outcome).

  Lemma rounds_S fuel m : rounds (S fuel) tok branch m =
    match hook0 m with
    | Go m => match branch m with
              | Done m => rounds fuel tok branch m
              | Jump t m => if t =? tok then rounds fuel tok branch m else Jump t m
              | Broke m => Done m
              | o => o
              end
    | End (Jump t m) => if t =? tok then rounds fuel tok branch m else Jump t m
    | End o => o
    end.
  Proof. cbn [rounds]. destruct (hook0 m) as [m1|[]]; try reflexivity. now destruct (branch m1). Qed.
End rounds.

(** The state inside a try block entered in [m0] with [tok]: at stage [s]. *)
Definition inside (m0 : mach) (tok : nat) (m : mach) (o : list nat) (s : nat) (unc : bool) : Prop :=
  m_frames m = S (m_frames m0) /\ m_out m = m_out m0 ++ o /\
  (forall i, i < m_frames m0 -> m_frame m i = m_frame m0 i /\ m_jump m i = m_jump m0 i) /\
  m_frame m (m_frames m0) = m_frame m0 (m_frames m0) /\
  m_jump m (m_frames m0) = tok /\
  m_frame m (S (m_frames m0)) = (s, unc) /\ tok < m_next m /\ m_next m0 <= m_next m.

Lemma inside_fresh m0 tok m o s u : inside m0 tok m o s u -> fresh m0 -> fresh m.
Proof.
  intros (H1 & H2 & H3 & H4 & H5 & H6 & H7 & H8) Hf i Hi. rewrite H1 in Hi.
  destruct (Nat.eq_dec i (m_frames m0)) as [->|Hn]; [rewrite H5; exact H7|].
  destruct (H3 i ltac:(lia)) as [_ ->]. specialize (Hf i ltac:(lia)). lia.
Qed.

Lemma inside_keeps m0 tok m o s u m' o' u' :
  inside m0 tok m o s u -> keeps m m' o' u' -> inside m0 tok m' (o ++ o') s u'.
Proof.
  intros (H1 & H2 & H3 & H4 & H5 & H6 & H7 & H8) (K1 & K2 & K3 & K4 & K5). unfold inside.
  rewrite H1 in *. split; [exact K1|]. split; [now rewrite K2, H2, app_assoc|].
  split; [|split; [|split; [|split; [|split]]]].
  - intros i Hi. destruct (K3 i ltac:(lia)) as [-> ->]. now apply H3.
  - destruct (K3 (m_frames m0) ltac:(lia)) as [-> _]. exact H4.
  - destruct (K3 (m_frames m0) ltac:(lia)) as [_ ->]. exact H5.
  - rewrite K4, H6. reflexivity.
  - lia.
  - lia.
Qed.

(** A part of the try block: what its outcome leads to. *)
Definition goes (fuel tok : nat) (branch : mach -> outcome) (m : mach) (next : mach) : Prop :=
  match branch m with
  | Done m => rounds fuel tok branch m
  | Jump t m => if t =? tok then rounds fuel tok branch m else Jump t m
  | Broke m => Done m
  | o => o
  end = rounds fuel tok branch next.

Lemma part m0 tok m o s u o' r (branch : mach -> outcome) fuel :
  inside m0 tok m o s u -> agrees m o' r (branch m) ->
  exists m', goes fuel tok branch m m' /\
    inside m0 tok m' (o ++ o') s (match r with Normal => u | Raised _ => true end) /\
    (forall t, r = Raised t -> m_err m' = t) /\
    (quiet m r (branch m) -> r = Normal -> m_err m' = m_err m).
Proof.
  intros Hi Ha. unfold goes. destruct r as [|t]; cbn in Ha.
  - destruct Ha as (m' & E & Hk). exists m'. rewrite E. split; [reflexivity|].
    split; [|split; [discriminate|]].
    + pose proof (inside_keeps _ _ _ _ _ _ _ _ _ Hi Hk) as H.
      destruct Hi as (H1 & _ & _ & _ & _ & H6 & _). rewrite H1, H6 in H. exact H.
    + unfold quiet. auto.
  - destruct Ha as (m' & E & Ht & Hk). exists m'. rewrite E.
    pose proof (inside_keeps _ _ _ _ _ _ _ _ _ Hi Hk) as H.
    assert (m_frames m' = S (m_frames m0)) as Hfr by apply H.
    assert (m_jump m' (m_frames m0) = tok) as Hj by apply H.
    split; [|split; [exact H|split; [congruence|discriminate]]].
    unfold raised. rewrite Hfr. cbn [Nat.ltb Nat.leb].
    replace (0 <? S (m_frames m0)) with true by (symmetry; apply Nat.ltb_lt; lia).
    replace (S (m_frames m0) - 1) with (m_frames m0) by lia.
    rewrite Hj, Nat.eqb_refl. reflexivity.
Qed.

Lemma inside_stage m0 tok m o s u s' : inside m0 tok m o s u ->
  inside m0 tok (set_frame (m_frames m) (s', u) m) o s' u /\
  m_err (set_frame (m_frames m) (s', u) m) = m_err m.
Proof.
  intros (H1 & H2 & H3 & H4 & H5 & H6 & H7 & H8). split; [|reflexivity]. unfold inside. cbn.
  rewrite H1. split; [reflexivity|]. split; [exact H2|]. split; [|split; [|split; [|split; [|split]]]]; auto.
  - intros i Hi. rewrite upd_other by lia. now apply H3.
  - rewrite upd_other by lia. exact H4.
  - now rewrite upd_same.
Qed.

Lemma hook_go m0 tok m o s u :
  inside m0 tok m o s u -> s < 3 ->
  let s' := if (S s =? 2) && negb u then 3 else S s in
  exists m', hook0 m = Go m' /\ inside m0 tok m' o s' u /\ m_err m' = m_err m.
Proof.
  intros Hi Hs s'. destruct (inside_stage _ _ _ _ _ _ s' Hi) as [Hi' He].
  exists (set_frame (m_frames m) (s', u) m).
  split; [|split; [exact Hi'|exact He]].
  unfold hook0. destruct Hi as (H1 & _ & _ & _ & _ & H6 & _).
  rewrite H1, H6. subst s'. unfold catching, done.
  destruct ((S s =? 2) && negb u) eqn:E.
  - apply andb_true_iff in E. destruct E as [E _]. apply Nat.eqb_eq in E. rewrite E.
    replace (3 <? 4) with true by reflexivity. reflexivity.
  - replace (S s <? 4) with true by (symmetry; apply Nat.ltb_lt; lia). reflexivity.
Qed.

Lemma hook_end m0 tok m o u :
  fresh m0 -> tok = m_next m0 -> inside m0 tok m o 3 u ->
  exists out, hook0 m = End out /\
    agrees m0 o (if u then Raised (m_err m) else Normal) out /\
    (forall t m', out = Jump t m' -> t <> tok) /\
    (u = false -> exists m', out = Done m' /\ m_err m' = m_err m).
Proof.
  intros Hf Htok Hi. unfold hook0.
  destruct Hi as (H1 & H2 & H3 & H4 & H5 & H6 & H7 & H8).
  rewrite H1, H6. unfold catching, done. cbn [Nat.eqb andb].
  replace (4 <? 4) with false by (symmetry; apply Nat.ltb_ge; lia).
  replace (S (m_frames m0) - 1) with (m_frames m0) by lia.
  eexists. split; [reflexivity|]. destruct u.
  - unfold propagate, agrees, raised. cbn. split; [|split; [|discriminate]].
    + match goal with |- exists m', (if _ then Jump _ ?x else _) = _ /\ _ => exists x end.
      split; [reflexivity|]. cbn. split; [reflexivity|]. unfold keeps. cbn.
      split; [reflexivity|]. split; [exact H2|]. split; [|split].
      * intros i Hi. rewrite !upd_other by lia. now apply H3.
      * rewrite upd_same, upd_other by lia. now rewrite H4.
      * exact H8.
    + intros t m'. destruct (0 <? m_frames m0) eqn:E; [|discriminate].
      apply Nat.ltb_lt in E. intros [= <- _].
      destruct (H3 (m_frames m0 - 1) ltac:(lia)) as [_ ->].
      specialize (Hf (m_frames m0 - 1) ltac:(lia)). lia.
  - split; [|split; [discriminate|]].
    + unfold agrees. eexists. split; [reflexivity|]. unfold keeps. cbn.
      split; [reflexivity|]. split; [exact H2|]. split; [|split].
      * intros i Hi. rewrite upd_other by lia. now apply H3.
      * rewrite upd_other by lia. rewrite H4. apply surjective_pairing.
      * exact H8.
    + intros _. eexists. split; [reflexivity|]. reflexivity.
Qed.

(** The whole loop from the start of the try block. *)
Lemma try_rounds m0 tok m branch fuel o1 r1 o2 r2 o3 r3 :
  fresh m0 -> tok = m_next m0 -> inside m0 tok m [] 0 false ->
  (forall m', inside m0 tok m' [] 1 false -> agrees m' o1 r1 (branch m')) ->
  (forall m' t, r1 = Raised t -> inside m0 tok m' o1 2 true -> m_err m' = t ->
     (exists m1, agrees m1 o2 r2 (branch m') /\ inside m0 tok m1 o1 2 false) \/
     (o2 = [] /\ r2 = Raised t /\ branch m' = Done m')) ->
  (r1 = Normal -> o2 = [] /\ r2 = Normal) ->
  (forall m' u, inside m0 tok m' (o1 ++ o2) 3 u ->
     agrees m' o3 r3 (branch m') /\ quiet m' r3 (branch m')) ->
  agrees m0 (o1 ++ o2 ++ o3) (match r3 with Normal => r2 | Raised _ => r3 end)
    (rounds (S (S (S (S fuel)))) tok branch m).
Proof.
  intros Hf Htok Hi Hbody Hcatch Hnone Hfin.
  (* from the finally stage on *)
  assert (forall fuel m' u, inside m0 tok m' (o1 ++ o2) 2 u \/ inside m0 tok m' (o1 ++ o2) 1 u /\ u = false ->
    (u = false -> r2 = Normal) -> (u = true -> r2 = Raised (m_err m')) ->
    agrees m0 (o1 ++ o2 ++ o3) (match r3 with Normal => r2 | Raised _ => r3 end)
      (rounds (S (S fuel)) tok branch m')) as Hrest.
  { intros fu m' u Hi' Hu1 Hu2.
    assert (exists m1, hook0 m' = Go m1 /\ inside m0 tok m1 (o1 ++ o2) 3 u /\ m_err m1 = m_err m') as (m1 & E1 & Hi1 & He1).
    { destruct Hi' as [Hi'|[Hi' ->]].
      - destruct (hook_go _ _ _ _ _ _ Hi' ltac:(lia)) as (m1 & E & H & He).
        cbn in H. exists m1. auto.
      - destruct (hook_go _ _ _ _ _ _ Hi' ltac:(lia)) as (m1 & E & H & He).
        cbn in H. exists m1. auto. }
    rewrite rounds_S, E1.
    destruct (Hfin m1 u Hi1) as [Ha Hq].
    destruct (part _ _ _ _ _ _ _ _ branch (S fu) Hi1 Ha) as (m2 & Hg & Hi2 & Hr & Hn).
    unfold goes in Hg. rewrite Hg. rewrite rounds_S.
    destruct (hook_end _ _ _ _ _ Hf Htok Hi2) as (out & E2 & Ha2 & Hj & _).
    rewrite E2, app_assoc.
    assert (match out with Jump t m => if t =? tok then rounds fu tok branch m else Jump t m | o => o end = out) as Eo.
    { destruct out as [?|t' ?|?|?|]; try reflexivity.
      destruct (Nat.eqb_spec t' tok) as [->|]; [|reflexivity]. exfalso. eapply Hj; reflexivity. }
    rewrite Eo. destruct r3 as [|t3].
    - specialize (Hn Hq eq_refl). destruct u.
      + rewrite (Hu2 eq_refl), <- He1, <- Hn. exact Ha2.
      + rewrite (Hu1 eq_refl). exact Ha2.
    - rewrite (Hr t3 eq_refl) in Ha2. exact Ha2. }
  destruct (hook_go _ _ _ _ _ _ Hi ltac:(lia)) as (m1 & E1 & Hi1 & _). cbn in Hi1.
  rewrite rounds_S, E1.
  destruct (part _ _ _ _ _ _ _ _ branch (S (S (S fuel))) Hi1 (Hbody _ Hi1)) as (m2 & Hg & Hi2 & Hr & Hn).
  unfold goes in Hg. rewrite Hg. cbn [app] in Hi2.
  destruct r1 as [|t1].
  - destruct (Hnone eq_refl) as [-> ->]. cbn [app] in *. rewrite app_nil_r in *.
    apply (Hrest (S fuel) m2 false); [right; auto|reflexivity|discriminate].
  - destruct (hook_go _ _ _ _ _ _ Hi2 ltac:(lia)) as (m3 & E3 & Hi3 & He3). cbn in Hi3.
    rewrite rounds_S, E3.
    specialize (Hr t1 eq_refl). rewrite <- He3 in Hr.
    destruct (Hcatch m3 t1 eq_refl Hi3 Hr) as [(m4 & Ha & Hc)|(-> & -> & Ed)].
    + (* a clause *)
      assert (exists m5, match branch m3 with
              | Done m => rounds (S (S fuel)) tok branch m
              | Jump t m => if t =? tok then rounds (S (S fuel)) tok branch m else Jump t m
              | Broke m => Done m
              | o => o end = rounds (S (S fuel)) tok branch m5 /\
              inside m0 tok m5 (o1 ++ o2) 2 (match r2 with Normal => false | Raised _ => true end) /\
              (forall t, r2 = Raised t -> m_err m5 = t)) as (m5 & Eg & Hi5 & Hr5).
      { destruct r2 as [|t2]; cbn in Ha.
        - destruct Ha as (m5 & E & Hk). exists m5. rewrite E. split; [reflexivity|].
          split; [|discriminate]. pose proof (inside_keeps _ _ _ _ _ _ _ _ _ Hc Hk) as H.
          destruct Hc as (G1 & _ & _ & _ & _ & G6 & _). rewrite G1, G6 in H. exact H.
        - destruct Ha as (m5 & E & Ht & Hk). exists m5. rewrite E.
          pose proof (inside_keeps _ _ _ _ _ _ _ _ _ Hc Hk) as H.
          assert (m_frames m5 = S (m_frames m0)) as Hfr by apply H.
          assert (m_jump m5 (m_frames m0) = tok) as Hj by apply H.
          split; [|split; [exact H|congruence]].
          unfold raised. rewrite Hfr.
          replace (0 <? S (m_frames m0)) with true by (symmetry; apply Nat.ltb_lt; lia).
          replace (S (m_frames m0) - 1) with (m_frames m0) by lia.
          rewrite Hj, Nat.eqb_refl. reflexivity. }
      rewrite Eg.
      apply (Hrest fuel m5 (match r2 with Normal => false | Raised _ => true end)).
      * left. exact Hi5.
      * destruct r2; [reflexivity|discriminate].
      * destruct r2 as [|t2]; [discriminate|]. intros _. now rewrite (Hr5 t2 eq_refl).
    + (* no clause *)
      rewrite Ed. cbn [app] in *. rewrite app_nil_r in *.
      apply (Hrest fuel m3 true); [left; exact Hi3|discriminate|].
      intros _. now rewrite Hr.
Qed.

Definition P (sup : nat -> nat) (p : prog) : Prop :=
  forall o r m, means sup p o r -> tame p = true -> m_frames m + depth p <= MAX_FRAMES -> fresh m ->
    agrees m o r (exec sup p m) /\ (no_try p = true -> quiet m r (exec sup p m)).
Definition Q (sup : nat -> nat) (cs : clauses) : Prop :=
  forall o r m t, catches sup cs (Raised t) o r -> tames cs = true ->
    m_frames m + depths cs <= MAX_FRAMES -> fresh m -> m_err m = t ->
    agrees (hook1 m) o r (handle sup cs m) \/
    handle sup cs m = Done m /\ o = [] /\ r = Raised t.

Lemma max_rounds_S : max_rounds = S (S (S (S 196))).
Proof. reflexivity. Qed.

Lemma exec_all sup : rooted sup -> (forall p, P sup p) /\ (forall cs, Q sup cs).
Proof.
  intros Hr. apply prog_clauses_ind.
  - (* Skip *) intros o r m H _ _ _. inversion H; subst. cbn. split; [|auto].
    exists m. split; [reflexivity|]. unfold keeps. rewrite app_nil_r.
    repeat split; auto. apply surjective_pairing.
  - (* Act *) intros n o r m H _ _ _. inversion H; subst. cbn. split; [|auto].
    eexists. split; [reflexivity|]. unfold keeps. cbn. repeat split; auto. apply surjective_pairing.
  - (* Throw *) intros t o r m H _ _ _. inversion H; subst. split; [apply throw_agrees|].
    intros _. exact I.
  - (* Leave *) intros o r m _ H. discriminate.
  - (* Seq *) intros p IHp q IHq o r m H Ht Hd Hf. cbn in Ht, Hd.
    apply andb_true_iff in Ht. destruct Ht as [Ht1 Ht2].
    inversion H as [| | |? ? o1 o2 ? Hm1 Hm2|? ? o1 t Hm1|]; subst.
    + destruct (IHp _ _ m Hm1 Ht1 ltac:(lia) Hf) as [(m1 & E1 & K1) Hq1].
      cbn [exec]. rewrite E1 in Hq1. rewrite E1.
      assert (m_frames m1 = m_frames m) as Hfr by apply K1.
      destruct (IHq _ _ m1 Hm2 Ht2 ltac:(rewrite Hfr; lia) (keeps_fresh _ _ _ _ K1 Hf)) as [Ha Hq2].
      split.
      * destruct r as [|t]; cbn in Ha |- *.
        -- destruct Ha as (m2 & E2 & K2). exists m2. split; [exact E2|].
           pose proof (keeps_trans _ _ _ _ _ _ _ K1 K2) as K.
           destruct K1 as (_ & _ & _ & K14 & _). rewrite Hfr, K14 in K. exact K.
        -- destruct Ha as (m2 & E2 & Et & K2). exists m2. split; [exact E2|]. split; [exact Et|].
           exact (keeps_trans _ _ _ _ _ _ _ K1 K2).
      * intros Hn. cbn in Hn. apply andb_true_iff in Hn. destruct Hn as [Hn1 Hn2].
        specialize (Hq1 Hn1). specialize (Hq2 Hn2). unfold quiet in *.
        destruct r; [|exact I]. destruct (exec sup q m1); auto. now rewrite Hq2.
    + destruct (IHp _ _ m Hm1 Ht1 ltac:(lia) Hf) as [(m1 & E1 & Et & K1) _].
      cbn [exec]. rewrite E1. split.
      * exists m1. split; [|auto]. unfold raised. destruct (0 <? m_frames m1); reflexivity.
      * intros _. exact I.
  - (* Try *) intros b IHb cs IHcs f IHf o r m H Ht Hd Hf. split; [|discriminate].
    cbn in Ht, Hd. rewrite !andb_true_iff in Ht. destruct Ht as [[[Ht1 Ht2] Ht3] Ht4].
    inversion H as [| | | | |? ? ? o1 r1 o2 r2 o3 r3 Hm1 Hc Hm3]; subst. unfold MAX_FRAMES in *.
    cbn [exec]. replace (MAX_FRAMES <=? m_frames m) with false
      by (symmetry; apply Nat.leb_gt; unfold MAX_FRAMES; lia).
    rewrite max_rounds_S. apply (try_rounds m (m_next m) _ _ 196 o1 r1 o2 r2 o3 r3 Hf eq_refl).
    + unfold inside. cbn. rewrite app_nil_r, Nat.sub_0_r. repeat split; auto.
      * rewrite upd_other by lia. reflexivity.
      * rewrite upd_other by lia. reflexivity.
      * rewrite upd_other by lia. reflexivity.
      * now rewrite upd_same.
      * now rewrite upd_same.
    + intros m' Hi. pose proof Hi as (H1 & _ & _ & _ & _ & H6 & _).
      rewrite H1, H6. cbn [fst]. unfold trying. cbn [Nat.eqb].
      apply (IHb _ _ m' Hm1 Ht1); [unfold MAX_FRAMES; lia|]. eapply inside_fresh; eauto.
    + intros m' t -> Hi He. pose proof Hi as (H1 & _ & _ & _ & _ & H6 & _).
      rewrite H1, H6. cbn [fst]. unfold trying, catching. cbn [Nat.eqb].
      destruct (IHcs _ _ m' t Hc Ht2 ltac:(unfold MAX_FRAMES; lia) (inside_fresh _ _ _ _ _ _ Hi Hf) He) as [Ha|(Ed & -> & ->)].
      * left. exists (hook1 m'). split; [exact Ha|].
        destruct Hi as (G1 & G2 & G3 & G4 & G5 & G6 & G7 & G8). unfold inside, hook1. cbn.
        rewrite G1, G6. cbn. repeat split; auto.
        -- rewrite upd_other by lia. now apply G3.
        -- now apply G3.
        -- rewrite upd_other by lia. exact G4.
        -- now rewrite upd_same.
      * right. auto.
    + intros ->. inversion Hc; subst; auto.
    + intros m' u Hi. pose proof Hi as (H1 & _ & _ & _ & _ & H6 & _).
      rewrite H1, H6. cbn [fst]. unfold trying, catching, finalizing. cbn [Nat.eqb].
      destruct (IHf _ _ m' Hm3 Ht3 ltac:(unfold MAX_FRAMES; lia) (inside_fresh _ _ _ _ _ _ Hi Hf)) as [Ha Hq].
      split; [exact Ha|exact (Hq Ht4)].
  - (* CNil *) intros o r m t H _ _ _ He. inversion H; subst. right. cbn. auto.
  - (* CCons *) intros u p IHp cs IHcs o r m t H Ht Hd Hf He. cbn in Ht, Hd.
    apply andb_true_iff in Ht. destruct Ht as [Ht1 Ht2]. cbn [handle]. rewrite He.
    inversion H as [|?|? ? ? ? ? ? Hs Hm|? ? ? ? ? ? Hs Hm]; subst.
    + rewrite (proj2 (instance_spec sup _ _ Hr) Hs). left.
      apply IHp; auto; cbn; lia.
    + replace (instance sup (m_err m) u) with false.
      2: { symmetry. apply not_true_iff_false. intros Hi. apply Hs. now apply (instance_spec sup _ _ Hr). }
      apply (IHcs _ _ m (m_err m) Hm Ht2); auto. lia.
Qed.

(** Every program without a [break] has exactly one meaning. *)
Lemma means_total sup : rooted sup ->
  (forall p, tame p = true -> exists o r, means sup p o r) /\
  (forall cs, tames cs = true -> forall r, exists o r', catches sup cs r o r').
Proof.
  intros Hr. apply prog_clauses_ind; cbn.
  - intros _. eexists _, _. constructor.
  - intros n _. eexists _, _. constructor.
  - intros t _. eexists _, _. constructor.
  - discriminate.
  - intros p IHp q IHq H. apply andb_true_iff in H. destruct H as [H1 H2].
    destruct (IHp H1) as (o1 & [|t] & M1).
    + destruct (IHq H2) as (o2 & r2 & M2). eexists _, _. eapply means_seq; eauto.
    + eexists _, _. eapply means_seq_raise; eauto.
  - intros b IHb cs IHcs f IHf H. rewrite !andb_true_iff in H. destruct H as [[[H1 H2] H3] _].
    destruct (IHb H1) as (o1 & r1 & M1). destruct (IHcs H2 r1) as (o2 & r2 & M2).
    destruct (IHf H3) as (o3 & r3 & M3). eexists _, _. eapply means_try; eauto.
  - intros _ [|t]; eexists _, _; constructor.
  - intros u p IHp cs IHcs H [|t]; [eexists _, _; constructor|].
    apply andb_true_iff in H. destruct H as [H1 H2].
    destruct (instance sup t u) eqn:E.
    + apply (instance_spec sup _ _ Hr) in E. destruct (IHp H1) as (o & r & M).
      eexists _, _. eapply catches_here; eauto.
    + destruct (IHcs H2 (Raised t)) as (o & r & M). eexists _, _. eapply catches_next; eauto.
      intros Hs. apply (instance_spec sup _ _ Hr) in Hs. congruence.
Qed.

Scheme means_mut := Minimality for means Sort Prop
  with catches_mut := Minimality for catches Sort Prop.
Combined Scheme means_catches_ind from means_mut, catches_mut.

Ltac det IH := match goal with H : _ |- _ => destruct (IH _ _ H) as [? ?]; subst end.

Lemma means_det sup :
  (forall p o r, means sup p o r -> forall o' r', means sup p o' r' -> o' = o /\ r' = r) /\
  (forall cs r0 o r, catches sup cs r0 o r -> forall o' r', catches sup cs r0 o' r' -> o' = o /\ r' = r).
Proof.
  apply means_catches_ind.
  - intros o' r' H. inversion H; auto.
  - intros n o' r' H. inversion H; auto.
  - intros t o' r' H. inversion H; auto.
  - intros p q o1 o2 r _ IH1 _ IH2 o' r' H. inversion H; subst.
    + det IH1. det IH2. auto.
    + det IH1; discriminate.
  - intros p q o t _ IH o' r' H. inversion H; subst.
    + det IH; discriminate.
    + det IH. auto.
  - intros b cs f o1 r1 o2 r2 o3 r3 _ IH1 _ IH2 _ IH3 o' r' H. inversion H; subst.
    det IH1. det IH2. det IH3. auto.
  - intros cs o' r' H. inversion H; auto.
  - intros t o' r' H. inversion H; auto.
  - intros t u p cs o r Hs _ IH o' r' H. inversion H; subst; [eauto|contradiction].
  - intros t u p cs o r Hs _ IH o' r' H. inversion H; subst; [contradiction|eauto].
Qed.

Definition ending (r : result) : final := match r with Normal => Finished | Raised t => Killed t end.

Lemma run_means sup p o r : rooted sup -> tame p = true -> depth p <= 16 ->
  means sup p o r -> run sup p = (o, ending r).
Proof.
  intros Hr Ht Hd Hm. destruct (exec_all sup Hr) as [HP _].
  destruct (HP p o r init Hm Ht) as [Ha _]; [cbn; unfold MAX_FRAMES; lia| |].
  { intros i Hi. cbn in Hi. lia. }
  unfold run. destruct r as [|t]; cbn in Ha.
  - destruct Ha as (m & -> & _ & Ho & _). cbn in Ho. now rewrite Ho.
  - destruct Ha as (m & -> & He & Hf & Ho & _). cbn in Ho, Hf. unfold raised. rewrite Hf.
    replace (0 <? 0) with false by (symmetry; apply Nat.ltb_ge; lia). cbn. now rewrite Ho, He.
Qed.

Lemma run_iff sup p o r : rooted sup -> tame p = true -> depth p <= 16 ->
  (run sup p = (o, ending r) <-> means sup p o r).
Proof.
  intros Hr Ht Hd. split; [|now apply run_means].
  intros E. destruct (proj1 (means_total sup Hr) p Ht) as (o' & r' & M).
  rewrite (run_means sup p o' r' Hr Ht Hd M) in E. injection E as -> E.
  replace r with r'; [exact M|]. destruct r, r'; cbn in E; congruence.
Qed.

(** The parser.  [leaky m m' o l]: [m'] is reached from [m], with [l] frames never given back. *)
Definition idle (f : nat * bool) : Prop := snd f = false /\ (fst f = 1 \/ fst f = 2).
Definition leaky (m m' : mach) (o : list nat) (l : nat) : Prop :=
  m_frames m' = m_frames m + l /\ m_out m' = m_out m ++ o /\
  (forall i, i <= m_frames m -> m_frame m' i = m_frame m i) /\
  (forall i, i < m_frames m -> m_jump m' i = m_jump m i) /\
  (forall i, m_frames m < i <= m_frames m + l -> idle (m_frame m' i)).

Lemma leaky_trans m m1 m2 o1 o2 l1 l2 :
  leaky m m1 o1 l1 -> leaky m1 m2 o2 l2 -> leaky m m2 (o1 ++ o2) (l1 + l2).
Proof.
  intros (A1 & A2 & A3 & A4 & A5) (B1 & B2 & B3 & B4 & B5). unfold leaky.
  rewrite A1 in *. split; [lia|]. split; [now rewrite B2, A2, app_assoc|]. split; [|split].
  - intros i Hi. rewrite B3 by lia. apply A3. exact Hi.
  - intros i Hi. rewrite B4 by lia. apply A4. exact Hi.
  - intros i Hi. destruct (le_lt_dec i (m_frames m + l1)) as [Hl|Hl].
    + rewrite B3 by lia. apply A5. lia.
    + apply B5. lia.
Qed.

Definition entered (m : mach) : mach :=
  let i := S (m_frames m) in
  Mach i (upd (upd (m_frame m) i (beginning, false)) i (1, false)) (upd (m_jump m) (i - 1) (m_next m))
    (m_err m) (S (m_next m)) (m_out m).

Lemma enter_try sup b cs f m : m_frames m < 16 ->
  exec sup (Try b cs f) m =
  (let branch := fun m =>
          let stage := fst (m_frame m (m_frames m)) in
          if stage =? trying then exec sup b m
          else if stage =? catching then handle sup cs m
          else if stage =? finalizing then exec sup f m
          else Done m in
  match exec sup b (entered m) with
  | Done m' => rounds (S (S (S 196))) (m_next m) branch m'
  | Jump t m' => if t =? m_next m then rounds (S (S (S 196))) (m_next m) branch m' else Jump t m'
  | Broke m => Done m
  | o => o
  end).
Proof.
  intros Hf. cbn [exec]. replace (MAX_FRAMES <=? m_frames m) with false
      by (symmetry; apply Nat.leb_gt; unfold MAX_FRAMES; lia).
  rewrite max_rounds_S, rounds_S. unfold hook0 at 1. cbn [m_frames m_frame].
  rewrite upd_same. unfold beginning, catching, done. cbn [Nat.eqb andb].
  replace (1 <? 4) with true by reflexivity.
  unfold set_frame. cbn [m_frames m_frame fst]. rewrite upd_same. cbn [fst]. unfold trying at 1.
  cbn [Nat.eqb]. unfold entered. cbn [m_jump m_err m_next m_out m_frames m_frame].
  destruct (exec sup b _); reflexivity.
Qed.

Lemma top_frame m x : m_frame (set_frame (m_frames m) x m) (m_frames (set_frame (m_frames m) x m)) = x.
Proof. cbn. apply upd_same. Qed.

(** A frame that is idle is given back by two more rounds. *)
Lemma idle_rounds sup b cs fuel tok m :
  idle (m_frame m (m_frames m)) ->
  exists m', rounds (S (S fuel)) tok (fun m =>
          let stage := fst (m_frame m (m_frames m)) in
          if stage =? trying then exec sup b m
          else if stage =? catching then handle sup cs m
          else if stage =? finalizing then exec sup Skip m
          else Done m) m = Done m' /\
    m_frames m' = m_frames m - 1 /\ m_out m' = m_out m /\ m_jump m' = m_jump m /\
    (forall i, i <> m_frames m -> m_frame m' i = m_frame m i).
Proof.
  intros [Hu Hs]. rewrite rounds_S. unfold hook0 at 1.
  destruct (m_frame m (m_frames m)) as [s u]. cbn in Hu, Hs. subst u.
  assert ((if (S s =? catching) && negb false then S (S s) else S s) = 3) as ->
    by (destruct Hs as [->| ->]; reflexivity).
  unfold done. replace (3 <? 4) with true by reflexivity.
  cbv zeta. rewrite !top_frame. cbn [fst].
  unfold trying, catching, finalizing. cbn [Nat.eqb exec].
  rewrite rounds_S. unfold hook0. cbn [m_frames m_frame set_frame].
  rewrite upd_same. unfold catching, done. cbn [Nat.eqb andb].
  replace (4 <? 4) with false by (symmetry; apply Nat.ltb_ge; lia).
  eexists. split; [reflexivity|]. cbn. repeat split.
  intros i Hi. now rewrite !upd_other by exact Hi.
Qed.

Lemma try_leaky sup b cs m o l :
  m_frames m < 16 ->
  (exists m', exec sup b (entered m) = Done m' /\ leaky (entered m) m' o l) ->
  exists m', exec sup (Try b cs Skip) m = Done m' /\ leaky m m' o l.
Proof.
  intros Hf (m1 & E & K). rewrite enter_try by exact Hf. cbv zeta. rewrite E.
  assert (idle (m_frame m1 (m_frames m1))) as Hi.
  { destruct K as (K1 & _ & K3 & _ & K5). rewrite K1. destruct (Nat.eq_dec l 0) as [->|Hl].
    - rewrite K3 by lia. unfold entered. cbn. rewrite Nat.add_0_r, upd_same. split; auto.
    - apply K5. lia. }
  destruct (idle_rounds sup b cs 197 (m_next m) m1 Hi) as (m2 & E2 & G1 & G2 & G3 & G4).
  exists m2. split; [exact E2|].
  destruct K as (K1 & K2 & K3 & K4 & K5). unfold entered in *. cbn [m_frames m_out m_frame m_jump] in *.
  unfold leaky. rewrite G1, G2, K1. split; [lia|]. split; [exact K2|]. split; [|split].
  - intros i H. rewrite G4, K3 by lia. now rewrite !upd_other by lia.
  - intros i H. rewrite G3, K4 by lia. now rewrite upd_other by lia.
  - intros i H. rewrite G4 by lia. destruct (Nat.eq_dec i (S (m_frames m))) as [->|Hn].
    + rewrite K3 by lia. rewrite upd_same. split; auto.
    + apply K5. lia.
Qed.

Lemma bad_leaky m n : m_frames m < 16 ->
  exists m', exec parser_sup (Try (stmt_prog (Bad n)) (CCons ParserException Leave CNil) Skip) m = Done m' /\
    leaky m m' [2 * n + 1] 1.
Proof.
  intros Hf. rewrite enter_try by exact Hf. cbn [stmt_prog exec].
  unfold throw, propagate, emit, set_err, set_frame, entered.
  cbn [m_frames m_frame m_jump m_err m_next m_out].
  replace (0 <? S (m_frames m)) with true by (symmetry; apply Nat.ltb_lt; lia).
  rewrite upd_same, !Nat.eqb_refl. rewrite rounds_S. unfold hook0 at 1.
  cbn [m_frames m_frame fst]. rewrite upd_same. cbn [fst snd]. rewrite upd_same. cbn [fst].
  unfold catching, done, trying. cbn [Nat.eqb andb negb].
  replace (2 <? 4) with true by reflexivity.
  unfold set_frame at 1. cbn [m_frames m_frame]. rewrite upd_same. cbn [fst Nat.eqb handle].
  cbn [set_frame m_err]. replace (instance parser_sup ParserException ParserException) with true by reflexivity.
  cbn [exec]. unfold hook1, set_frame. cbn [m_frames m_frame m_jump m_err m_next m_out].
  repeat (rewrite upd_same; cbn [fst Nat.eqb]).
  eexists. split; [reflexivity|]. unfold leaky. cbn [m_frames m_frame m_jump m_err m_next m_out].
  split; [lia|]. split; [reflexivity|]. split; [|split].
  - intros i Hi. now rewrite !upd_other by lia.
  - intros i Hi. now rewrite !upd_other by lia.
  - intros i Hi. replace i with (S (m_frames m)) by lia. rewrite !upd_same. cbn. split; auto.
Qed.

Scheme stmt_mut := Induction for stmt Sort Prop
  with stmts_mut := Induction for stmts Sort Prop.
Combined Scheme stmt_stmts_ind from stmt_mut, stmts_mut.

Lemma entered_frames m : m_frames (entered m) = S (m_frames m).
Proof. reflexivity. Qed.

Lemma blocks_leaky :
  (forall s m, match s with Bad _ => False | _ => True end -> m_frames m + bad_blocks s + nest s <= 16 ->
     exists m', exec parser_sup (stmt_prog s) m = Done m' /\ leaky m m' (seen s) (bad_blocks s)) /\
  (forall ss m, m_frames m + bad_in ss + nest_in ss <= 16 ->
     exists m', exec parser_sup (block_prog ss) m = Done m' /\ leaky m m' (seen_all ss) (bad_in ss)).
Proof.
  apply stmt_stmts_ind.
  - intros n m _ _. cbn [stmt_prog exec]. eexists. split; [reflexivity|].
    unfold leaky. cbn. repeat split; auto; intros; lia.
  - intros n m [].
  - intros ss IH m _ H. apply IH. exact H.
  - intros m _. cbn. exists m. split; [reflexivity|]. unfold leaky. rewrite app_nil_r.
    repeat split; auto; intros; lia.
  - intros s IHs ss IHss m H. destruct (match s with Bad _ => true | _ => false end) eqn:Es.
    + destruct s as [|n|]; try discriminate. cbn [block_prog].
      cbn [bad_in nest_in nest] in H. destruct (bad_leaky m n ltac:(lia)) as (m' & E & K).
      exists m'. split; [exact E|]. cbn [seen_all seen bad_in app]. exact K.
    + assert (exists m1, exec parser_sup (Try (stmt_prog s) (CCons ParserException Leave CNil) Skip) m = Done m1 /\
        leaky m m1 (seen s) (bad_blocks s)) as (m1 & E1 & K1).
      { assert (m_frames m + bad_blocks s + S (nest s) <= 16) as Hb.
        { cbn [nest_in] in H. destruct s; cbn [bad_in bad_blocks] in *; lia. }
        apply try_leaky; [lia|]. apply IHs; [destruct s; auto; discriminate|].
        rewrite entered_frames. lia. }
      assert (bad_in (SCons s ss) = bad_blocks s + bad_in ss) as Eb by (destruct s; [reflexivity|discriminate|reflexivity]).
      rewrite Eb in *. cbn [nest_in] in H.
      assert (m_frames m1 = m_frames m + bad_blocks s) as Hf1 by apply K1.
      destruct (IHss m1) as (m2 & E2 & K2); [rewrite Hf1; lia|].
      exists m2. split.
      * destruct s; try discriminate; cbn [block_prog exec] in *; rewrite E1; exact E2.
      * replace (seen_all (SCons s ss)) with (seen s ++ seen_all ss) by (destruct s; [reflexivity|discriminate|reflexivity]).
        eapply leaky_trans; eauto.
Qed.

Lemma parts_leaky : forall ss m, own_error ss = false -> m_frames m + bad_parts ss + nest_parts ss <= 16 ->
  exists m', exec parser_sup (parts_prog ss) m = Done m' /\ leaky m m' (seen_all ss) (bad_parts ss).
Proof.
  induction ss as [|s ss IH]; intros m Ho H.
  - cbn. exists m. split; [reflexivity|]. unfold leaky. rewrite app_nil_r. repeat split; auto; intros; lia.
  - assert (match s with Bad _ => False | _ => True end) as Hs by (destruct s; auto; discriminate).
    assert (own_error ss = false) as Ho' by (destruct s; auto; discriminate).
    assert (bad_parts (SCons s ss) = bad_blocks s + bad_parts ss) as Eb by (destruct s; [reflexivity|contradiction|reflexivity]).
    rewrite Eb in *. cbn [nest_parts] in H.
    destruct (proj1 blocks_leaky s m Hs ltac:(lia)) as (m1 & E1 & K1).
    assert (m_frames m1 = m_frames m + bad_blocks s) as Hf1 by apply K1.
    destruct (IH m1 Ho') as (m2 & E2 & K2); [rewrite Hf1; lia|].
    exists m2. cbn [parts_prog exec]. rewrite E1. split; [exact E2|].
    replace (seen_all (SCons s ss)) with (seen s ++ seen_all ss) by (destruct s; [reflexivity|contradiction|reflexivity]).
    eapply leaky_trans; eauto.
Qed.

(** A declaration with an error of its own and no block in error before it. *)
Lemma parts_error : forall ss m, own_error ss = true -> bad_parts ss = 0 ->
  m_frames m + nest_parts ss <= 16 -> 0 < m_frames m ->
  exists m1 n, leaky m m1 (seen_all ss) 0 /\ m_err m1 = ParserException /\
    n = (fst (m_frame m (m_frames m)), true) /\
    exec parser_sup (parts_prog ss) m = Jump (m_jump m (m_frames m - 1)) (set_frame (m_frames m) n m1).
Proof.
  induction ss as [|s ss IH]; intros m Ho Hb H Hp; [discriminate|].
  destruct (match s with Bad _ => true | _ => false end) eqn:Es.
  - destruct s as [|n|]; try discriminate. cbn [parts_prog stmt_prog exec].
    unfold throw, propagate. cbn [set_err emit set_frame m_frames m_frame m_jump].
    replace (0 <? m_frames m) with true by (symmetry; apply Nat.ltb_lt; lia).
    exists (set_err ParserException (emit (2 * n + 1) m)). eexists. split; [|split; [reflexivity|split; [reflexivity|]]].
    + unfold leaky. cbn. repeat split; auto; intros; lia.
    + reflexivity.
  - assert (match s with Bad _ => False | _ => True end) as Hs by (destruct s; auto; discriminate).
    assert (own_error ss = true) as Ho' by (destruct s; auto; discriminate).
    assert (bad_parts (SCons s ss) = bad_blocks s + bad_parts ss) as Eb by (destruct s; [reflexivity|contradiction|reflexivity]).
    rewrite Eb in *. cbn [nest_parts] in H.
    destruct (proj1 blocks_leaky s m Hs ltac:(lia)) as (m1 & E1 & K1).
    replace (bad_blocks s) with 0 in K1 by lia.
    assert (m_frames m1 = m_frames m) as Hf1 by (destruct K1 as (-> & _); lia).
    destruct (IH m1 Ho' ltac:(lia)) as (m2 & n & K2 & Er & En & E2); [rewrite Hf1; lia|lia|].
    exists m2, n. split; [|split; [exact Er|]].
    + replace (seen_all (SCons s ss)) with (seen s ++ seen_all ss) by (destruct s; [reflexivity|contradiction|reflexivity]).
      exact (leaky_trans _ _ _ _ _ 0 0 K1 K2).
    + destruct K1 as (_ & _ & K3 & K4 & _). rewrite Hf1 in *. rewrite K3 in En by lia.
      split; [exact En|]. cbn [parts_prog exec]. rewrite E1, E2. now rewrite K4 by lia.
Qed.

Lemma decl_leaky d m : settled d = true -> m_frames m + bad_parts d + S (nest_parts d) <= 16 ->
  exists m', exec parser_sup (decl_prog d) m = Done m' /\ leaky m m' (seen_all d) (bad_parts d).
Proof.
  intros Hs H. unfold decl_prog. destruct (own_error d) eqn:Ho.
  2: { apply try_leaky; [lia|]. apply parts_leaky; [exact Ho|]. rewrite entered_frames. lia. }
  unfold settled in Hs. rewrite Ho in Hs. cbn in Hs. apply Nat.eqb_eq in Hs. rewrite Hs in *.
  rewrite enter_try by lia.
  destruct (parts_error d (entered m) Ho Hs) as (m1 & n & K & Er & En & E);
    [rewrite entered_frames; lia|rewrite entered_frames; lia|].
  cbv zeta. rewrite E.
  assert (m_jump (entered m) (m_frames (entered m) - 1) = m_next m) as Hj.
  { unfold entered. cbn [m_jump m_frames]. now rewrite upd_same. }
  rewrite Hj, Nat.eqb_refl. rewrite rounds_S. unfold hook0 at 1.
  destruct K as (K1 & K2 & K3 & K4 & _). rewrite entered_frames, Nat.add_0_r in *.
  assert (n = (1, true)) as En'.
  { rewrite En. unfold entered. cbn [m_frame]. now rewrite upd_same. }
  clear En. subst n.
  cbn [set_frame m_frames m_frame]. rewrite K1. rewrite upd_same.
  unfold catching, done. cbn [Nat.eqb andb negb].
  replace (2 <? 4) with true by reflexivity.
  cbn [set_frame m_frames m_frame]. rewrite K1, upd_same. cbn [fst]. unfold trying at 1. cbn [Nat.eqb].
  cbn [handle set_frame m_err]. rewrite Er.
  replace (instance parser_sup ParserException ParserException) with true by reflexivity. cbn [exec].
  match goal with |- context [rounds _ _ _ ?x] => set (m2 := x) end.
  assert (m_frames m2 = S (m_frames m)) as F2 by (subst m2; cbn; exact K1).
  assert (m_frame m2 (m_frames m2) = (2, false)) as G2.
  { subst m2. unfold hook1. cbn. rewrite K1, !upd_same. reflexivity. }
  destruct (idle_rounds parser_sup (parts_prog d) (CCons ParserException Skip CNil) 196 (m_next m) m2) as (m3 & E3 & A1 & A2 & A3 & A4).
  { rewrite G2. split; auto. }
  exists m3. split; [exact E3|]. unfold leaky. rewrite A1, A2, F2. split; [lia|].
  split; [subst m2; cbn; exact K2|]. split; [|split].
  - intros i Hi. rewrite A4 by lia. subst m2. unfold hook1. cbn. rewrite K1. rewrite !upd_other by lia.
    rewrite K3 by lia. unfold entered. cbn [m_frame]. now rewrite !upd_other by lia.
  - intros i Hi. rewrite A3. subst m2. cbn. rewrite K4 by lia. unfold entered. cbn [m_jump].
    now rewrite upd_other by lia.
  - intros i Hi. lia.
Qed.

Lemma file_leaky : forall ds m, forallb settled ds = true -> m_frames m + all_bad ds + all_nest ds <= 16 ->
  exists m', exec parser_sup (file_prog ds) m = Done m' /\ leaky m m' (concat (map seen_all ds)) (all_bad ds).
Proof.
  induction ds as [|d ds IH]; intros m Hs H.
  - cbn. exists m. split; [reflexivity|]. unfold leaky. rewrite app_nil_r. repeat split; auto; intros; lia.
  - cbn in Hs. apply andb_true_iff in Hs. destruct Hs as [Hs1 Hs2]. cbn [all_bad all_nest fold_right] in H.
    fold (all_bad ds) in H. fold (all_nest ds) in H.
    destruct (decl_leaky d m Hs1 ltac:(lia)) as (m1 & E1 & K1).
    assert (m_frames m1 = m_frames m + bad_parts d) as Hf1 by apply K1.
    destruct (IH m1 Hs2) as (m2 & E2 & K2); [lia|]. exists m2.
    cbn [file_prog exec]. rewrite E1. split; [exact E2|]. cbn. eapply leaky_trans; eauto.
Qed.

Lemma parse_recovers ds : forallb settled ds = true -> all_bad ds + all_nest ds <= 16 ->
  parse ds = (concat (map seen_all ds), Finished).
Proof.
  intros Hs H. destruct (file_leaky ds init Hs H) as (m & E & K). unfold parse, run. rewrite E.
  destruct K as (_ & K2 & _). cbn in K2. now rewrite K2.
Qed.
