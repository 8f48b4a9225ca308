(** Proofs about ArgsModel. *)
From Coq Require Import Strings.String.
From stdpp Require Import numbers list.
From Verif Require Import LexModel LexSpec LexProofs ArgsModel ArgsSpec StageProofs.
From Coq Require Import Lia ZifyBool ZifyN.
Local Open Scope N_scope.

(** *** Tables *)
Lemma find_name_spec tbl n : forall k i f, cmdFindByName tbl n k = Some (i, f) ->
  exists j, i = (k + j)%nat /\ tbl !! j = Some f /\ name f = n.
Proof.
  induction tbl as [|g tbl IH]; intros k i f; cbn; [done|].
  destruct (bool_decide_reflect (name g = n)).
  - intros [= <- <-]. exists 0%nat. split; [lia|]. done.
  - intros (j & -> & A & B)%IH. exists (S j). split; [lia|]. done.
Qed.
Lemma find_name_ok tbl i f : distinct_flags tbl -> tbl !! i = Some f -> cmdFindByName tbl (name f) 0 = Some (i, f).
Proof.
  intros D H. assert (forall k, cmdFindByName tbl (name f) k = Some ((k + i)%nat, f)) as G; [|by rewrite G].
  revert i H D. induction tbl as [|g tbl IH]; intros i H D k; [done|]. cbn.
  destruct i as [|i].
  - injection H as ->. rewrite bool_decide_eq_true_2 by done. do 2 f_equal. lia.
  - rewrite bool_decide_eq_false_2.
    + rewrite (IH i H). { do 2 f_equal. lia. }
      intros a b x y Ha Hb Ne. apply (D (S a) (S b) x y Ha Hb). lia.
    + by apply (D 0%nat (S i) g f).
Qed.
Lemma find_sf_spec tbl c : forall k i f, cmdFindByShortFormat tbl c k = Some (i, f) ->
  exists j, i = (k + j)%nat /\ tbl !! j = Some f /\ sf f = c /\ sf f <> 0.
Proof.
  induction tbl as [|g tbl IH]; intros k i f; cbn; [done|].
  destruct (N.eqb_spec (sf g) 0); [|destruct (N.eqb_spec (sf g) c)].
  - intros (j & -> & A & B)%IH. exists (S j). split; [lia|]. done.
  - intros [= <- <-]. exists 0%nat. split; [lia|]. done.
  - intros (j & -> & A & B)%IH. exists (S j). split; [lia|]. done.
Qed.
Lemma find_sf_ok tbl i f : distinct_flags tbl -> tbl !! i = Some f -> sf f <> 0 -> cmdFindByShortFormat tbl (sf f) 0 = Some (i, f).
Proof.
  intros D H N0. assert (forall k, cmdFindByShortFormat tbl (sf f) k = Some ((k + i)%nat, f)) as G; [|by rewrite G].
  revert i H D. induction tbl as [|g tbl IH]; intros i H D k; [done|]. cbn.
  destruct i as [|i].
  - injection H as ->. destruct (N.eqb_spec (sf f) 0); [done|]. rewrite N.eqb_refl. do 2 f_equal. lia.
  - assert (cmdFindByShortFormat tbl (sf f) (S k) = Some ((k + S i)%nat, f)) as E.
    { rewrite (IH i H). { do 2 f_equal. lia. }
      intros a b x y Ha Hb Ne. apply (D (S a) (S b) x y Ha Hb). lia. }
    destruct (N.eqb_spec (sf g) 0) as [|Ng]; [done|]. destruct (N.eqb_spec (sf g) (sf f)) as [Eq|]; [|done].
    exfalso. by apply (D 0%nat (S i) g f).
Qed.

(** *** Words *)
Lemma blank_space c : blank c <-> isspace c = true.
Proof. symmetry. apply isspace_blank. Qed.
Lemma skip_blanks b v : blanks b -> no_blank v -> skip_spaces (b ++ v) = v.
Proof.
  intros B V. apply skip_spaces_app.
  - eapply Forall_impl; [done|]. intros c ?. by apply blank_space.
  - intros c H. destruct v as [|d v]; [done|]. injection H as ->. specialize (V c v eq_refl). rewrite blank_space in V. by destruct (isspace c).
Qed.
Lemma skip_no_blank s : no_blank (skip_spaces s).
Proof.
  intros c t E. apply skip_spaces_head in E. rewrite blank_space. by rewrite E.
Qed.
Lemma split_eq_app n v : 61 ∉ n -> split_eq (n ++ 61 :: v) = (n, Some (skip_spaces v)).
Proof.
  induction n as [|c n IH]; cbn; [done|]. intros [H1 H2]%not_elem_of_cons.
  destruct (N.eqb_spec c 61); [congruence|]. by rewrite IH.
Qed.
Lemma split_eq_none n : 61 ∉ n -> split_eq n = (n, None).
Proof.
  induction n as [|c n IH]; cbn; [done|]. intros [H1 H2]%not_elem_of_cons.
  destruct (N.eqb_spec c 61); [congruence|]. by rewrite IH.
Qed.
Lemma split_eq_spec w n x : split_eq w = (n, x) -> 61 ∉ n /\
  match x with None => w = n | Some v => exists b, blanks b /\ no_blank v /\ w = n ++ 61 :: b ++ v end.
Proof.
  revert n x. induction w as [|c w IH]; intros n x; cbn.
  - intros [= <- <-]. split; [apply not_elem_of_nil|done].
  - destruct (N.eqb_spec c 61) as [-> |Ne].
    + intros [= <- <-]. split; [apply not_elem_of_nil|].
      destruct (skip_spaces_split w) as (b & F & E). exists b. split.
      * eapply Forall_impl; [done|]. intros d ?. by apply blank_space.
      * split; [apply skip_no_blank|]. cbn. by rewrite <- E.
    + destruct (split_eq w) as [m y]. intros [= <- <-]. destruct (IH m y eq_refl) as [A B].
      split; [by apply not_elem_of_cons|]. destruct y; [|by rewrite B].
      destruct B as (b & ? & ? & ->). by exists b.
Qed.

(** *** The items one by one *)
Definition step_item (tbl : list flag) (pos : list positional) (st : state) (it : item) : option state :=
  match it with
  | IFile w => match positional_arg pos st w with Ok st => Some st | _ => None end
  | IOn i => Some (setval st i (VNum 1))
  | IVal i v =>
    match tbl !! i with
    | Some f => match validator f with
      | Some t => match t (getval st i) v with Some x => Some (setval st i x) | None => None end
      | None => None end
    | None => None end
  end.
Lemma classify_file tbl w : (forall v, w <> 45 :: v) \/ w = [45] -> classify tbl w = KPos.
Proof.
  intros [H| ->]; [|done]. destruct w as [|a w]; [done|]. cbn. destruct (N.eqb_spec a 45) as [-> |]; [|done]. by destruct (H w).
Qed.
Lemma classify_short tbl c v : c <> 45 -> classify tbl (45 :: c :: v) = KFlag (cmdFindByShortFormat tbl c 0) (match v with [] => None | _ => Some v end).
Proof. intros H. cbn. by destruct (N.eqb_spec c 45). Qed.
Lemma classify_long tbl v : v <> [] -> classify tbl (45 :: 45 :: v) = let '(n, x) := split_eq v in KFlag (cmdFindByName tbl n 0) x.
Proof. intros H. cbn. by destruct v. Qed.

Lemma step_spelled tbl pos st it ws rest : distinct_flags tbl -> Spell tbl it ws ->
  match step_item tbl pos st it with
  | Some st1 => loop tbl pos (ws ++ rest) st = loop tbl pos rest st1
  | None => forall st', loop tbl pos (ws ++ rest) st <> Ok st'
  end.
Proof.
  intros D S. destruct S as [w H|i f L V N0 NE|i f L V N0 N45|i f t b v L V NE B NB|i f t v L V N0 NE|i f t v L V N0 N45 Nv|i f t v L V N0 N45];
    cbn [step_item app loop].
  - rewrite classify_file by done. by destruct (positional_arg pos st w).
  - rewrite classify_long by done. rewrite split_eq_none by done. rewrite (find_name_ok tbl i f) by done. by rewrite V.
  - rewrite classify_short by done. rewrite (find_sf_ok tbl i f) by done. by rewrite V.
  - rewrite classify_long by (by destruct (name f)). rewrite split_eq_app, skip_blanks by done. rewrite (find_name_ok tbl i f) by done.
    rewrite L, !V. by destruct (t (getval st i) v).
  - rewrite classify_long by done. rewrite split_eq_none by done. rewrite (find_name_ok tbl i f) by done.
    rewrite L, !V. by destruct (t (getval st i) v).
  - rewrite classify_short by done. rewrite (find_sf_ok tbl i f) by done. destruct v as [|c v]; [done|].
    rewrite L, !V. by destruct (t (getval st i) (c :: v)).
  - rewrite classify_short by done. rewrite (find_sf_ok tbl i f) by done. rewrite L, !V. by destruct (t (getval st i) v).
Qed.
(** An argument the loop gets past is spelled. *)
Lemma loop_spelled tbl pos arg rest st st' : loop tbl pos (arg :: rest) st = Ok st' ->
  arg = [45; 45] \/ exists it ws rest', Spell tbl it ws /\ arg :: rest = ws ++ rest' /\ (length rest' <= length rest)%nat.
Proof.
  cbn [loop]. destruct arg as [|a w].
  { intros _. right. exists (IFile []), [[]], rest. split; [by constructor; left|done]. }
  cbn [classify]. destruct (N.eqb_spec a 45) as [-> |Na].
  2:{ intros _. right. exists (IFile (a :: w)), [a :: w], rest. split; [constructor; left; congruence|done]. }
  destruct w as [|b v].
  { intros _. right. exists (IFile [45]), [[45]], rest. split; [constructor; by right|done]. }
  destruct (N.eqb_spec b 45) as [-> |Nb].
  - destruct v as [|c v]; [by left|]. destruct (split_eq (c :: v)) as [n x] eqn:E. apply split_eq_spec in E as [NE E].
    destruct (cmdFindByName tbl n 0) as [[i f]|] eqn:F; [|unfold fail; by destruct (Nat.ltb _ _)].
    apply find_name_spec in F as (j & -> & L & Hn). cbn. subst n.
    destruct (validator f) as [t|] eqn:V; destruct x as [x|].
    + intros _. right. destruct E as (bl & B & NB & E). exists (IVal j x), [45 :: 45 :: c :: v], rest. split; [|done].
      rewrite E. by econstructor.
    + destruct rest as [|y rest]; [unfold fail; by destruct (Nat.ltb _ _)|]. intros _. right.
      exists (IVal j y), [45 :: 45 :: c :: v; y], rest. split; [|split; [done|cbn; lia]]. rewrite E. eapply Sp_next; try done. by rewrite <- E.
    + unfold fail; by destruct (Nat.ltb _ _).
    + intros _. right. exists (IOn j), [45 :: 45 :: c :: v], rest. split; [|done]. rewrite E. eapply Sp_on_long; try done. by rewrite <- E.
  - destruct (cmdFindByShortFormat tbl b 0) as [[i f]|] eqn:F; [|unfold fail; by destruct (Nat.ltb _ _)].
    apply find_sf_spec in F as (j & -> & L & <- & Hn). cbn.
    destruct (validator f) as [t|] eqn:V; destruct v as [|c v].
    + destruct rest as [|y rest]; [unfold fail; by destruct (Nat.ltb _ _)|]. intros _. right.
      exists (IVal j y), [[45; sf f]; y], rest. split; [by econstructor|]. split; [done|cbn; lia].
    + intros _. right. exists (IVal j (c :: v)), [45 :: sf f :: c :: v], rest. split; [by econstructor|done].
    + intros _. right. exists (IOn j), [[45; sf f]], rest. split; [by econstructor|done].
    + unfold fail; by destruct (Nat.ltb _ _).
Qed.

(** *** The values *)
Lemma files_app a b : files_of (a ++ b) = files_of a ++ files_of b.
Proof. unfold files_of. apply omap_app. Qed.
Lemma uses_app i a b : uses i (a ++ b) = uses i a ++ uses i b.
Proof. unfold uses. apply omap_app. Qed.
Lemma Value_inv f l x y : Value f (l ++ [x]) y -> exists z, Value f l z /\
  match x with None => y = VNum 1 | Some v => exists t, validator f = Some t /\ t z v = Some y end.
Proof.
  intros H. remember (l ++ [x]) as k eqn:E. destruct H as [|k z H|k z t v y H V T].
  - by destruct l.
  - apply app_inj_tail in E as [-> <-]. eauto.
  - apply app_inj_tail in E as [-> <-]. eauto.
Qed.
Lemma Value_snoc f l x y : Value f (l ++ [x]) y -> exists z, Value f l z.
Proof. intros (z & H & _)%Value_inv. eauto. Qed.
Lemma Value_prefix f l k y : Value f (l ++ k) y -> exists z, Value f l z.
Proof.
  revert y. induction k as [|x k IH] using rev_ind; intros y; [rewrite app_nil_r; eauto|].
  rewrite app_assoc. intros [z H]%Value_snoc. eauto.
Qed.
Lemma Value_fun f l x y : Value f l x -> Value f l y -> x = y.
Proof.
  intros H. revert y. induction H as [|l x H IH|l x t v y H IH V T]; intros z Hz.
  - remember [] as k eqn:E. destruct Hz; [done|by destruct l|by destruct l].
  - by apply Value_inv in Hz as (w & Hw & ->).
  - apply Value_inv in Hz as (w & Hw & t' & V' & T'). rewrite (IH _ Hw) in T. congruence.
Qed.

Lemma positional_file pos its st st1 w tbl : Given tbl pos its st -> positional_arg pos st w = Ok st1 ->
  Given tbl pos (its ++ [IFile w]) st1.
Proof.
  intros G. destruct G as [Gl Gv Gf Gw Gpl Gpv Gn]. unfold positional_arg.
  assert (forall i, uses i (its ++ [IFile w]) = uses i its) as U by (intros i; rewrite uses_app; apply app_nil_r).
  assert (files_of (its ++ [IFile w]) = files_of its ++ [w]) as F by (by rewrite files_app).
  destruct pos as [|p0 pos'].
  { intros [= <-]. split; cbn.
    - done.
    - intros i f H. rewrite U. by apply Gv.
    - rewrite F, Gf. done.
    - done.
    - done.
    - intros k p H. done.
    - rewrite F, app_length, Gn. cbn. lia. }
  set (pos := p0 :: pos') in *.
  destruct (pos !! npos st) as [p|] eqn:Ep; [|unfold fail; by destruct (Nat.ltb _ _)].
  destruct (match pvalidator p with None => _ | Some f => _ end) as [v|] eqn:Ev; [|done].
  intros [= <-]. pose proof (lookup_lt_Some _ _ _ Ep) as Lt.
  split; cbn [vals pvals files npos].
  - done.
  - intros i f H. rewrite U. by apply Gv.
  - rewrite Gf. done.
  - intros _. rewrite F, app_length. cbn [length]. lia.
  - by rewrite insert_length.
  - intros k q H. rewrite F. destruct (decide (k = npos st)) as [-> |Ne].
    + rewrite list_lookup_insert by lia. exists v. split; [done|]. rewrite Gn, lookup_app_r, Nat.sub_diag by lia. cbn.
      rewrite Ep in H. injection H as <-.
      assert (pvals st !! npos st = Some (VNone [])) as E.
      { destruct (Gpv _ _ Ep) as (x & E & PV). rewrite E. rewrite Gn, lookup_ge_None_2 in PV by lia. inversion PV. done. }
      rewrite E in Ev. cbn in Ev. destruct (pvalidator p) as [t|] eqn:V; [by econstructor|]. injection Ev as <-. by constructor.
    + rewrite list_lookup_insert_ne by done. destruct (Gpv _ _ H) as (x & E & PV). exists x. split; [done|].
      destruct (decide (k < length (files_of its))%nat).
      * by rewrite lookup_app_l by lia.
      * rewrite lookup_ge_None_2 in PV by lia. rewrite lookup_ge_None_2; [done|]. rewrite app_length. cbn. lia.
  - rewrite F, app_length, Gn. cbn. lia.
Qed.
Lemma set_given tbl pos its st i f v it y : Given tbl pos its st -> tbl !! i = Some f ->
  (it = IOn i /\ y = VNum 1 \/ exists t, it = IVal i v /\ validator f = Some t /\ t (getval st i) v = Some y) ->
  Given tbl pos (its ++ [it]) (setval st i y).
Proof.
  intros G L H. destruct G as [Gl Gv Gf Gw Gpl Gpv Gn].
  assert (files_of (its ++ [it]) = files_of its) as F.
  { rewrite files_app. destruct H as [[-> _]|(t & -> & _)]; apply app_nil_r. }
  split; cbn; rewrite ?F; try done.
  - by rewrite insert_length.
  - intros j g Lj. destruct (Gv _ _ Lj) as (x & E & V). destruct (decide (j = i)) as [-> |Ne].
    + exists y. split; [apply list_lookup_insert; rewrite Gl; by apply lookup_lt_Some in L|].
      rewrite Lj in L. injection L as <-. rewrite uses_app.
      destruct H as [[-> ->]|(t & -> & Hv & Ht)]; cbn; rewrite decide_True by done.
      * by econstructor.
      * unfold getval in Ht. rewrite E in Ht. by econstructor.
    + exists x. rewrite list_lookup_insert_ne by done. split; [done|].
      rewrite uses_app. destruct H as [[-> ->]|(t & -> & Hv & Ht)]; cbn; rewrite decide_False by done; by rewrite app_nil_r.
Qed.
Lemma step_given tbl pos its st it st1 ws : Given tbl pos its st -> Spell tbl it ws ->
  step_item tbl pos st it = Some st1 -> Given tbl pos (its ++ [it]) st1.
Proof.
  intros G S E. assert (forall i, it = IOn i -> exists f, tbl !! i = Some f) as SI by (destruct S; intros ? [= <-]; eauto).
  destruct it as [w|i|i v]; cbn in E.
  - destruct (positional_arg pos st w) eqn:Ep; try done. injection E as <-. by eapply positional_file.
  - injection E as <-. destruct (SI i eq_refl) as [f L]. eapply (set_given _ _ _ _ i f []); [done|done|]. by left.
  - destruct (tbl !! i) as [f|] eqn:L; [|done]. destruct (validator f) as [t|] eqn:V; [|done].
    destruct (t (getval st i) v) as [x|] eqn:T; [|done]. injection E as <-. eapply set_given; [done|done|]. right. eauto.
Qed.
Lemma step_none tbl pos its st it ws more st' : Given tbl pos its st -> Spell tbl it ws ->
  step_item tbl pos st it = None -> ~ Given tbl pos (its ++ it :: more) st'.
Proof.
  intros G S E G'. destruct G as [Gl Gv Gf Gw Gpl Gpv Gn], G' as [Gl' Gv' Gf' Gw' Gpl' Gpv' Gn'].
  destruct it as [w|i|i v]; cbn in E.
  - assert (files_of (its ++ IFile w :: more) = files_of its ++ w :: files_of more) as F by (by rewrite files_app).
    unfold positional_arg in E. destruct pos as [|p0 pos']; [done|]. set (pos := p0 :: pos') in *.
    rewrite F, app_length in Gw'. specialize (Gw' ltac:(done)). cbn [length] in Gw'.
    destruct (lookup_lt_is_Some_2 pos (npos st)) as [p Ep]; [lia|].
    rewrite Ep in E. destruct (Gpv' _ _ Ep) as (x & _ & PV). rewrite F, Gn, lookup_app_r, Nat.sub_diag in PV by lia. cbn in PV.
    destruct (Gpv _ _ Ep) as (y & Ey & PVy). rewrite Gn, lookup_ge_None_2 in PVy by lia. inversion PVy; subst y.
    rewrite Gn, <- Gn, Ey in E. cbn in E. inversion PV as [? HV|? t ? HV HT|]; rewrite HV in E; [done|]. by rewrite HT in E.
  - done.
  - destruct (tbl !! i) as [f|] eqn:L; [|by inversion S; simplify_eq].
    destruct (Gv' _ _ L) as (x & _ & V'). rewrite uses_app in V'. cbn in V'. rewrite decide_True in V' by done.
    rewrite cons_middle, app_assoc in V'. apply Value_prefix in V' as [z V'].
    destruct (Gv _ _ L) as (o & Eo & Vo). unfold getval in E. rewrite Eo in E. cbn in E.
    apply Value_inv in V' as (w & Hw & t & Hv & Ht).
    rewrite (Value_fun _ _ _ _ Hw Vo) in Ht. rewrite Hv, Ht in E. done.
Qed.
Lemma PosValue_fun p w x y : PosValue p w x -> PosValue p w y -> x = y.
Proof. destruct 1; inversion 1; congruence. Qed.
Lemma Given_fun tbl pos its a b : Given tbl pos its a -> Given tbl pos its b -> a = b.
Proof.
  intros [Al Av Af Aw Apl Apv An] [Bl Bv Bf Bw Bpl Bpv Bn].
  destruct a as [v p f n], b as [v' p' f' n']; cbn in *. f_equal; [| |congruence|congruence].
  - apply list_eq_same_length with (length tbl); [done|done|]. intros i x y Hi Hx Hy.
    destruct (lookup_lt_is_Some_2 tbl i Hi) as [g Hg].
    destruct (Av _ _ Hg) as (x' & Ex & Vx), (Bv _ _ Hg) as (y' & Ey & Vy). simplify_eq. by eapply Value_fun.
  - apply list_eq_same_length with (length pos); [done|done|]. intros i x y Hi Hx Hy.
    destruct (lookup_lt_is_Some_2 pos i Hi) as [g Hg].
    destruct (Apv _ _ Hg) as (x' & Ex & Vx), (Bpv _ _ Hg) as (y' & Ey & Vy). simplify_eq. by eapply PosValue_fun.
Qed.

Lemma loop_ok tbl pos n : distinct_flags tbl -> forall args its st st', (length args <= n)%nat -> Given tbl pos its st ->
  (loop tbl pos args st = Ok st' <-> exists more, Line tbl more args /\ Given tbl pos (its ++ more) st').
Proof.
  intros D. induction n as [|n IH]; intros args its st st' Hn G.
  { destruct args; [|cbn in Hn; lia]. cbn. split.
    - intros [= <-]. exists []. rewrite app_nil_r. split; [constructor|done].
    - intros (more & L & G'). inversion L as [|?|? ws ? ? S ? E]; [|by destruct S]. subst more. rewrite app_nil_r in G'. f_equal. by eapply Given_fun. }
  split.
  - destruct args as [|arg rest].
    { cbn. intros [= <-]. exists []. rewrite app_nil_r. split; [constructor|done]. }
    intros E. destruct (loop_spelled _ _ _ _ _ _ E) as [-> |(it & ws & rest' & S & Eq & Le)].
    { cbn in E. injection E as <-. exists []. rewrite app_nil_r. split; [constructor|done]. }
    rewrite Eq in E. pose proof (step_spelled tbl pos st it ws rest' D S) as St.
    destruct (step_item tbl pos st it) as [st1|] eqn:Es; [|by apply St in E]. rewrite St in E.
    assert (Given tbl pos (its ++ [it]) st1) as G1 by (by eapply step_given).
    assert (length rest' <= n)%nat as Hn' by (cbn in Hn; lia).
    destruct (proj1 (IH rest' _ st1 st' Hn' G1) E) as (more & L & G').
    exists (it :: more). rewrite Eq. split; [by constructor|]. by rewrite <- app_assoc in G'.
  - intros (more & L & G'). destruct L as [|rest|it ws more rest S L].
    + cbn. rewrite app_nil_r in G'. f_equal. by eapply Given_fun.
    + cbn. rewrite app_nil_r in G'. f_equal. by eapply Given_fun.
    + pose proof (step_spelled tbl pos st it ws rest D S) as St.
      destruct (step_item tbl pos st it) as [st1|] eqn:Es.
      * rewrite St. assert (Given tbl pos (its ++ [it]) st1) as G1 by (by eapply step_given).
        apply (IH rest (its ++ [it]) st1 st'); [|done|].
        { rewrite app_length in Hn. assert (1 <= length ws)%nat by (destruct S; cbn; lia). lia. }
        exists more. split; [done|]. by rewrite <- app_assoc.
      * exfalso. exact (step_none tbl pos its st it ws more st' G S Es G').
Qed.
Definition start (tbl : list flag) (pos : list positional) : state :=
  State (map (fun _ => VNone []) tbl) (map (fun _ => VNone []) pos) [] 0.
Lemma start_given tbl pos : Given tbl pos [] (start tbl pos).
Proof.
  split; cbn; try done.
  - apply map_length.
  - intros i f H. exists (VNone []). split; [|constructor]. fold (fmap (M:=list) (fun _ : flag => VNone []) tbl).
    rewrite list_lookup_fmap, H. done.
  - by destruct (decide _).
  - lia.
  - apply map_length.
  - intros k p H. exists (VNone []). split; [|constructor]. fold (fmap (M:=list) (fun _ : positional => VNone []) pos).
    rewrite list_lookup_fmap, H. done.
Qed.

(** *** Tables that pass the checks *)
Lemma unique_flags_ok tbl : unique_flags tbl = true <-> distinct_flags tbl.
Proof.
  induction tbl as [|f tbl IH]; cbn.
  - split; [|done]. intros _ i j f g H. done.
  - rewrite andb_true_iff, IH, forallb_forall. split.
    + intros [A D] i j x y Hi Hj Ne.
      assert (forall k g, tbl !! k = Some g -> name f <> name g /\ (sf f <> 0 -> sf f <> sf g)) as B.
      { intros k g Hk. specialize (A g). rewrite <- elem_of_list_In in A. specialize (A (elem_of_list_lookup_2 _ _ _ Hk)).
        apply andb_true_iff in A as [A1 A2]. apply bool_decide_eq_true in A1. split; [done|]. lia. }
      destruct i as [|i], j as [|j].
      * done.
      * injection Hi as <-. by apply (B j).
      * injection Hj as <-. destruct (B i x Hi) as [B1 B2]. split; [congruence|]. intros H1 H2. apply B2; congruence.
      * apply (D i j x y Hi Hj). lia.
    + intros D. split.
      * intros g [k Hk]%elem_of_list_In%elem_of_list_lookup_1. destruct (D 0%nat (S k) f g eq_refl Hk ltac:(lia)) as [D1 D2].
        apply andb_true_iff. split; [by apply bool_decide_eq_true|]. lia.
      * intros i j x y Hi Hj Ne. apply (D (S i) (S j) x y Hi Hj). lia.
Qed.
Lemma unique_names_ok l : unique_names l = true <-> NoDup (map cname l).
Proof.
  induction l as [|c l IH]; cbn; [split; [constructor|done]|].
  rewrite andb_true_iff, IH, forallb_forall, NoDup_cons. f_equiv.
  rewrite elem_of_list_In, in_map_iff. split.
  - intros H (d & E & I). specialize (H d I). apply bool_decide_eq_true in H. congruence.
  - intros H d I. apply bool_decide_eq_true. intros E. apply H. eauto.
Qed.
Lemma good_table_ok P : good_table P = true <-> distinct P.
Proof.
  unfold good_table, distinct. rewrite andb_true_iff, unique_names_ok, forallb_forall. f_equiv.
  split; intros H c; [rewrite elem_of_list_In|rewrite <- elem_of_list_In]; intros I; by apply unique_flags_ok, H.
Qed.

Lemma choose_ok P args c rest : NoDup (map cname (cmds P)) ->
  choose P args = (Some c, rest) <-> Chosen P args c rest.
Proof.
  intros ND. unfold choose. split.
  - destruct args as [|a r].
    { intros [= E <-]. apply C_default; [done|]. done. }
    destruct (bool_decide_reflect (head a = Some 45)) as [H|H].
    { intros [= E <-]. apply C_default; [done|]. intros ? ? [= <- <-]. destruct a as [|x v]; [done|]. split; [done|]. left.
      injection H as ->. by exists v. }
    unfold cmdFindCommandByName. destruct a as [|x v].
    { destruct (cdef P) as [d|] eqn:E; [|done]. intros [= <- <-]. by constructor. }
    destruct (List.find _ (cmds P)) as [d|] eqn:F.
    + intros [= <- <-]. apply find_some in F as [I E]. apply bool_decide_eq_true in E. rewrite <- elem_of_list_In in I.
      apply C_named; [done|done|done|]. intros w [= -> _]. done.
    + intros [= E <-]. apply C_default; [done|]. intros ? ? [= <- <-]. split; [done|]. right.
      intros d I. rewrite elem_of_list_In in I. pose proof (find_none _ _ F _ I) as Hd. by apply bool_decide_eq_false in Hd.
  - intros H. destruct H as [c a rest I E N0 NM|c rest E|c args E H].
    + destruct a as [|x v]; [done|]. rewrite bool_decide_eq_false_2.
      2:{ intros [= ->]. by apply (NM v). }
      unfold cmdFindCommandByName. destruct (List.find _ (cmds P)) as [d|] eqn:F.
      * apply find_some in F as [I' E']. apply bool_decide_eq_true in E'.
        assert (d = c) as ->; [|done]. rewrite <- elem_of_list_In in I'.
        apply elem_of_list_lookup in I as [i Hi], I' as [j Hj].
        assert (i = j) as ->; [|congruence].
        apply (NoDup_lookup (map cname (cmds P)) i j (cname c)); [done| |].
        -- fold (fmap (M:=list) cname (cmds P)). by rewrite list_lookup_fmap, Hi.
        -- fold (fmap (M:=list) cname (cmds P)). rewrite list_lookup_fmap, Hj. cbn. congruence.
      * rewrite elem_of_list_In in I. pose proof (find_none _ _ F _ I) as Hd. by apply bool_decide_eq_false in Hd.
    + cbn. by rewrite E.
    + destruct args as [|a r]; [by rewrite E|]. destruct (H a r eq_refl) as [N0 [[v ->]|H']].
      * by rewrite E.
      * case_bool_decide; [by rewrite E|]. unfold cmdFindCommandByName. destruct a as [|x v]; [done|].
        destruct (List.find _ (cmds P)) as [d|] eqn:F; [|by rewrite E].
        apply find_some in F as [I' E']. apply bool_decide_eq_true in E'. rewrite <- elem_of_list_In in I'. by destruct (H' d).
Qed.

(** *** Defaults *)
Lemma default_flag_ok c f x y : default_flag c f x = Ok y <-> Filled f x y.
Proof.
  split.
  - destruct x as [a| | |]; cbn; try (intros [= <-]; by constructor).
    destruct (validator f) as [t|] eqn:V; [|intros [= <-]; by constructor].
    destruct (def f) as [d|] eqn:D; [|unfold fail; by destruct (Nat.ltb _ _)].
    destruct (bool_decide_reflect (d = [])) as [-> |N0]; [intros [= <-]; by econstructor|].
    destruct (bool_decide_reflect (take 2 d = [91; 93])) as [E|N2].
    + intros [= <-]. destruct d as [|p [|q d]]; [done|done|]. injection E as -> ->. by econstructor.
    + destruct (t (VNone a) d) as [z|] eqn:T; [|done]. intros [= <-]. eapply F_def; try done. intros e ->. done.
  - destruct 1 as [x H|a V|a t V D|a t d V D|a t d y V D N0 N2 T]; cbn.
    + destruct x; try done. by destruct (H a).
    + by rewrite V.
    + by rewrite V, D.
    + rewrite V, D. rewrite bool_decide_eq_false_2 by done. by rewrite bool_decide_eq_true_2.
    + rewrite V, D. rewrite bool_decide_eq_false_2 by done. rewrite bool_decide_eq_false_2; [by rewrite T|].
      destruct d as [|p [|q d]]; cbn; [done|done|]. intros [= -> ->]. by apply (N2 d).
Qed.
Lemma default_pos_ok c p x y : default_pos c p x = Ok y <-> PosFilled p x y.
Proof.
  split.
  - destruct x as [a| | |]; cbn; try (intros [= <-]; by constructor).
    destruct (pvalidator p) as [t|] eqn:V; [|intros [= <-]; by constructor].
    destruct (pdef p) as [d|] eqn:D; [|unfold fail; by destruct (Nat.ltb _ _)].
    destruct (bool_decide_reflect (d = [])) as [-> |N0]; [intros [= <-]; by econstructor|].
    destruct (t (VNone a) d) as [z|] eqn:T; [|done]. intros [= <-]. by eapply PF_def.
  - destruct 1 as [x H|a V|a t V D|a t d y V D N0 T]; cbn.
    + destruct x; try done. by destruct (H a).
    + by rewrite V.
    + by rewrite V, D.
    + rewrite V, D. rewrite bool_decide_eq_false_2 by done. by rewrite T.
Qed.
Lemma all_defaults_ok {A} (g : A -> fval -> res fval) tbl vs ys : length vs = length tbl ->
  all_defaults g tbl vs = Ok ys <->
  length ys = length tbl /\ forall i a x, tbl !! i = Some a -> vs !! i = Some x -> exists y, ys !! i = Some y /\ g a x = Ok y.
Proof.
  revert vs ys. induction tbl as [|a tbl IH]; intros [|v vs] ys L; try done; cbn.
  - split; [intros [= <-]; done|]. intros [H _]. by destruct ys.
  - injection L as L. split.
    + destruct (g a v) as [x| | | |] eqn:E; try done. destruct (all_defaults g tbl vs) as [xs| | | |] eqn:F; try done.
      intros [= <-]. apply IH in F as [F1 F2]; [|done]. split; [cbn; lia|]. intros [|i] b y; cbn.
      * intros [= <-] [= <-]. eauto.
      * apply F2.
    + intros [L2 H]. destruct ys as [|y ys]; [done|]. destruct (H 0%nat a v eq_refl eq_refl) as (y' & [= <-] & ->).
      rewrite (proj2 (IH vs ys L)); [done|]. split; [cbn in L2; lia|]. intros i b x Hb Hx. by apply (H (S i)).
Qed.

(** *** The whole *)
Lemma chosen_in P all c args : well_formed P -> Chosen P all c args -> c ∈ cmds P.
Proof. intros W. destruct 1; [done|by apply W|by apply W]. Qed.
Lemma nonzero_on x : nonzero (Some x) = true <-> on x.
Proof. destruct x as [|z|[s|]|]; cbn; try done. rewrite negb_true_iff. lia. Qed.

Lemma parse_sound P prog all r : well_formed P -> parseCommandLineArguments P (prog :: all) = Ok r ->
  distinct P /\ exists its, Means P all its r /\
    exists args dst, Chosen P all (chosen r) args /\
      dst = (let first := (length (prog :: all) - length args)%nat in
             if bool_decide ((prog :: all) !! (first - 1)%nat = Some (cname (chosen r))) then (first - 1)%nat else first) /\
      let fs := if decide (cpos (chosen r) = []) then files_of its else [] in
      inputs r = take (length fs) (tail (rewrite (prog :: all) dst fs)).
Proof.
  intros W. unfold parseCommandLineArguments. destruct (good_table P) eqn:GT; [|done]. cbn [negb].
  apply good_table_ok in GT. destruct (choose P (tail (prog :: all))) as [[c|] args] eqn:Ch; [|unfold fail; by destruct (Nat.ltb _ _)].
  cbn [tail] in Ch. apply choose_ok in Ch; [|by apply GT]. cbv zeta.
  set (tbl := gargs P ++ cargs c). set (dst := if bool_decide _ then _ else _). fold (start tbl (cpos c)).
  assert (distinct_flags tbl) as D by (apply GT; by eapply chosen_in).
  destruct (loop tbl (cpos c) args (start tbl (cpos c))) as [st| | | |] eqn:L; try done.
  apply (loop_ok tbl (cpos c) (length args) D args [] (start tbl (cpos c)) st) in L as (its & Li & G); [|lia|apply start_given].
  cbn in G. destruct G as [Gl Gv Gf Gw Gpl Gpv Gn].
  destruct (nonzero (vals st !! 0%nat) || nonzero (vals st !! 1%nat)) eqn:NZ; [done|]. apply orb_false_iff in NZ as [NZ0 NZ1].
  destruct (all_defaults _ (cargs c) _) as [cv| | | |] eqn:Dc; try done.
  destruct (all_defaults _ (gargs P) _) as [gv| | | |] eqn:Dg; try done.
  destruct (all_defaults _ (cpos c) _) as [pv| | | |] eqn:Dp; try done.
  intros [= <-]. split; [done|]. exists its. subst tbl.
  rewrite app_length in Gl.
  apply all_defaults_ok in Dc as [Lc Dc]; [|rewrite drop_length; lia].
  apply all_defaults_ok in Dg as [Lg Dg]; [|rewrite take_length; lia].
  apply all_defaults_ok in Dp as [Lp Dp]; [|lia].
  split.
  - split; unfold table; cbn [chosen flags positionals].
    + by exists args.
    + rewrite !app_length. lia.
    + intros i f Hf. destruct (Gv i f Hf) as (x & Hx & V). exists x.
      destruct (decide (i < length (gargs P))%nat) as [Lt|Ge].
      * rewrite lookup_app_l in Hf by done. destruct (Dg i f x Hf) as (y & Hy & E).
        { by rewrite lookup_take by done. }
        exists y. split; [done|]. split; [by eapply default_flag_ok|]. rewrite lookup_app_l by lia. done.
      * rewrite lookup_app_r in Hf by lia. destruct (Dc (i - length (gargs P))%nat f x Hf) as (y & Hy & E).
        { rewrite lookup_drop. rewrite <- Hx. f_equal. lia. }
        exists y. split; [done|]. split; [by eapply default_flag_ok|]. rewrite lookup_app_r by lia. by rewrite Lg.
    + exact Gw.
    + lia.
    + intros k p Hp. destruct (Gpv k p Hp) as (x & Hx & V). exists x. destruct (Dp k p x Hp Hx) as (y & Hy & E).
      exists y. split; [done|]. split; [by eapply default_pos_ok|done].
    + intros i f x Lt Hf V. destruct (Gv i f Hf) as (x' & Hx & V'). rewrite <- (Value_fun _ _ _ _ V' V). rewrite <- nonzero_on.
      assert (i = 0%nat \/ i = 1%nat) as [-> | ->] by lia; rewrite Hx in *; congruence.
  - exists args, dst. split; [done|]. split; [done|]. cbn [chosen inputs]. by rewrite <- Gf.
Qed.

Lemma all_defaults_ex {A} (g : A -> fval -> res fval) tbl vs ys : length vs = length tbl -> length ys = length tbl ->
  (forall i a x, tbl !! i = Some a -> vs !! i = Some x -> exists y, ys !! i = Some y /\ g a x = Ok y) -> all_defaults g tbl vs = Ok ys.
Proof. intros. by apply all_defaults_ok. Qed.

Lemma parse_complete P prog all its r : well_formed P -> distinct P -> Means P all its r ->
  exists fs, parseCommandLineArguments P (prog :: all) = Ok (Parsed (chosen r) (flags r) (positionals r) fs).
Proof.
  intros W D [Ml Mn Mf Mw Mpl Mp Mr]. destruct Ml as (args & Ch & Li). set (c := chosen r) in *. unfold table in *.
  unfold parseCommandLineArguments. rewrite (proj2 (good_table_ok P) D). cbn [negb tail].
  rewrite (proj2 (choose_ok P all c args ltac:(apply D)) Ch). cbv zeta.
  set (tbl := gargs P ++ cargs c) in *. set (dst := if bool_decide _ then _ else _). fold (start tbl (cpos c)).
  assert (distinct_flags tbl) as Df by (apply D; by eapply chosen_in).
  (* the state *)
  assert (exists vs, length vs = length tbl /\ forall i f, tbl !! i = Some f -> exists x, vs !! i = Some x /\ Value f (uses i its) x) as (vs & Lvs & Hvs).
  { assert (forall i f, tbl !! i = Some f -> exists x, Value f (uses i its) x) as Ex.
    { intros i f Hf. destruct (Mf i f Hf) as (x & y & V & _). eauto. }
    clear -Ex. revert Ex. generalize (fun i => uses i its) as u. cbv beta. intros u. cut (forall u : nat -> list (option word),
      (forall i f, tbl !! i = Some f -> exists x, Value f (u i) x) -> exists vs, length vs = length tbl /\
      forall i f, tbl !! i = Some f -> exists x, vs !! i = Some x /\ Value f (u i) x).
    { intros H Ex. exact (H (fun i => uses i its) Ex). }
    clear. induction tbl as [|f tbl IH]; intros u Ex; [by exists []|].
    destruct (IH (fun i => u (S i))) as (vs & L & H). { intros i g Hg. by apply (Ex (S i)). }
    destruct (Ex 0%nat f eq_refl) as [x Hx]. exists (x :: vs). split; [cbn; lia|]. intros [|i] g Hg; [injection Hg as <-; by exists x|]. by apply H. }
  assert (exists ps, length ps = length (cpos c) /\ forall k p, cpos c !! k = Some p -> exists x, ps !! k = Some x /\ PosValue p (files_of its !! k) x) as (ps & Lps & Hps).
  { assert (forall k p, cpos c !! k = Some p -> exists x, PosValue p (files_of its !! k) x) as Ex.
    { intros k p Hp. destruct (Mp k p Hp) as (x & y & V & _). eauto. }
    revert Ex. generalize (files_of its). clear. induction (cpos c) as [|p pos IH]; intros l Ex; [by exists []|].
    destruct (IH (tail l)) as (vs & L & H). { intros k q Hq. destruct (Ex (S k) q Hq) as [x Hx]. exists x. by destruct l. }
    destruct (Ex 0%nat p eq_refl) as [x Hx]. exists (x :: vs). split; [cbn; lia|]. intros [|i] g Hg; [injection Hg as <-; by exists x|].
    destruct (H i g Hg) as (y & Hy & PV). exists y. split; [done|]. by destruct l. }
  set (st := State vs ps (if decide (cpos c = []) then files_of its else []) (length (files_of its))).
  assert (loop tbl (cpos c) args (start tbl (cpos c)) = Ok st) as ->.
  { apply (loop_ok tbl (cpos c) (length args) Df args [] (start tbl (cpos c)) st); [lia|apply start_given|].
    exists its. split; [done|]. split; cbn; try done. }
  assert (nonzero (vals st !! 0%nat) = false) as ->.
  { cbn. destruct (vs !! 0%nat) as [x|] eqn:E; [|done]. destruct (lookup_lt_is_Some_2 tbl 0) as [f Hf].
    { rewrite <- Lvs. by eapply lookup_lt_Some. }
    destruct (Hvs _ _ Hf) as (x' & Ex & V). rewrite E in Ex. injection Ex as <-.
    pose proof (Mr 0%nat f x ltac:(lia) Hf V) as Non. rewrite <- nonzero_on in Non. by destruct (nonzero (Some x)). }
  assert (nonzero (vals st !! 1%nat) = false) as ->.
  { cbn. destruct (vs !! 1%nat) as [x|] eqn:E; [|done]. destruct (lookup_lt_is_Some_2 tbl 1) as [f Hf].
    { rewrite <- Lvs. by eapply lookup_lt_Some. }
    destruct (Hvs _ _ Hf) as (x' & Ex & V). rewrite E in Ex. injection Ex as <-.
    pose proof (Mr 1%nat f x ltac:(lia) Hf V) as Non. rewrite <- nonzero_on in Non. by destruct (nonzero (Some x)). }
  cbn [orb]. cbn [vals pvals files st].
  assert (forall i f x, tbl !! i = Some f -> vs !! i = Some x -> exists y, flags r !! i = Some y /\ default_flag (cname c) f x = Ok y) as Dfl.
  { intros i f x Hf Hx. destruct (Mf i f Hf) as (x' & y & V & F & E). destruct (Hvs i f Hf) as (x2 & Hx2 & V2). simplify_eq.
    rewrite (Value_fun _ _ _ _ V2 V). exists y. split; [done|]. by apply default_flag_ok. }
  subst tbl. rewrite app_length in Lvs, Mn.
  rewrite (all_defaults_ex _ (cargs c) (drop (length (gargs P)) vs) (drop (length (gargs P)) (flags r))).
  2,3: rewrite drop_length; lia.
  2:{ intros i f x Hf Hx. rewrite lookup_drop in Hx. rewrite lookup_drop. apply Dfl; [|done]. rewrite lookup_app_r by lia. rewrite <- Hf. f_equal. lia. }
  rewrite (all_defaults_ex _ (gargs P) (take (length (gargs P)) vs) (take (length (gargs P)) (flags r))).
  2,3: rewrite take_length; lia.
  2:{ intros i f x Hf Hx. pose proof (lookup_lt_Some _ _ _ Hf). rewrite lookup_take in Hx by done. rewrite lookup_take by done.
      apply Dfl; [|done]. by rewrite lookup_app_l by done. }
  rewrite (all_defaults_ex _ (cpos c) ps (positionals r)); [|lia|lia|].
  2:{ intros k p x Hp Hx. destruct (Mp k p Hp) as (x' & y & V & F & E). destruct (Hps k p Hp) as (x2 & Hx2 & V2). simplify_eq.
      rewrite (PosValue_fun _ _ _ _ V2 V). exists y. split; [done|]. by apply default_pos_ok. }
  rewrite take_drop. eauto.
Qed.

(** *** Rejection *)
Lemma find_name_none tbl n k : (forall f, f ∈ tbl -> name f <> n) -> cmdFindByName tbl n k = None.
Proof.
  intros H. destruct (cmdFindByName tbl n k) as [[i f]|] eqn:E; [|done].
  apply find_name_spec in E as (j & _ & L & En). apply elem_of_list_lookup_2 in L. by apply H in L.
Qed.
Lemma find_sf_none tbl n k : (forall f, f ∈ tbl -> sf f <> 0 -> sf f <> n) -> cmdFindByShortFormat tbl n k = None.
Proof.
  intros H. destruct (cmdFindByShortFormat tbl n k) as [[i f]|] eqn:E; [|done].
  apply find_sf_spec in E as (j & _ & L & En & N0). apply elem_of_list_lookup_2 in L. by apply H in L.
Qed.
Lemma loop_unknown tbl pos ws w rest st st' : distinct_flags tbl -> Items tbl ws -> unknown tbl w ->
  loop tbl pos (ws ++ w :: rest) st <> Ok st'.
Proof.
  intros D I U. revert st. induction I as [|it ws more S I IH]; intros st.
  - cbn [app loop]. destruct U as [n k NE Hk N0 H|c v N45 H].
    + rewrite classify_long by done.
      assert (exists x, split_eq (n ++ k) = (n, x)) as [x ->].
      { destruct Hk as [-> |[v ->]]; [rewrite app_nil_r, split_eq_none by done|rewrite split_eq_app by done]; eauto. }
      rewrite find_name_none by done. unfold fail. by destruct (Nat.ltb _ _).
    + rewrite classify_short by done. rewrite find_sf_none by done. unfold fail. by destruct (Nat.ltb _ _).
  - rewrite <- app_assoc. pose proof (step_spelled tbl pos st it ws (more ++ w :: rest) D S) as St.
    destruct (step_item tbl pos st it) as [st1|]; [|apply St]. rewrite St. apply IH.
Qed.

(** *** The error buffer *)
Definition short_table (P : parser) : Prop :=
  forall c, c ∈ cmds P -> (length (cname c) <= 40)%nat /\ (forall f, f ∈ table P c -> (length (name f) <= 40)%nat) /\
    (forall p, p ∈ cpos c -> (length (pname p) <= 20)%nat).
Lemma fail_short {A} m : (length m < 128)%nat -> @fail A m <> Overflow.
Proof. intros H. unfold fail. by rewrite (proj2 (Nat.ltb_lt _ _) H). Qed.
Lemma find_name_in tbl n k i f : cmdFindByName tbl n k = Some (i, f) -> f ∈ tbl.
Proof. intros (j & _ & L & _)%find_name_spec. by eapply elem_of_list_lookup_2. Qed.
Lemma find_sf_in tbl n k i f : cmdFindByShortFormat tbl n k = Some (i, f) -> f ∈ tbl.
Proof. intros (j & _ & L & _)%find_sf_spec. by eapply elem_of_list_lookup_2. Qed.
Lemma classify_in tbl w i f x : classify tbl w = KFlag (Some (i, f)) x -> f ∈ tbl.
Proof.
  destruct w as [|a w]; cbn; [done|]. destruct (a =? 45); [|done]. destruct w as [|b v]; [done|]. destruct (b =? 45).
  - destruct v as [|c v]; [done|]. destruct (split_eq (c :: v)) as [n y]. intros [= E _]. by eapply find_name_in.
  - intros [= E _]. by eapply find_sf_in.
Qed.
Lemma loop_short tbl pos n : (forall f, f ∈ tbl -> (length (name f) <= 40)%nat) -> forall args st, (length args <= n)%nat ->
  Forall (fun w => (length w < 88)%nat) args -> loop tbl pos args st <> Overflow.
Proof.
  intros T. induction n as [|n IH]; intros args st Hn F; destruct args as [|arg rest]; try done; [cbn in Hn; lia|]. cbn [loop].
  apply Forall_cons in F as [Fa Fr]. cbn in Hn.
  destruct (classify tbl arg) as [| |[[i f]|] val] eqn:C; try done.
  - unfold positional_arg. destruct pos as [|p0 pos]; [by apply IH; [lia|]|].
    destruct ((p0 :: pos) !! npos st) as [p|]; [|done].
    destruct (match pvalidator p with None => _ | Some f => _ end); [|done]. apply IH; [lia|done].
  - apply classify_in in C. specialize (T f C). destruct (validator f) as [t|], val as [v|].
    + destruct (t _ _); [apply IH; [lia|done]|done].
    + destruct rest as [|v rest]; [apply fail_short; rewrite !app_length; cbn; lia|].
      apply Forall_cons in Fr as [_ Fr]. destruct (t _ _); [apply IH; [cbn in Hn; lia|done]|done].
    + apply fail_short. rewrite !app_length. cbn. lia.
    + apply IH; [lia|done].
  - apply fail_short. rewrite !app_length. cbn. lia.
Qed.
Lemma all_defaults_short {A} (g : A -> fval -> res fval) tbl : forall vs,
  (forall a v, a ∈ tbl -> g a v <> Overflow) -> all_defaults g tbl vs <> Overflow.
Proof.
  induction tbl as [|a tbl IH]; intros vs H; [done|]. destruct vs as [|v vs]; [done|]. cbn.
  destruct (g a v) eqn:E; try done.
  - destruct (all_defaults g tbl vs) eqn:F; try done. exfalso. apply (IH vs); [|done]. intros b w Hb. apply H. by right.
  - exfalso. apply (H a v); [left|done].
Qed.
Lemma parse_short P argv : well_formed P -> distinct P -> short_table P -> Forall (fun w => (length w < 88)%nat) argv ->
  parseCommandLineArguments P argv <> Overflow.
Proof.
  intros W D T F. unfold parseCommandLineArguments. rewrite (proj2 (good_table_ok P) D). cbn [negb].
  destruct (choose P (tail argv)) as [[c|] args] eqn:Ch; [|done].
  apply choose_ok in Ch; [|apply D]. assert (c ∈ cmds P) as Hc by (by eapply chosen_in). destruct (T c Hc) as (Tc & Tf & Tp).
  assert (Forall (fun w => (length w < 88)%nat) args) as Fa.
  { assert (Forall (fun w => (length w < 88)%nat) (tail argv)) as Ft by (destruct F; [constructor|done]).
    destruct Ch; [by apply Forall_cons in Ft as [_ ?]|by apply Forall_cons in Ft as [_ ?]|done]. }
  cbv zeta. destruct (loop _ _ _ _) as [st| | | |] eqn:L; try done.
  - destruct (_ || _); [done|].
    destruct (all_defaults _ (cargs c) _) eqn:Dc; try done.
    + destruct (all_defaults _ (gargs P) _) eqn:Dg; try done.
      * destruct (all_defaults _ (cpos c) _) eqn:Dp; try done.
        exfalso. revert Dp. apply all_defaults_short. intros p v Hp. specialize (Tp p Hp).
        destruct v as [a'| | |]; try done. cbn [default_pos default_flag]. destruct (pvalidator p) as [vf|]; [|done]. destruct (pdef p).
        -- case_bool_decide; [done|]. by destruct (vf _ _).
        -- apply fail_short. rewrite !app_length. cbn. lia.
      * exfalso. revert Dg. apply all_defaults_short. intros f v Hf. specialize (Tf f ltac:(apply elem_of_app; by left)).
        destruct v as [a'| | |]; try done. cbn [default_pos default_flag]. destruct (validator f) as [vf|]; [|done]. destruct (def f).
        -- repeat (case_bool_decide; [done|]). by destruct (vf _ _).
        -- apply fail_short. rewrite !app_length. cbn. lia.
    + exfalso. revert Dc. apply all_defaults_short. intros f v Hf. specialize (Tf f ltac:(apply elem_of_app; by right)).
      destruct v as [a'| | |]; try done. cbn [default_pos default_flag]. destruct (validator f) as [vf|]; [|done]. destruct (def f).
      -- repeat (case_bool_decide; [done|]). by destruct (vf _ _).
      -- apply fail_short. rewrite !app_length. cbn. lia.
  - exfalso. revert L. by apply (loop_short _ _ (length args)).
Qed.
