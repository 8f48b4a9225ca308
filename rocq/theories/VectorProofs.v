From Coq Require Import Lia.
From stdpp Require Import numbers list.
From Verif Require Import VectorModel VectorSpec.
From Coq Require Import ZifyBool ZifyNat.
Ltac Zify.zify_post_hook ::= Z.div_mod_to_equations.

Record rep {T} (v : vec T) (l : list T) : Prop := {
  r_size : v_size v = length l;
  r_cap : length (v_data v) = v_capacity v;
  r_fit : length l <= v_capacity v;
  r_cells : forall i x, l !! i = Some x -> v_data v !! i = Some (Some x) }.
Lemma realloc_length {T} (d : list (option T)) n : length (realloc d n) = n.
Proof. unfold realloc. rewrite app_length, take_length, replicate_length. lia. Qed.
Lemma realloc_lookup {T} (d : list (option T)) n i : i < n -> i < length d -> realloc d n !! i = d !! i.
Proof.
  intros. unfold realloc. rewrite lookup_app_l by (rewrite take_length; lia). by apply lookup_take.
Qed.
Lemma grow_rep {T} (v : vec T) l : rep v l -> rep (grow v) l /\
  v_capacity (grow v) = (if decide (v_capacity v <= length l) then v_capacity v + v_capacity v / 2 else v_capacity v).
Proof.
  intros [S C F X]. unfold grow. rewrite S. destruct (decide _); [|done]. split; [|done]. split; cbn; [done| |lia|].
  - apply realloc_length.
  - intros i x E. assert (i < length l) by by apply lookup_lt_Some in E.
    rewrite realloc_lookup by lia. by apply X.
Qed.
Lemma push_rep {T} (v : vec T) l x : rep v l ->
  (if decide (length l = v_capacity v /\ v_capacity v < 2) then push v x = VOob
   else exists v', push v x = VOk v' /\ rep v' (l ++ [x]) /\ v_capacity v' = next_cap l (v_capacity v) (Push x)).
Proof.
  intros R. destruct (grow_rep v l R) as [[S C F X] Ec]. destruct R as [S0 C0 F0 X0].
  unfold push. rewrite S, C, Ec.
  destruct (decide (length l = v_capacity v /\ v_capacity v < 2)) as [[E1 E2]|N].
  - rewrite decide_False; [done|]. rewrite decide_True by lia. lia.
  - assert (L : length l < (if decide (v_capacity v <= length l) then v_capacity v + v_capacity v / 2 else v_capacity v)).
    { destruct (decide _); lia. }
    rewrite decide_True by done. rewrite <- Ec in *. eexists. split; [done|]. split.
    + split; cbn [v_size v_data v_capacity].
      * rewrite app_length. cbn. lia.
      * by rewrite insert_length, C.
      * rewrite app_length. cbn [length]. lia.
      * intros i y E. destruct (decide (i = length l)) as [-> |Ne].
        { rewrite list_lookup_insert by lia. rewrite lookup_app_r in E by lia. rewrite Nat.sub_diag in E.
          cbn in E. by injection E as ->. }
        rewrite list_lookup_insert_ne by done. apply X. rewrite lookup_app_l in E; [done|].
        apply lookup_lt_Some in E. rewrite app_length in E. cbn in E. lia.
    + done.
Qed.
Lemma step_rep {T} (v : vec T) l o : rep v l ->
  (match o with Push _ => ~ (length l = v_capacity v /\ v_capacity v < 2) | _ => True end) ->
  match spec_step l o with
  | Some (l', r) => exists v', step v o = VOk (v', r) /\ rep v' l' /\ v_capacity v' = next_cap l (v_capacity v) o
  | None => step v o = VAbort
  end.
Proof.
  intros R P. assert (R0 := R). destruct R as [S C F X]. destruct o as [x| | |i|i x|n| |]; cbn [step spec_step next_cap].
  - pose proof (push_rep v l x R0) as G. rewrite decide_False in G by done. destruct G as (v' & E & R' & Ec).
    rewrite E. by exists v'.
  - unfold pop. rewrite S. destruct (last l) as [x|] eqn:El.
    + rewrite last_lookup in El. assert (Lt := lookup_lt_Some _ _ _ El).
      destruct (length l) as [|n] eqn:En; [lia|]. cbn [pred] in El. rewrite (X _ _ El). eexists. split; [done|]. split; [|done].
      replace (Datatypes.S n - 1) with n by lia.
      split; cbn; [rewrite take_length; lia|done|rewrite take_length; lia|].
      intros i y E. apply X. by apply lookup_take_Some in E as [E _].
    + apply last_None in El as ->. done.
  - unfold shift. rewrite S. destruct l as [|x l]; [done|]. cbn [length]. rewrite (X 0 x eq_refl).
    cbn [length] in *. rewrite decide_True by lia. eexists. split; [done|]. split; [|done].
    split; cbn; [done| |lia|].
    + rewrite app_length, take_length, !drop_length. lia.
    + intros i y E. assert (Lt := lookup_lt_Some _ _ _ E). rewrite lookup_app_l by (rewrite take_length, drop_length; lia).
      rewrite lookup_take, lookup_drop by lia. apply X. done.
  - unfold get. rewrite S. destruct (decide (i < 0)%Z); [by rewrite decide_False by lia|].
    destruct (l !! Z.to_nat i) as [x|] eqn:E.
    + assert (Lt := lookup_lt_Some _ _ _ E). rewrite decide_True by lia. rewrite (X _ _ E). by exists v.
    + apply lookup_ge_None in E. by rewrite decide_False by lia.
  - unfold set. rewrite S. destruct (decide (i < 0)%Z); [by rewrite decide_False by lia|].
    destruct (decide (Z.to_nat i < length l)).
    + rewrite decide_True by lia. rewrite decide_True by lia. eexists. split; [done|]. split; [|done].
      split; cbn; [by rewrite insert_length|by rewrite insert_length|by rewrite insert_length|].
      intros j y E. destruct (decide (Z.to_nat i = j)) as [<-|Ne].
      * rewrite list_lookup_insert by lia. rewrite list_lookup_insert in E by lia. by injection E as ->.
      * rewrite list_lookup_insert_ne by done. rewrite list_lookup_insert_ne in E by done. by apply X.
    + by rewrite decide_False by lia.
  - eexists. split; [done|]. split; [|done]. split; cbn.
    + rewrite take_length, S. destruct (decide _); lia.
    + apply realloc_length.
    + rewrite take_length. lia.
    + intros i x E. apply lookup_take_Some in E as [E Hi]. assert (Lt := lookup_lt_Some _ _ _ E).
      rewrite realloc_lookup by lia. by apply X.
  - eexists. split; [done|]. split; [|by cbn]. split; cbn.
    + rewrite S. destruct (decide _); lia.
    + apply realloc_length.
    + lia.
    + intros i x E. assert (Lt := lookup_lt_Some _ _ _ E). rewrite realloc_lookup by lia. by apply X.
  - exists v. by rewrite S.
Qed.
Lemma reads_rep {T} (v : vec T) l : rep v l -> forall n i, i + n = length l -> reads v i n = VOk (drop i l).
Proof.
  intros [S C F X]. induction n as [|n IH]; intros i Hi.
  - rewrite drop_ge by lia. done.
  - cbn. destruct (lookup_lt_is_Some_2 l i ltac:(lia)) as [x E]. rewrite (X _ _ E), IH by lia.
    by rewrite (drop_S _ _ _ E).
Qed.
Lemma elems_rep {T} (v : vec T) l : rep v l -> elems v = VOk l.
Proof. intros R. unfold elems. rewrite (r_size _ _ R). by rewrite (reads_rep v l R). Qed.
Lemma init_rep {T} c : rep (@init T c) [].
Proof. split; cbn; [done|by rewrite replicate_length|lia|done]. Qed.

Definition agrees {T} (r : list (out T) * vres (vec T)) (s : list (out T) * option (list T)) : Prop :=
  r.1 = s.1 /\
  match r.2, s.2 with
  | VOk v, Some l => elems v = VOk l /\ v_size v = length l
  | VAbort, None => True
  | _, _ => False
  end.
Lemma run_exact {T} (os : list (op T)) : forall v l, rep v l ->
  agrees (run v os) (spec_run l os) <-> roomy l (v_capacity v) os.
Proof.
  induction os as [|o os IH]; intros v l R.
  - split; [done|]. intros _. split; cbn; [done|]. split; [by apply elems_rep|apply R].
  - cbn [run spec_run roomy].
    assert (D : (match o with Push _ => ~ (length l = v_capacity v /\ v_capacity v < 2) | _ => True end) \/
      ~ (match o with Push _ => ~ (length l = v_capacity v /\ v_capacity v < 2) | _ => True end)) by (destruct o; lia).
    destruct D as [P|P].
    + assert (G := step_rep v l o R P). destruct (spec_step l o) as [[l' r]|].
      * destruct G as (v' & E & R' & Ec). rewrite E. specialize (IH v' l' R'). rewrite Ec in IH.
        destruct (run v' os) as [rs e], (spec_run l' os) as [rs' e']. unfold agrees in *. cbn [fst snd] in *.
        split.
        { intros [E1 E2]. split; [done|]. apply IH. split; [congruence|done]. }
        { intros [_ Q]. apply IH in Q as [-> Q]. done. }
      * rewrite G. unfold agrees. cbn. tauto.
    + split; [|tauto]. intros A. exfalso. destruct o as [x| | | | | | |]; try tauto.
      assert (G := push_rep v l x R). rewrite decide_True in G by (destruct (decide (length l = v_capacity v /\ v_capacity v < 2)); tauto).
      cbn [step spec_step] in A. rewrite G in A. destruct (spec_run (l ++ [x]) os) as [rs e]. by destruct A.
Qed.
Lemma never_small_roomy {T} (os : list (op T)) : forall l cap, 2 <= cap -> never_small l os -> roomy l cap os.
Proof.
  induction os as [|o os IH]; intros l cap Hc H; [done|]. cbn [never_small roomy] in *. destruct H as [H1 H2].
  split; [destruct o; try done; lia|]. destruct (spec_step l o) as [[l' r]|]; [|done].
  apply IH; [|done]. destruct o; cbn; try lia. destruct (decide _); lia.
Qed.
Lemma push_all_rep {T} (l : list T) : forall v l0, rep v l0 -> 2 <= v_capacity v ->
  exists v', push_all v l = VOk v' /\ rep v' (l0 ++ l).
Proof.
  induction l as [|x l IH]; intros v l0 R Hc; cbn [push_all].
  - exists v. by rewrite app_nil_r.
  - assert (G := push_rep v l0 x R). rewrite decide_False in G by lia. destruct G as (v' & E & R' & Ec). rewrite E.
    destruct (IH v' _ R') as (v'' & E' & R''). { rewrite Ec. cbn. destruct (decide _); lia. }
    exists v''. split; [done|]. by rewrite <- app_assoc in R''.
Qed.
Lemma find_rep {T} (p : T -> bool) (v : vec T) l : rep v l -> forall n i, i + n = length l ->
  exists r, find_from p v i n = VOk r /\
    match r with
    | Some (j, x) => i <= j /\ l !! j = Some x /\ p x = true /\ forall k y, i <= k < j -> l !! k = Some y -> p y = false
    | None => forall k y, i <= k -> l !! k = Some y -> p y = false
    end.
Proof.
  intros [S C F X]. induction n as [|n IH]; intros i Hi; cbn [find_from].
  - exists None. split; [done|]. intros k y Hk E. apply lookup_lt_Some in E. lia.
  - destruct (lookup_lt_is_Some_2 l i ltac:(lia)) as [x E]. rewrite (X _ _ E).
    destruct (p x) eqn:Ep.
    + eexists. split; [done|]. repeat split; [lia|done|done|]. intros. lia.
    + destruct (IH (Datatypes.S i) ltac:(lia)) as (r & Er & P). exists r. split; [done|]. destruct r as [[j y]|].
      * destruct P as (P1 & P2 & P3 & P4). repeat split; [lia|done|done|].
        intros k z Hk Ez. destruct (decide (k = i)) as [-> |]; [congruence|]. apply (P4 k); [lia|done].
      * intros k z Hk Ez. destruct (decide (k = i)) as [-> |]; [congruence|]. apply (P k); [lia|done].
Qed.

(** Vectors reached from the constructor. *)
Definition reached {T} (v : vec T) (l : list T) : Prop :=
  exists c os rs, roomy [] c os /\ run (init c) os = (rs, VOk v) /\ spec_run [] os = (rs, Some l).
Lemma run_rep {T} (os : list (op T)) : forall v l rs v', rep v l -> roomy l (v_capacity v) os ->
  run v os = (rs, VOk v') -> exists l', spec_run l os = (rs, Some l') /\ rep v' l'.
Proof.
  induction os as [|o os IH]; intros v l rs v' R Q E; cbn [run spec_run roomy] in *.
  - injection E as <- <-. by exists l.
  - destruct Q as [P Q]. assert (G := step_rep v l o R P). destruct (spec_step l o) as [[l' r]|].
    + destruct G as (v1 & E1 & R1 & Ec). rewrite E1 in E. destruct (run v1 os) as [rs1 e] eqn:E2. injection E as <- ->.
      rewrite <- Ec in Q. destruct (IH v1 l' rs1 v' R1 Q E2) as (l2 & E3 & R3). rewrite E3. by exists l2.
    + rewrite G in E. done.
Qed.
Lemma reached_rep {T} (v : vec T) l : reached v l -> rep v l.
Proof.
  intros (c & os & rs & Q & E & E2).
  destruct (run_rep os (init c) [] rs v (init_rep c) Q E) as (l' & E3 & R). congruence.
Qed.
