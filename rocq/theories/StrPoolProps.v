(** Property C30: interning in the compiler's string pool (core/strpool.c). *)
From stdpp Require Import list numbers sets.
From Verif Require Import HTableModel HTableProofs StrPoolModel StrPoolProofs.

(** The pool serves the requests [rs] correctly: every request is answered, the
    pointers have the requested contents, and two pointers are equal exactly
    when the contents are. *)
Definition pool_correct (rs : list (list N)) : Prop :=
  ∃ p ptrs, request_all new_str_pool rs = SOk (p, ptrs) ∧ length ptrs = length rs ∧
    (∀ i ptr r, ptrs !! i = Some ptr → rs !! i = Some r → content p ptr = Some r) ∧
    (∀ i j a b r s, ptrs !! i = Some a → ptrs !! j = Some b →
       rs !! i = Some r → rs !! j = Some s → (a = b ↔ r = s)).

(** C30, full statement. *)
Definition strpool_interning_statement : Prop := ∀ rs, pool_correct rs.

(** C30 holds exactly for the request sequences without two different texts
    which agree in the low 31 bits of their FNV-1a hashes. *)
Definition no_collision (rs : list (list N)) : Prop :=
  ∀ a b, a ∈ rs → b ∈ rs → bucket_hash a = bucket_hash b → a = b.
Theorem strpool_interning_partial : ∀ rs, no_collision rs → pool_correct rs.
Proof.
  intros rs Hinj.
  destruct (request_all_ok rs new_str_pool [] new_PR) as (p & ptrs & E & l & HPR & _ & HF & _).
  { intros a b. cbn. apply Hinj. }
  exists p, ptrs. split; [done|]. split; [by eapply Forall2_length|]. split.
  - intros i ptr r Hp Hr. eapply PR_content; [done|]. eapply Forall2_lookup_lr in HF; done.
  - intros i j a b r s Ha Hb Hr Hs.
    eapply PR_inj; [done|eapply Forall2_lookup_lr in HF; done|].
    eapply (Forall2_lookup_lr _ _ _ j) in HF; done.
Qed.
Print Assumptions strpool_interning_partial.
Example strpool_guard_met :
  no_collision [[105]; [106]; [105; 106]; [105]]%N ∧
  match request_all new_str_pool [[105]; [106]; [105; 106]; [105]]%N with
  | SOk (_, ptrs) => ptrs | _ => [] end = [0; 1; 2; 0]%nat.
Proof.
  split; [|vm_compute; reflexivity]. intros a b Ha Hb. rewrite !elem_of_cons in Ha, Hb.
  assert (F : forallb (λ a, forallb (λ b, implb (bucket_hash a =? bucket_hash b)%N (bool_decide (a = b)))
     [[105]; [106]; [105; 106]; [105]]%N) [[105]; [106]; [105; 106]; [105]]%N = true)
    by (vm_compute; reflexivity).
  rewrite forallb_forall in F. specialize (F a). rewrite forallb_forall in F.
  intros EQ. specialize (F ltac:(cbn; set_solver) b ltac:(cbn; set_solver)).
  apply N.eqb_eq in EQ. rewrite EQ in F. cbn in F. by apply bool_decide_eq_true in F.
Qed.

(** The guard is exact: whenever two requested texts collide, the pool answers
    wrongly or reads memory that is not its own. *)
Theorem strpool_interning_exact : ∀ rs, pool_correct rs ↔ no_collision rs.
Proof.
  intros rs. split; [|apply strpool_interning_partial].
  intros (p & ptrs & E & Hlen & Hcont & Heq).
  destruct (first_collision rs) as [?|(pre & r & post & -> & Hpre & Hr & s & Hs & Hh)]; [done|].
  exfalso.
  destruct (request_all_ok pre new_str_pool [] new_PR) as (p1 & ptrs1 & E1 & l & HPR & _ & HF & Hnew).
  { intros a b. cbn. apply Hpre. }
  rewrite request_all_app, E1 in E. cbn [request_all] in E.
  assert (Hc : collides r l).
  { apply elem_of_list_lookup in Hs as (k & Hk).
    assert (Hlk := Forall2_length _ _ _ HF).
    destruct (lookup_lt_is_Some_2 ptrs1 k) as [a Ha].
    { rewrite Hlk. by eapply lookup_lt_Some. }
    exists (a, s). split; [by eapply Forall2_lookup_lr in HF|]. split; [|done].
    cbn. intros ->. apply Hr. by eapply elem_of_list_lookup_2. }
  assert (Hrl : r ∉ (snd <$> l)).
  { intros (e & -> & He)%elem_of_list_fmap. destruct (Hnew e He) as [?|(k & _ & Hk)]; [set_solver|].
    apply Hr. by eapply elem_of_list_lookup_2. }
  pose proof (request_collision p1 l r HPR Hc Hrl) as HC.
  destruct (make_string_sized p1 r) as [[p2 ptr]| | |]; [|done..].
  destruct (request_all p2 post) as [[p3 ptrs3]| | |]; [|done..].
  injection E as <- <-. destruct HC as (s' & Hs' & Hne).
  destruct (Hnew _ Hs') as [?|(k & Hk1 & Hk2)]; [set_solver|]. cbn in Hk1, Hk2.
  assert (Hlk := Forall2_length _ _ _ HF).
  apply Hne. eapply (Heq k (length pre) ptr ptr); [|..|done].
  - apply lookup_app_l_Some. done.
  - rewrite <- Hlk. rewrite lookup_app_r by lia. by rewrite Nat.sub_diag.
  - apply lookup_app_l_Some. done.
  - rewrite lookup_app_r by lia. by rewrite Nat.sub_diag.
Qed.
Print Assumptions strpool_interning_exact.

(** Two identifiers that collide: after "irighbbn", the request for "i" is
    answered with the pointer to "irighbbn". *)
Definition text_i : list N := [105]%N.
Definition text_irighbbn : list N := [105; 114; 105; 103; 104; 98; 98; 110]%N.
Theorem strpool_interning_refuted : ¬ strpool_interning_statement.
Proof.
  intros H. pose proof (proj1 (strpool_interning_exact [text_irighbbn; text_i]) (H _)) as Hn.
  assert (text_irighbbn = text_i) as EQ; [|discriminate EQ].
  apply Hn; [set_solver..|vm_compute; reflexivity].
Qed.
Print Assumptions strpool_interning_refuted.
Example strpool_wrong_identifier :
  match request_all new_str_pool [text_irighbbn; text_i] with
  | SOk (p, ptrs) => Some (ptrs, content p 0) | _ => None end
    = Some ([0; 0]%nat, Some text_irighbbn) ∧
  request_all new_str_pool [text_i; text_irighbbn] = SUndef.
Proof. split; vm_compute; reflexivity. Qed.
