From stdpp Require Import list numbers.
From Coq Require Import ZifyBool ZifyNat ZifyN.
From Verif Require Import HTableModel KTableModel KTableProofs ScopeModel ScopeSpec ScopeProofs SuggestModel SuggestSpec.

Lemma script_length n l r : script n l r → (length l ≤ length r + n)%nat ∧ (length r ≤ length l + n)%nat.
Proof. induction 1; cbn; lia. Qed.
Lemma script_del_all l : script (length l) l [].
Proof. induction l; cbn; [apply script_nil|by apply script_delete]. Qed.
Lemma script_ins_all r : script (length r) [] r.
Proof. induction r; cbn; [apply script_nil|by apply script_insert]. Qed.

(** Dropping the first character of a side costs at most one more edit. *)
Lemma drop_right n l r0 : script n l r0 → ∀ a r, r0 = a :: r → within (S n) l r.
Proof.
  induction 1 as [|n a l r H IH|n a b l r H IH|n a l r H IH|n b l r H IH]; intros a' r' E; try done.
  - injection E as <- <-. exists (S n). split; [lia|]. by apply script_delete.
  - injection E as <- <-. exists (S n). split; [lia|]. by apply script_delete.
  - destruct (IH a' r' E) as (m & L & Sc). exists (S m). split; [lia|]. by apply script_delete.
  - injection E as <- <-. exists n. split; [lia|done].
Qed.
Lemma drop_left n l0 r : script n l0 r → ∀ a l, l0 = a :: l → within (S n) l r.
Proof.
  induction 1 as [|n a l r H IH|n a b l r H IH|n a l r H IH|n b l r H IH]; intros a' r' E; try done.
  - injection E as <- <-. exists (S n). split; [lia|]. by apply script_insert.
  - injection E as <- <-. exists (S n). split; [lia|]. by apply script_insert.
  - injection E as <- <-. exists n. split; [lia|done].
  - destruct (IH a' r' E) as (m & L & Sc). exists (S m). split; [lia|]. by apply script_insert.
Qed.
Lemma same_head n a l r : script n (a :: l) (a :: r) → within n l r.
Proof.
  intros H. inversion H as [|? ? ? ? H1|? ? ? ? ? H1|? ? ? ? H1|? ? ? ? H1]; subst.
  - by exists n.
  - exists n0. split; [lia|done].
  - by apply (drop_right _ _ _ H1 a r).
  - by apply (drop_left _ _ _ H1 a l).
Qed.

Lemma lev_nil_r l k : lev l [] k = length l.
Proof. by destruct l. Qed.
Lemma lev_cons a l b r k : lev (a :: l) (b :: r) k =
  if (a =? b)%N then lev l r k
  else match k with
       | O => 1
       | S k => 1 + Nat.min (lev l r k) (Nat.min (lev l (b :: r) k) (lev (a :: l) r k))
       end.
Proof. reflexivity. Qed.

(** Up to the bound, [lev] is the edit distance. *)
Lemma lev_sound l : ∀ r k, (lev l r k ≤ k)%nat → within (lev l r k) l r.
Proof.
  induction l as [|a l IHl]; intros r.
  { intros k _. cbn [lev]. exists (length r). split; [lia|]. apply script_ins_all. }
  induction r as [|b r IHr]; intros k.
  { intros _. rewrite lev_nil_r. exists (length (a :: l)). split; [lia|]. apply script_del_all. }
  rewrite lev_cons. destruct (N.eqb_spec a b) as [->|N].
  - intros H. destruct (IHl r k H) as (n & L & Sc). exists n. split; [done|]. by apply script_keep.
  - destruct k as [|k]; [lia|]. intros H.
    destruct (Nat.min_spec (lev l (b :: r) k) (lev (a :: l) r k)) as [[L1 E1]|[L1 E1]]; rewrite E1 in H |- *;
    (match goal with |- context [Nat.min ?x ?y] =>
       destruct (Nat.min_spec x y) as [[L2 E2]|[L2 E2]]; rewrite E2 in H |- * end).
    + destruct (IHl r k) as (n & L & Sc); [lia|]. exists (S n). split; [lia|]. by apply script_replace.
    + destruct (IHl (b :: r) k) as (n & L & Sc); [lia|]. exists (S n). split; [lia|]. by apply script_delete.
    + destruct (IHl r k) as (n & L & Sc); [lia|]. exists (S n). split; [lia|]. by apply script_replace.
    + destruct (IHr k) as (n & L & Sc); [lia|]. exists (S n). split; [lia|]. by apply script_insert.
Qed.
Lemma lev_complete l : ∀ r k n, script n l r → (n ≤ k)%nat → (lev l r k ≤ n)%nat.
Proof.
  induction l as [|a l IHl]; intros r.
  { intros k n Sc _. cbn [lev]. apply script_length in Sc. cbn in Sc. lia. }
  induction r as [|b r IHr]; intros k n Sc Lk.
  { rewrite lev_nil_r. apply script_length in Sc. cbn in *. lia. }
  rewrite lev_cons. destruct (N.eqb_spec a b) as [->|N].
  - destruct (same_head _ _ _ _ Sc) as (m & L & S'). specialize (IHl r k m S' ltac:(lia)). lia.
  - inversion Sc as [|? ? ? ? H1|m ? ? ? ? H1|m ? ? ? H1|m ? ? ? H1]; subst; try done;
      (destruct k as [|k]; [lia|]).
    + specialize (IHl r k m H1 ltac:(lia)). lia.
    + specialize (IHl (b :: r) k m H1 ltac:(lia)). lia.
    + specialize (IHr k m H1 ltac:(lia)). lia.
Qed.
Lemma lev_within l r k d : (d ≤ k)%nat → (lev l r k ≤ d)%nat ↔ within d l r.
Proof.
  intros L. split.
  - intros H. destruct (lev_sound l r k) as (n & Ln & Sc); [lia|]. exists n. split; [lia|done].
  - intros (n & Ln & Sc). pose proof (lev_complete l r k n Sc ltac:(lia)). lia.
Qed.

Lemma consider_fold chars name l : ∀ d best,
  (match best with Some s => within d (chars name) (chars s) ∧ (d ≤ 1)%nat | None => d = 2%nat end) →
  let st := fold_left (consider chars name) l (d, best) in
  match snd st with
  | Some s => (s ∈ l ∨ best = Some s) ∧ within 1 (chars name) (chars s)
  | None => best = None ∧ ∀ s, s ∈ l → ¬ within 1 (chars name) (chars s)
  end.
Proof.
  induction l as [|s l IH]; intros d best H; cbn [fold_left snd].
  - destruct best as [t|].
    + split; [by right|]. destruct H as [(n & L & Sc) Ld]. exists n. split; [lia|done].
    + split; [done|]. intros s Hs. by apply elem_of_nil in Hs.
  - unfold consider at 2. cbn [fst]. destruct (Nat.ltb_spec (lev (chars name) (chars s) d) d) as [Hlt|Hge].
    + specialize (IH (lev (chars name) (chars s) d) (Some s)).
      cbv zeta in IH |- *. destruct (snd (fold_left _ l _)) as [t|].
      * destruct IH as [[Hin|Heq] W].
        { split; [apply lev_sound; lia|]. destruct best; [destruct H|subst d]; lia. }
        -- split; [left; by right|done].
        -- simplify_eq. split; [left; by left|done].
      * exfalso. destruct IH as [? _]; [|done].
        split; [apply lev_sound; lia|]. destruct best; [destruct H|subst d]; lia.
    + specialize (IH d best H). cbv zeta in IH |- *. destruct (snd (fold_left _ l _)) as [t|].
      * destruct IH as [[Hin|Heq] W]; (split; [|done]); [left; by right|by right].
      * destruct IH as [-> Hno]. split; [done|]. intros t Ht. apply elem_of_cons in Ht as [->|Ht]; [|by apply Hno].
        intros W. subst d. apply (lev_within _ _ 2 1) in W; [|lia]. lia.
Qed.

Lemma visible_R P hashp e fs x : R P hashp e fs → x ∈ visible_symbols e ↔ declared fs x.
Proof.
  intros HR. pose proof (R_len P hashp _ _ HR) as L. destruct HR as (D & _ & _ & F).
  unfold visible_symbols, open_scopes. rewrite D. clear D.
  revert F L. generalize (e_chain e) as chain. induction fs as [|fr fs IH]; intros chain F L.
  { cbn. split; [intros H; by apply elem_of_nil in H|]. intros (fr & H & _). by apply elem_of_nil in H. }
  cbn [length frames_ok] in *. destruct F as [(sc & E & Sn & m & Rm & A) F].
  rewrite (take_S_r _ _ _ E), rev_app_distr. cbn [rev app flat_map].
  rewrite elem_of_app, (IH chain F ltac:(lia)).
  assert (Hx : x ∈ map fst (kt_enumerate (sc_syms sc)) ↔ snd fr x ≠ None).
  { destruct (kt_enumerate_reps N.eqb hashp (eqb_ok) _ _ Rm) as [HE _].
    specialize (A x). split.
    - intros Hin. apply elem_of_list_In, in_map_iff in Hin as ([k v] & E1 & Hin). cbn in E1. subst k.
      apply elem_of_list_In, HE in Hin. rewrite Hin in A. by destruct (snd fr x).
    - intros Hne. destruct (snd fr x); [|done]. destruct (m x) as [v|] eqn:Em; [|done].
      apply elem_of_list_In, in_map_iff. exists (x, v). split; [done|]. by apply elem_of_list_In, HE. }
  rewrite Hx. split.
  - intros [H|(g & Hg & H)]; [exists fr; split; [by left|done]|exists g; split; [by right|done]].
  - intros (g & Hg & H). apply elem_of_cons in Hg as [->|Hg]; [by left|]. right. by exists g.
Qed.
