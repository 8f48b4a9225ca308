(** Lemmas on loops. *)
From Coq Require Import ZArith List Bool Lia Znumtheory.
From Verif Require Import LoopModel LoopSpec.
Import ListNotations.
Open Scope Z_scope.

Lemma upd_same {A} (f : nat -> A) i x : upd f i x i = x.
Proof. unfold upd. now rewrite Nat.eqb_refl. Qed.
Lemma upd_other {A} (f : nat -> A) i j x : j <> i -> upd f i x j = f j.
Proof. unfold upd. intros H. now destruct (Nat.eqb_spec j i). Qed.

(** States with the same contents *)
Definition same (s t : state) : Prop :=
  (forall v, s_var t v = s_var s v) /\ (forall a, s_arr t a = s_arr s a) /\ s_out t = s_out s.
Lemma same_refl s : same s s.
Proof. repeat split. Qed.
Lemma same_set s t v z : same s t -> same (set_var v z s) (set_var v z t).
Proof.
  intros (H1 & H2 & H3). repeat split; auto. intros x. cbn. unfold upd.
  destruct (Nat.eqb x v); auto.
Qed.
Lemma same_set_arr s t a l : same s t -> same (set_arr a l s) (set_arr a l t).
Proof.
  intros (H1 & H2 & H3). repeat split; auto. intros x. cbn. unfold upd.
  destruct (Nat.eqb x a); auto.
Qed.

Definition eval_same (o o' : option (Z * state)) : Prop :=
  match o, o' with
  | Some (z, s), Some (z', s') => z = z' /\ same s s'
  | None, None => True
  | _, _ => False
  end.
Lemma eval_cong e : forall s t, same s t -> eval_same (eval e s) (eval e t).
Proof.
  induction e as [z|v|a IHa b IHb|a IHa b IHb|a IHa b IHb|a i IHi|e IHe]; intros s t H; cbn [eval].
  - cbn. auto.
  - cbn. split; [|auto]. symmetry. apply H.
  - specialize (IHa s t H). destruct (eval a s) as [[x s1]|], (eval a t) as [[x' t1]|]; cbn in IHa; try contradiction; [|exact I].
    destruct IHa as [<- H1]. specialize (IHb s1 t1 H1).
    destruct (eval b s1) as [[y s2]|], (eval b t1) as [[y' t2]|]; cbn in IHb; try contradiction; [|exact I].
    destruct IHb as [<- H2]. destruct (plus i64 x y); cbn; auto.
  - specialize (IHa s t H). destruct (eval a s) as [[x s1]|], (eval a t) as [[x' t1]|]; cbn in IHa; try contradiction; [|exact I].
    destruct IHa as [<- H1]. specialize (IHb s1 t1 H1).
    destruct (eval b s1) as [[y s2]|], (eval b t1) as [[y' t2]|]; cbn in IHb; try contradiction; [|exact I].
    destruct IHb as [<- H2]. cbn; auto.
  - specialize (IHa s t H). destruct (eval a s) as [[x s1]|], (eval a t) as [[x' t1]|]; cbn in IHa; try contradiction; [|exact I].
    destruct IHa as [<- H1]. specialize (IHb s1 t1 H1).
    destruct (eval b s1) as [[y s2]|], (eval b t1) as [[y' t2]|]; cbn in IHb; try contradiction; [|exact I].
    destruct IHb as [<- H2]. cbn; auto.
  - specialize (IHi s t H). destruct (eval i s) as [[x s1]|], (eval i t) as [[x' t1]|]; cbn in IHi; try contradiction; [|exact I].
    destruct IHi as [<- H1]. destruct H1 as (A & B & C). rewrite B. destruct (nth_z (s_arr s1 a) x); cbn; auto.
    split; [reflexivity|]. repeat split; auto.
  - specialize (IHe s t H). destruct (eval e s) as [[x s1]|], (eval e t) as [[x' t1]|]; cbn in IHe; try contradiction; [|exact I].
    destruct IHe as [<- H1]. cbn. split; [reflexivity|]. destruct H1 as (A & B & C). repeat split; auto. cbn. now rewrite C.
Qed.

Lemma eval_at e s t z s' : same s t -> eval e s = Some (z, s') -> exists t', eval e t = Some (z, t') /\ same s' t'.
Proof.
  intros H E. pose proof (eval_cong e s t H) as C. rewrite E in C.
  destruct (eval e t) as [[z' t']|]; cbn in C; [|contradiction]. destruct C as [<- C]. eauto.
Qed.

(** Evaluation changes nothing but the output. *)
Lemma eval_frame e : forall s z s', eval e s = Some (z, s') -> s_var s' = s_var s /\ s_arr s' = s_arr s.
Proof.
  induction e as [z0|v|a IHa b IHb|a IHa b IHb|a IHa b IHb|a i IHi|e IHe]; intros s z s' H; cbn [eval] in H.
  - injection H as <- <-. auto.
  - injection H as <- <-. auto.
  - destruct (eval a s) as [[x s1]|] eqn:E1; [|discriminate].
    destruct (eval b s1) as [[y s2]|] eqn:E2; [|discriminate].
    destruct (plus i64 x y); [|discriminate]. injection H as <- <-.
    apply IHa in E1. apply IHb in E2. destruct E1, E2. split; congruence.
  - destruct (eval a s) as [[x s1]|] eqn:E1; [|discriminate].
    destruct (eval b s1) as [[y s2]|] eqn:E2; [|discriminate]. injection H as <- <-.
    apply IHa in E1. apply IHb in E2. destruct E1, E2. split; congruence.
  - destruct (eval a s) as [[x s1]|] eqn:E1; [|discriminate].
    destruct (eval b s1) as [[y s2]|] eqn:E2; [|discriminate]. injection H as <- <-.
    apply IHa in E1. apply IHb in E2. destruct E1, E2. split; congruence.
  - destruct (eval i s) as [[x s1]|] eqn:E1; [|discriminate].
    destruct (nth_z (s_arr s1 a) x); [|discriminate]. injection H as <- <-. now apply IHi in E1.
  - destruct (eval e s) as [[x s1]|] eqn:E1; [|discriminate]. injection H as <- <-. apply IHe in E1. exact E1.
Qed.

(** What a program keeps *)
Definition kept (p : stmt) (s s' : state) : Prop :=
  (forall x, keeps_var x p = true -> s_var s' x = s_var s x) /\
  (forall a, keeps_arr a p = true -> s_arr s' a = s_arr s a).
Lemma kept_refl p s : kept p s s.
Proof. split; auto. Qed.
Lemma kept_eval p e s z s' : eval e s = Some (z, s') -> kept p s s'.
Proof. intros H. apply eval_frame in H. destruct H as [H1 H2]. split; intros; congruence. Qed.
Lemma kept_trans p s s1 s2 : kept p s s1 -> kept p s1 s2 -> kept p s s2.
Proof. intros [A B] [C D]. split; intros; [rewrite C, A|rewrite D, B]; auto. Qed.
Lemma kept_weaken p q s s' : (forall x, keeps_var x q = true -> keeps_var x p = true) ->
  (forall a, keeps_arr a q = true -> keeps_arr a p = true) -> kept p s s' -> kept q s s'.
Proof. intros H1 H2 [A B]. split; auto. Qed.

Lemma each_inv (P : state -> Prop) f l : forall s g s',
  (forall z s g s', P s -> f z s = End g s' -> P s') -> P s -> each f l s = End g s' -> P s'.
Proof.
  induction l as [|z l IH]; cbn; intros s g s' Hf Hs E.
  - injection E as <- <-. exact Hs.
  - destruct (f z s) as [[] s1| |] eqn:Ez; try discriminate.
    + exact (IH s1 g s' Hf (Hf _ _ _ _ Hs Ez) E).
    + injection E as <- <-. exact (Hf _ _ _ _ Hs Ez).
    + exact (IH s1 g s' Hf (Hf _ _ _ _ Hs Ez) E).
    + injection E as <- <-. exact (Hf _ _ _ _ Hs Ez).
Qed.

Lemma store_end a i e s g s' : store a i e s = End g s' ->
  exists x s1 y s2 l, eval i s = Some (x, s1) /\ eval e s1 = Some (y, s2) /\ 0 <= x /\
    replace (s_arr s2 a) (Z.to_nat x) y = Some l /\ g = Next /\ s' = set_arr a l s2.
Proof.
  unfold store, with_value. destruct (eval i s) as [[x s1]|]; [|discriminate].
  destruct (eval e s1) as [[y s2]|] eqn:E2; [|discriminate].
  destruct (Z.leb_spec 0 x); [|discriminate].
  destruct (replace (s_arr s2 a) (Z.to_nat x) y) as [l|] eqn:E3; [|discriminate].
  intros [= <- <-]. exists x, s1, y, s2, l. auto 10.
Qed.

Lemma unlet_end v z r g s : unlet v z r = End g s -> exists s1, r = End g s1 /\ s = set_var v z s1.
Proof. destruct r; cbn; try discriminate. intros [= <- <-]. eauto. Qed.

Lemma exec_frame ok : forall fuel p s g s', exec ok fuel p s = End g s' -> kept p s s'.
Proof.
  induction fuel as [|f IH]; intros p s g s' E; [discriminate|].
  destruct p as [|e|v e|a i e|p q|e p q|e p|e z p q| | | |t v start stop step body|v i a len body|v i l body]; cbn [exec] in E.
  - injection E as <- <-. apply kept_refl.
  - unfold with_value in E. destruct (eval e s) as [[z s1]|] eqn:E1; [|discriminate].
    injection E as <- <-. eapply kept_eval; eauto.
  - unfold assign, with_value in E. destruct (eval e s) as [[z s1]|] eqn:E1; [|discriminate].
    injection E as <- <-. apply eval_frame in E1. destruct E1 as [A B]. split; cbn.
    + intros x H. apply negb_true_iff, Nat.eqb_neq in H. rewrite upd_other by auto. congruence.
    + intros x _. congruence.
  - apply store_end in E. destruct E as (x & s1 & y & s2 & l & E1 & E2 & _ & _ & -> & ->).
    apply eval_frame in E1. apply eval_frame in E2. destruct E1 as [A B], E2 as [C D]. split; cbn.
    + intros z _. congruence.
    + intros z H. apply negb_true_iff, Nat.eqb_neq in H. rewrite upd_other by auto. congruence.
  - assert (forall r s0 s1, exec ok f p s0 = End r s1 -> kept (Seq p q) s0 s1) as Hp.
    { intros r s0 s1 H. apply IH in H. eapply kept_weaken; [| |exact H]; cbn; intros x Hx; apply andb_true_iff in Hx; tauto. }
    destruct (exec ok f p s) as [[] s1| |] eqn:E1; try discriminate;
      [|injection E as <- <-; eapply Hp; eauto..].
    apply kept_trans with s1; [eapply Hp; eauto|]. apply IH in E.
    eapply kept_weaken; [| |exact E]; cbn; intros x Hx; apply andb_true_iff in Hx; tauto.
  - unfold with_value in E. destruct (eval e s) as [[z s1]|] eqn:E1; [|discriminate].
    apply kept_trans with s1; [eapply kept_eval; eauto|].
    destruct (z =? 0); apply IH in E; (eapply kept_weaken; [| |exact E]; cbn; intros x Hx; apply andb_true_iff in Hx; tauto).
  - unfold with_value in E. destruct (eval e s) as [[z s1]|] eqn:E1; [|discriminate].
    apply kept_trans with s1; [eapply kept_eval; eauto|].
    destruct (z =? 0); [injection E as <- <-; apply kept_refl|].
    destruct (exec ok f p s1) as [[] s2| |] eqn:E2; try discriminate; apply IH in E2.
    + apply kept_trans with s2; [exact E2|]. apply IH in E. exact E.
    + injection E as <- <-. exact E2.
    + apply kept_trans with s2; [exact E2|]. apply IH in E. exact E.
    + injection E as <- <-. exact E2.
  - unfold with_value in E. destruct (eval e s) as [[x s1]|] eqn:E1; [|discriminate].
    apply kept_trans with s1; [eapply kept_eval; eauto|].
    destruct (x =? z); apply IH in E; (eapply kept_weaken; [| |exact E]; cbn; intros y Hx; apply andb_true_iff in Hx; tauto).
  - injection E as <- <-. apply kept_refl.
  - injection E as <- <-. apply kept_refl.
  - injection E as <- <-. apply kept_refl.
  - unfold with_value in E. destruct (eval start s) as [[x s1]|] eqn:E1; [|discriminate].
    destruct (eval stop s1) as [[y s2]|] eqn:E2; [|discriminate].
    destruct (eval _ s2) as [[z s3]|] eqn:E3; [|discriminate].
    destruct (fits t x && fits t y && negb (z =? 0) && ok x y z); [|discriminate].
    apply kept_trans with s3; [eapply kept_trans; [eapply kept_eval; eauto|eapply kept_trans; eapply kept_eval; eauto]|].
    eapply (each_inv (kept _ s3)); [|apply kept_refl|exact E]. cbv beta.
    intros k u g' u' Hu Ek. apply unlet_end in Ek. destruct Ek as (u1 & Ek & ->).
    apply kept_trans with u; [exact Hu|]. apply IH in Ek. destruct Ek as [A B]. split; cbn.
    + intros w Hw. destruct (Nat.eqb_spec w v) as [->|Hn]; [now rewrite upd_same|].
      rewrite upd_other by auto. rewrite A; cbn; [now rewrite upd_other|].
      apply orb_true_iff in Hw. destruct Hw as [Hw|Hw]; [apply Nat.eqb_eq in Hw; congruence|exact Hw].
    + intros w Hw. rewrite B; auto.
  - eapply (each_inv (kept _ s)); [|apply kept_refl|exact E]. cbv beta.
    intros k u g' u' Hu Ek. destruct (nth_z (s_arr u a) k) as [x|]; [|discriminate].
    apply unlet_end in Ek. destruct Ek as (u1 & Ek & ->). apply unlet_end in Ek. destruct Ek as (u2 & Ek & ->).
    apply kept_trans with u; [exact Hu|]. apply IH in Ek. destruct Ek as [A B]. split; cbn.
    + intros w Hw. destruct (Nat.eqb_spec w v) as [->|Hn]; [now rewrite upd_same|].
      rewrite upd_other by auto. destruct (Nat.eqb_spec w i) as [->|Hn']; [now rewrite upd_same|].
      rewrite upd_other by auto. rewrite A; cbn; [now rewrite !upd_other by auto|].
      apply orb_true_iff in Hw. destruct Hw as [Hw|Hw]; [|exact Hw].
      apply orb_true_iff in Hw. destruct Hw as [Hw|Hw]; apply Nat.eqb_eq in Hw; congruence.
    + intros w Hw. rewrite B; auto.
  - eapply (each_inv (kept _ s)); [|apply kept_refl|exact E]. cbv beta.
    intros k u g' u' Hu Ek. destruct (nth_z l k) as [x|]; [|discriminate].
    apply unlet_end in Ek. destruct Ek as (u1 & Ek & ->). apply unlet_end in Ek. destruct Ek as (u2 & Ek & ->).
    apply kept_trans with u; [exact Hu|]. apply IH in Ek. destruct Ek as [A B]. split; cbn.
    + intros w Hw. destruct (Nat.eqb_spec w v) as [->|Hn]; [now rewrite upd_same|].
      rewrite upd_other by auto. destruct (Nat.eqb_spec w i) as [->|Hn']; [now rewrite upd_same|].
      rewrite upd_other by auto. rewrite A; cbn; [now rewrite !upd_other by auto|].
      apply orb_true_iff in Hw. destruct Hw as [Hw|Hw]; [|exact Hw].
      apply orb_true_iff in Hw. destruct Hw as [Hw|Hw]; apply Nat.eqb_eq in Hw; congruence.
    + intros w Hw. rewrite B; auto.
Qed.

(** A steady expression keeps its value. *)
Lemma steady_eval v p e : steady v p e = true -> forall s t z s',
  (forall x, x <> v -> keeps_var x p = true -> s_var t x = s_var s x) ->
  (forall a, keeps_arr a p = true -> s_arr t a = s_arr s a) ->
  eval e s = Some (z, s') -> s' = s /\ eval e t = Some (z, t).
Proof.
  induction e as [z0|x|a IHa b IHb|a IHa b IHb|a IHa b IHb|a i IHi|e IHe]; intros Hs s t z s' Hv Ha E; cbn [eval steady] in *.
  - injection E as <- <-. auto.
  - injection E as <- <-. apply andb_true_iff in Hs. destruct Hs as [H1 H2].
    apply negb_true_iff, Nat.eqb_neq in H1. rewrite Hv; auto.
  - apply andb_true_iff in Hs. destruct Hs as [H1 H2].
    destruct (eval a s) as [[x s1]|] eqn:E1; [|discriminate].
    destruct (IHa H1 _ _ _ _ Hv Ha E1) as [-> ->].
    destruct (eval b s) as [[y s2]|] eqn:E2; [|discriminate].
    destruct (IHb H2 _ _ _ _ Hv Ha E2) as [-> ->].
    destruct (plus i64 x y); [|discriminate]. injection E as <- <-. auto.
  - apply andb_true_iff in Hs. destruct Hs as [H1 H2].
    destruct (eval a s) as [[x s1]|] eqn:E1; [|discriminate].
    destruct (IHa H1 _ _ _ _ Hv Ha E1) as [-> ->].
    destruct (eval b s) as [[y s2]|] eqn:E2; [|discriminate].
    destruct (IHb H2 _ _ _ _ Hv Ha E2) as [-> ->]. injection E as <- <-. auto.
  - apply andb_true_iff in Hs. destruct Hs as [H1 H2].
    destruct (eval a s) as [[x s1]|] eqn:E1; [|discriminate].
    destruct (IHa H1 _ _ _ _ Hv Ha E1) as [-> ->].
    destruct (eval b s) as [[y s2]|] eqn:E2; [|discriminate].
    destruct (IHb H2 _ _ _ _ Hv Ha E2) as [-> ->]. injection E as <- <-. auto.
  - apply andb_true_iff in Hs. destruct Hs as [H1 H2].
    destruct (eval i s) as [[x s1]|] eqn:E1; [|discriminate].
    destruct (IHi H2 _ _ _ _ Hv Ha E1) as [-> ->]. rewrite (Ha a H1).
    destruct (nth_z (s_arr s a) x); [|discriminate]. injection E as <- <-. auto.
  - discriminate.
Qed.

(** More steps do no harm. *)
Lemma texec_more : forall f p s g s', texec f p s = End g s' -> forall k, (f <= k)%nat -> texec k p s = End g s'.
Proof.
  induction f as [|f IH]; intros p s g s' E k Hk; [discriminate|].
  destruct k as [|k]; [lia|]. assert (f <= k)%nat as Hk' by lia.
  destruct p as [|e|v e|a i e|t v e|p q|e p q|e p u|e z p q| | | |v e p|v l i]; cbn [texec] in *; try exact E.
  - destruct (texec f p s) as [[] s1| |] eqn:E1; try discriminate;
      rewrite (IH _ _ _ _ E1 k Hk'); auto; exact E.
  - unfold with_value in *. destruct (eval e s) as [[z s1]|]; [|discriminate].
    destruct (z =? 0); eapply IH; eauto.
  - unfold with_value in *. destruct (eval e s) as [[z s1]|]; [|discriminate].
    destruct (z =? 0); [exact E|].
    destruct (texec f p s1) as [[] s2| |] eqn:E1; try discriminate; rewrite (IH _ _ _ _ E1 k Hk'); auto.
    + destruct (texec f u s2) as [[] s3| |] eqn:E2; try discriminate; rewrite (IH _ _ _ _ E2 k Hk'); auto.
    + destruct (texec f u s2) as [[] s3| |] eqn:E2; try discriminate; rewrite (IH _ _ _ _ E2 k Hk'); auto.
  - unfold with_value in *. destruct (eval e s) as [[x s1]|]; [|discriminate].
    destruct (x =? z).
    + destruct (texec f p s1) as [[] s2| |] eqn:E1; try discriminate; rewrite (IH _ _ _ _ E1 k Hk'); auto.
    + destruct (texec f q s1) as [[] s2| |] eqn:E1; try discriminate; rewrite (IH _ _ _ _ E1 k Hk'); auto.
  - unfold with_value in *. destruct (eval e s) as [[x s1]|]; [|discriminate].
    apply unlet_end in E. destruct E as (s2 & E & ->). now rewrite (IH _ _ _ _ E k Hk').
Qed.

(** [leads p t g t']: [p] ends so, given steps enough. *)
Definition leads (p : tstmt) (t : state) (g : signal) (t' : state) : Prop := exists f, texec f p t = End g t'.
Lemma leads_seq p q t t1 g t2 : leads p t Next t1 -> leads q t1 g t2 -> leads (TSeq p q) t g t2.
Proof.
  intros [f1 E1] [f2 E2]. exists (S (max f1 f2)). cbn [texec].
  rewrite (texec_more _ _ _ _ _ E1 (max f1 f2)) by lia. now rewrite (texec_more _ _ _ _ _ E2 (max f1 f2)) by lia.
Qed.
Lemma leads_seq_stop p q t g t1 : leads p t g t1 -> g <> Next -> leads (TSeq p q) t g t1.
Proof. intros [f E] H. exists (S f). cbn [texec]. rewrite E. destruct g; congruence. Qed.
Lemma leads_while_done e p u t t' : eval e t = Some (0, t') -> leads (TWhile e p u) t Next t'.
Proof. intros E. exists 1%nat. cbn. now rewrite E. Qed.
Lemma leads_while_round e p u t z t0 g1 t1 t2 g t3 :
  eval e t = Some (z, t0) -> z <> 0 -> leads p t0 g1 t1 -> g1 = Next \/ g1 = Cont ->
  leads u t1 Next t2 -> leads (TWhile e p u) t2 g t3 -> leads (TWhile e p u) t g t3.
Proof.
  intros E Hz [f1 E1] Hg [f2 E2] [f3 E3]. exists (S (max f1 (max f2 f3))). cbn [texec with_value].
  rewrite E. cbn [with_value]. destruct (Z.eqb_spec z 0) as [|_]; [contradiction|].
  rewrite (texec_more _ _ _ _ _ E1 (max f1 (max f2 f3))) by lia.
  rewrite (texec_more _ _ _ _ _ E2 (max f1 (max f2 f3))) by lia.
  rewrite (texec_more _ _ _ _ _ E3 (max f1 (max f2 f3))) by lia. destruct Hg as [-> | ->]; reflexivity.
Qed.
Lemma leads_while_break e p u t z t0 t1 :
  eval e t = Some (z, t0) -> z <> 0 -> leads p t0 Brk t1 -> leads (TWhile e p u) t Next t1.
Proof.
  intros E Hz [f1 E1]. exists (S f1). cbn [texec with_value]. rewrite E. cbn [with_value].
  destruct (Z.eqb_spec z 0) as [|_]; [contradiction|]. now rewrite E1.
Qed.
Lemma leads_while_ret e p u t z t0 t1 :
  eval e t = Some (z, t0) -> z <> 0 -> leads p t0 Ret t1 -> leads (TWhile e p u) t Ret t1.
Proof.
  intros E Hz [f1 E1]. exists (S f1). cbn [texec with_value]. rewrite E. cbn [with_value].
  destruct (Z.eqb_spec z 0) as [|_]; [contradiction|]. now rewrite E1.
Qed.
Lemma leads_let v e p t z t0 g t1 : eval e t = Some (z, t0) -> leads p (set_var v z t0) g t1 ->
  leads (TLet v e p) t g (set_var v (s_var t0 v) t1).
Proof. intros E [f E1]. exists (S f). cbn [texec]. rewrite E. cbn [with_value]. now rewrite E1. Qed.

(** Counting *)
Lemma meets_spec a b c : meets a b c = true ->
  exists n : nat, b = a + Z.of_nat n * c /\ c <> 0 /\ count a b c = n.
Proof.
  unfold meets. rewrite !andb_true_iff, negb_true_iff, Z.eqb_neq, Z.eqb_eq, Z.leb_le.
  intros [[Hc Hm] Hd]. exists (Z.to_nat ((b - a) / c)).
  pose proof (Z.div_mod (b - a) c Hc) as Hdm. rewrite Hm in Hdm. set (n := (b - a) / c) in *.
  rewrite Z2Nat.id by exact Hd. split; [lia|]. split; [exact Hc|].
  unfold count. destruct (Z.ltb_spec 0 c) as [Hp|Hp].
  - f_equal. symmetry. apply Z.div_unique with (c - 1); [lia|]. lia.
  - f_equal. symmetry. apply Z.div_unique with (- c - 1); [lia|]. lia.
Qed.

Lemma between t a b c n k : fits t a = true -> fits t b = true -> b = a + Z.of_nat n * c -> (k <= n)%nat ->
  fits t (a + Z.of_nat k * c) = true.
Proof.
  unfold fits. rewrite !andb_true_iff, !Z.leb_le, !Z.ltb_lt. intros [A1 A2] [B1 B2] -> Hk.
  destruct (Z.le_gt_cases 0 c) as [Hc|Hc]; split; nia.
Qed.

Lemma plus_fits t x y : fits t (x + y) = true -> plus t x y = Some (x + y).
Proof.
  intros H. unfold plus. destruct (i_signed t) eqn:E; [now rewrite H|].
  f_equal. apply Z.mod_small. unfold fits, lo, hi in H. rewrite E in H.
  apply andb_true_iff in H. rewrite Z.leb_le, Z.ltb_lt in H. exact H.
Qed.

Lemma seq_split n k : (k < n)%nat -> seq k (n - k) = k :: seq (S k) (n - S k).
Proof. intros H. replace (n - k)%nat with (S (n - S k)) by lia. reflexivity. Qed.

Lemma same_sym s t : same s t -> same t s.
Proof. intros (A & B & C). repeat split; intros; symmetry; auto. Qed.
Lemma same_trans s t u : same s t -> same t u -> same s u.
Proof. intros (A & B & C) (D & E & F). repeat split; intros; [rewrite D, A|rewrite E, B|rewrite F, C]; auto. Qed.

Lemma each_app_nil f s : each f [] s = End Next s.
Proof. reflexivity. Qed.

Lemma lower_skip p : lower p = TSkip -> p = Skip.
Proof. destruct p; cbn; congruence. Qed.

Definition correct (f : nat) (p : stmt) : Prop := forall s t g s',
  same s t -> exec meets f p s = End g s' -> steady_loops p = true ->
  exists t', leads (lower p) t g t' /\ same s' t'.

(** The rounds of a loop over a range *)
Lemma range_rounds f ty v stop step body a b c n s0 :
  correct f body -> keeps_var v body = true -> steady_loops body = true ->
  steady v body stop = true -> steady v body step = true ->
  eval stop s0 = Some (b, s0) -> eval step s0 = Some (c, s0) ->
  fits ty a = true -> fits ty b = true -> c <> 0 -> b = a + Z.of_nat n * c ->
  forall j k, (j + k = n)%nat -> forall s t g s',
  kept body s0 (set_var v (s_var s0 v) s) ->
  s_var t v = a + Z.of_nat k * c -> same s (set_var v (s_var s v) t) ->
  each (fun x s => unlet v (s_var s v) (exec meets f body (set_var v x s)))
    (map (fun k => a + Z.of_nat k * c) (seq k j)) s = End g s' ->
  exists t', leads (TWhile (Ne (Var v) stop) (lower body) (TStep ty v step)) t g t' /\
    same s' (set_var v (s_var s v) t').
Proof.
  intros Hb Hv Hl Hst1 Hst2 Es Ec Fa Fb Hc Hn.
  induction j as [|j IH]; intros k Hk s t g s' Hkept Htv Hsame E.
  - cbn in E. injection E as <- <-. exists t. split; [|exact Hsame].
    apply leads_while_done. cbn [eval].
    assert (eval stop t = Some (b, t)) as ->.
    { apply (steady_eval v body stop Hst1 s0 t b s0); [| |exact Es].
      - intros x Hx Hkx. destruct Hkept as [K _]. specialize (K x Hkx). cbn in K. rewrite upd_other in K by exact Hx.
        destruct Hsame as (A & _). specialize (A x). cbn in A. rewrite upd_other in A by exact Hx. congruence.
      - intros x Hkx. destruct Hkept as [_ K]. specialize (K x Hkx). cbn in K.
        destruct Hsame as (_ & B & _). specialize (B x). cbn in B. congruence. }
    rewrite Htv. replace (a + Z.of_nat k * c =? b) with true; [reflexivity|].
    symmetry. apply Z.eqb_eq. subst n. cbn in Hn. lia.
  - cbn [seq map each] in E.
    set (x := a + Z.of_nat k * c) in *.
    assert (forall u, (forall y, y <> v -> keeps_var y body = true -> s_var u y = s_var s0 y) ->
      (forall y, keeps_arr y body = true -> s_arr u y = s_arr s0 y) ->
      eval stop u = Some (b, u) /\ eval step u = Some (c, u)) as Hev.
    { intros u H1 H2. split.
      - apply (steady_eval v body stop Hst1 s0 u b s0); auto.
      - apply (steady_eval v body step Hst2 s0 u c s0); auto. }
    assert (eval stop t = Some (b, t)) as Est.
    { apply Hev.
      - intros y Hy Hky. destruct Hkept as [K _]. specialize (K y Hky). cbn in K. rewrite upd_other in K by exact Hy.
        destruct Hsame as (A & _). specialize (A y). cbn in A. rewrite upd_other in A by exact Hy. congruence.
      - intros y Hky. destruct Hkept as [_ K]. specialize (K y Hky). cbn in K.
        destruct Hsame as (_ & B & _). specialize (B y). cbn in B. congruence. }
    assert (eval (Ne (Var v) stop) t = Some (1, t)) as Econd.
    { cbn [eval]. rewrite Est, Htv. replace (x =? b) with false; [reflexivity|].
      symmetry. apply Z.eqb_neq. subst x n. rewrite Hn. intros H.
      assert (Z.of_nat k * c = Z.of_nat (S j + k) * c) as H' by lia.
      apply Z.mul_cancel_r in H'; [|exact Hc]. lia. }
    assert (same (set_var v x s) t) as Hst.
    { destruct Hsame as (A & B & C). repeat split.
      - intros y. cbn. destruct (Nat.eq_dec y v) as [->|Hy]; [now rewrite upd_same|].
        rewrite upd_other by exact Hy. specialize (A y). cbn in A. now rewrite upd_other in A by exact Hy.
      - intros y. exact (B y).
      - exact C. }
    destruct (unlet v (s_var s v) (exec meets f body (set_var v x s))) as [g1 s1| |] eqn:E1; try discriminate.
    apply unlet_end in E1. destruct E1 as (s1' & E1 & ->).
    destruct (Hb _ _ _ _ Hst E1 Hl) as (t1 & L1 & S1).
    pose proof (exec_frame _ _ _ _ _ _ E1) as K1.
    assert (s_var t1 v = x) as Ht1.
    { destruct S1 as (A & _). rewrite A. destruct K1 as [K _]. rewrite (K v Hv). cbn. apply upd_same. }
    assert (same (set_var v (s_var s v) s1') (set_var v (s_var s v) t1)) as S1' by now apply same_set.
    assert (kept body s0 (set_var v (s_var s0 v) (set_var v (s_var s v) s1'))) as K2.
    { destruct Hkept as [A B], K1 as [C D]. split.
      - intros y Hy. cbn. destruct (Nat.eq_dec y v) as [->|Hn']; [now rewrite upd_same|].
        rewrite !upd_other by exact Hn'. rewrite (C y Hy). cbn. rewrite upd_other by exact Hn'.
        specialize (A y Hy). cbn in A. now rewrite upd_other in A by exact Hn'.
      - intros y Hy. cbn. rewrite (D y Hy). cbn. exact (B y Hy). }
    assert (s_var (set_var v (s_var s v) s1') v = s_var s v) as Ev by (cbn; apply upd_same).
    assert (each (fun x s => unlet v (s_var s v) (exec meets f body (set_var v x s)))
      (map (fun k => a + Z.of_nat k * c) (seq (S k) j)) (set_var v (s_var s v) s1') = End g s' ->
      g1 = Next \/ g1 = Cont ->
      exists t', leads (TWhile (Ne (Var v) stop) (lower body) (TStep ty v step)) t g t' /\
        same s' (set_var v (s_var s v) t')) as Hgo.
    { intros E2 Hg. 
      set (t2 := set_var v (a + Z.of_nat (S k) * c) t1).
      assert (leads (TStep ty v step) t1 Next t2) as L2.
      { exists 1%nat. cbn [texec].
        assert (eval step t1 = Some (c, t1)) as ->.
        { apply Hev.
          - intros y Hy Hky. destruct K2 as [K _]. specialize (K y Hky). cbn in K. rewrite !upd_other in K by exact Hy.
            destruct S1 as (A & _). rewrite A. exact K.
          - intros y Hky. destruct K2 as [_ K]. specialize (K y Hky). cbn in K.
            destruct S1 as (_ & B & _). rewrite B. exact K. }
        cbn [with_value]. rewrite Ht1. rewrite plus_fits.
        - subst t2 x. replace (a + Z.of_nat (S k) * c) with (a + Z.of_nat k * c + c) by lia. reflexivity.
        - replace (x + c) with (a + Z.of_nat (S k) * c) by (subst x; lia).
          eapply between; eauto. lia. }
      destruct (IH (S k) ltac:(lia) (set_var v (s_var s v) s1') t2 g s' K2) as (t' & L3 & S3).
      - subst t2. cbn. apply upd_same.
      - rewrite Ev. subst t2. destruct S1' as (A & B & C). repeat split; auto.
        intros y. specialize (A y). cbn in *. unfold upd in *. destruct (Nat.eqb y v); auto.
      - exact E2.
      - rewrite Ev in S3. exists t'. split; [|exact S3].
        apply (leads_while_round _ _ _ t 1 t g1 t1 t2 g t' Econd); auto. lia. }
    destruct g1.
    + apply Hgo; auto.
    + injection E as <- <-. exists t1. split; [|exact S1'].
      apply (leads_while_break _ _ _ t 1 t t1 Econd); [lia|exact L1].
    + apply Hgo; auto.
    + injection E as <- <-. exists t1. split; [|exact S1'].
      apply (leads_while_ret _ _ _ t 1 t t1 Econd); [lia|exact L1].
Qed.

(** The rounds of a loop over an array *)
Lemma array_rounds f v i a len body :
  correct f body -> v <> i -> keeps_var i body = true -> steady_loops body = true -> Z.of_nat len + 1 < 2 ^ 64 ->
  forall j k, (j + k = len)%nat -> forall s t g s',
  s_var t i = Z.of_nat k -> same s (set_var v (s_var s v) (set_var i (s_var s i) t)) ->
  each (fun k s => match nth_z (s_arr s a) k with
          | Some x => unlet v (s_var s v) (unlet i (s_var s i) (exec meets f body (set_var i k (set_var v x s))))
          | None => Undef end) (map Z.of_nat (seq k j)) s = End g s' ->
  exists t', leads (TWhile (Lt (Var i) (Num (Z.of_nat len)))
      (TSeq (TAssign v (Elem a (Var i))) (lower body)) (TStep u64 i (Num 1))) t g t' /\
    same s' (set_var v (s_var s v) (set_var i (s_var s i) t')).
Proof.
  intros Hb Hvi Hi Hl Hlen.
  induction j as [|j IH]; intros k Hk s t g s' Hti Hsame E.
  - cbn in E. injection E as <- <-. exists t. split; [|exact Hsame].
    apply leads_while_done. cbn [eval]. rewrite Hti.
    replace (Z.of_nat k <? Z.of_nat len) with false by (symmetry; apply Z.ltb_ge; lia). reflexivity.
  - cbn [seq map each] in E.
    assert (eval (Lt (Var i) (Num (Z.of_nat len))) t = Some (1, t)) as Econd.
    { cbn [eval]. rewrite Hti. replace (Z.of_nat k <? Z.of_nat len) with true by (symmetry; apply Z.ltb_lt; lia). reflexivity. }
    assert (s_arr t a = s_arr s a) as Ha by (destruct Hsame as (_ & B & _); exact (B a)).
    destruct (nth_z (s_arr s a) (Z.of_nat k)) as [x|] eqn:Ex; [|discriminate].
    set (t0 := set_var v x t).
    assert (leads (TAssign v (Elem a (Var i))) t Next t0) as L0.
    { exists 1%nat. cbn [texec eval assign]. rewrite Hti, Ha, Ex. reflexivity. }
    assert (same (set_var i (Z.of_nat k) (set_var v x s)) t0) as Hst.
    { destruct Hsame as (A & B & C). repeat split; auto.
      intros y. specialize (A y). subst t0. cbn in *. unfold upd in *.
      destruct (Nat.eqb_spec y i) as [Ey|Ey].
      - subst y. destruct (Nat.eqb_spec i v); [congruence|exact Hti].
      - destruct (Nat.eqb y v); auto. }
    destruct (unlet v (s_var s v) (unlet i (s_var s i) (exec meets f body (set_var i (Z.of_nat k) (set_var v x s))))) as [g1 s1| |] eqn:E1; try discriminate.
    apply unlet_end in E1. destruct E1 as (s1'' & E1 & ->).
    apply unlet_end in E1. destruct E1 as (s1' & E1 & ->).
    destruct (Hb _ _ _ _ Hst E1 Hl) as (t1 & L1 & S1).
    pose proof (exec_frame _ _ _ _ _ _ E1) as K1.
    assert (s_var t1 i = Z.of_nat k) as Ht1.
    { destruct S1 as (A & _). rewrite A. destruct K1 as [K _]. rewrite (K i Hi). cbn. apply upd_same. }
    assert (same (set_var v (s_var s v) (set_var i (s_var s i) s1')) (set_var v (s_var s v) (set_var i (s_var s i) t1))) as S1'
      by now apply same_set, same_set.
    set (s2 := set_var v (s_var s v) (set_var i (s_var s i) s1')) in *.
    assert (s_var s2 v = s_var s v) as Ev by (subst s2; cbn; apply upd_same).
    assert (s_var s2 i = s_var s i) as Ei.
    { subst s2. cbn. rewrite upd_other by auto. apply upd_same. }
    assert (each (fun k s => match nth_z (s_arr s a) k with
          | Some x => unlet v (s_var s v) (unlet i (s_var s i) (exec meets f body (set_var i k (set_var v x s))))
          | None => Undef end) (map Z.of_nat (seq (S k) j)) s2 = End g s' ->
      g1 = Next \/ g1 = Cont ->
      exists t', leads (TWhile (Lt (Var i) (Num (Z.of_nat len)))
      (TSeq (TAssign v (Elem a (Var i))) (lower body)) (TStep u64 i (Num 1))) t g t' /\
        same s' (set_var v (s_var s v) (set_var i (s_var s i) t'))) as Hgo.
    { intros E2 Hg. set (t2 := set_var i (Z.of_nat (S k)) t1).
      assert (leads (TStep u64 i (Num 1)) t1 Next t2) as L2.
      { exists 1%nat. cbn [texec eval with_value]. rewrite Ht1. rewrite plus_fits.
        - subst t2. replace (Z.of_nat (S k)) with (Z.of_nat k + 1) by lia. reflexivity.
        - unfold fits, lo, hi. cbn [i_signed u64 i_bits]. apply andb_true_iff. rewrite Z.leb_le, Z.ltb_lt. lia. }
      destruct (IH (S k) ltac:(lia) s2 t2 g s') as (t' & L3 & S3).
      - subst t2. cbn. apply upd_same.
      - rewrite Ev, Ei. subst t2. destruct S1' as (A & B & C). repeat split; auto.
        intros y. specialize (A y). cbn in *. unfold upd in *. destruct (Nat.eqb y v), (Nat.eqb y i); auto.
      - exact E2.
      - rewrite Ev, Ei in S3. exists t'. split; [|exact S3].
        apply (leads_while_round _ _ _ t 1 t g1 t1 t2 g t' Econd); auto; [lia|].
        apply leads_seq with t0; auto. }
    destruct g1.
    + apply Hgo; auto.
    + injection E as <- <-. exists t1. split; [|exact S1'].
      apply (leads_while_break _ _ _ t 1 t t1 Econd); [lia|]. apply leads_seq with t0; auto.
    + apply Hgo; auto.
    + injection E as <- <-. exists t1. split; [|exact S1'].
      apply (leads_while_ret _ _ _ t 1 t t1 Econd); [lia|]. apply leads_seq with t0; auto.
Qed.

(** An empty body: the index moves twice, which nobody sees. *)
Lemma empty_rounds v i a len : v <> i -> Z.of_nat len + 1 < 2 ^ 64 ->
  forall m k, (len - k <= m)%nat -> forall t, (length (s_arr t a) >= len)%nat ->
  s_var t i = Z.of_nat k ->
  exists t' x y, leads (TWhile (Lt (Var i) (Num (Z.of_nat len)))
      (TSeq (TAssign v (Elem a (Var i))) (TStep u64 i (Num 1))) (TStep u64 i (Num 1))) t Next t' /\
    same (set_var v x (set_var i y t)) t'.
Proof.
  intros Hvi Hlen. induction m as [m IH] using (well_founded_induction lt_wf). intros k Hm t Hl Hti.
  destruct (le_lt_dec len k) as [Hge|Hlt].
  - exists t, (s_var t v), (s_var t i). split.
    + apply leads_while_done. cbn [eval]. rewrite Hti.
      replace (Z.of_nat k <? Z.of_nat len) with false by (symmetry; apply Z.ltb_ge; lia). reflexivity.
    + repeat split. intros z. cbn. unfold upd. destruct (Nat.eqb_spec z v) as [->|]; auto.
      destruct (Nat.eqb_spec z i) as [->|]; auto.
  - assert (eval (Lt (Var i) (Num (Z.of_nat len))) t = Some (1, t)) as Econd.
    { cbn [eval]. rewrite Hti. replace (Z.of_nat k <? Z.of_nat len) with true by (symmetry; apply Z.ltb_lt; lia). reflexivity. }
    destruct (nth_error (s_arr t a) k) as [x|] eqn:Ex; [|apply nth_error_None in Ex; lia].
    set (t0 := set_var v x t).
    assert (leads (TAssign v (Elem a (Var i))) t Next t0) as L0.
    { exists 1%nat. cbn [texec eval assign]. rewrite Hti. unfold nth_z. 
      replace (0 <=? Z.of_nat k) with true by (symmetry; apply Z.leb_le; lia). rewrite Nat2Z.id, Ex. reflexivity. }
    set (k1 := (Z.of_nat k + 1) mod 2 ^ 64). set (t1 := set_var i k1 t0).
    assert (s_var t0 i = Z.of_nat k) as Ht0 by (subst t0; cbn; rewrite upd_other by auto; exact Hti).
    assert (leads (TStep u64 i (Num 1)) t0 Next t1) as L1.
    { exists 1%nat. cbn [texec eval with_value]. rewrite Ht0. reflexivity. }
    assert (k1 = Z.of_nat (S k)) as Ek1 by (subst k1; rewrite Z.mod_small by lia; lia).
    set (t2 := set_var i (Z.of_nat (S (S k))) t1).
    assert (leads (TStep u64 i (Num 1)) t1 Next t2) as L2.
    { exists 1%nat. cbn [texec eval with_value]. unfold t1 at 1. cbn [s_var set_var]. rewrite upd_same, Ek1.
      unfold plus. cbn [i_signed u64 i_bits]. rewrite Z.mod_small by lia.
      replace (Z.of_nat (S k) + 1) with (Z.of_nat (S (S k))) by lia. reflexivity. }
    destruct (IH (len - S (S k))%nat ltac:(lia) (S (S k)) ltac:(lia) t2) as (t' & x' & y' & L3 & S3).
    + exact Hl.
    + subst t2. cbn. apply upd_same.
    + exists t', x', y'. split.
      * apply (leads_while_round _ _ _ t 1 t Next t1 t2 Next t' Econd); auto; [lia|]. apply leads_seq with t0; auto.
      * destruct S3 as (A & B & C). repeat split; auto. intros z. rewrite A. subst t2 t1 t0. cbn. unfold upd.
        destruct (Nat.eqb z v), (Nat.eqb z i); auto.
Qed.

Lemma each_end f l : forall s g s', each f l s = End g s' -> g = Next \/ g = Ret.
Proof.
  induction l as [|z l IH]; cbn; intros s g s' E; [injection E; auto|].
  destruct (f z s) as [[] s1| |]; try discriminate; eauto; injection E; auto.
Qed.

Lemma no_break_spec ok : forall fuel p s s', no_break p = true -> exec ok fuel p s <> End Brk s'.
Proof.
  induction fuel as [|f IH]; intros p s s' Hn E; [discriminate|].
  destruct p as [|e|v e|a i e|p q|e p q|e p|e z p q| | | |t v start stop step body|v i a len body|v i l body]; cbn [exec no_break] in *; try discriminate.
  - unfold with_value in E. destruct (eval e s) as [[]|]; discriminate.
  - unfold assign, with_value in E. destruct (eval e s) as [[]|]; discriminate.
  - apply store_end in E. destruct E as (? & ? & ? & ? & ? & _ & _ & _ & _ & E & _). discriminate.
  - apply andb_true_iff in Hn. destruct Hn as [H1 H2].
    destruct (exec ok f p s) as [[] s1| |] eqn:E1; try discriminate.
    + exact (IH _ _ _ H2 E).
    + exact (IH _ _ _ H1 E1).
  - apply andb_true_iff in Hn. destruct Hn as [H1 H2].
    unfold with_value in E. destruct (eval e s) as [[z s1]|]; [|discriminate].
    destruct (z =? 0); [exact (IH _ _ _ H2 E)|exact (IH _ _ _ H1 E)].
  - unfold with_value in E. destruct (eval e s) as [[z s1]|]; [|discriminate].
    destruct (z =? 0); [discriminate|].
    destruct (exec ok f p s1) as [[] s2| |]; try discriminate; exact (IH (While e p) _ _ eq_refl E).
  - apply andb_true_iff in Hn. destruct Hn as [H1 H2].
    unfold with_value in E. destruct (eval e s) as [[x s1]|]; [|discriminate].
    destruct (x =? z); [exact (IH _ _ _ H1 E)|exact (IH _ _ _ H2 E)].
  - unfold with_value in E. destruct (eval start s) as [[x s1]|]; [|discriminate].
    destruct (eval stop s1) as [[y s2]|]; [|discriminate]. destruct (eval _ s2) as [[z s3]|]; [|discriminate].
    destruct (_ && _); [|discriminate]. apply each_end in E. destruct E; discriminate.
  - apply each_end in E. destruct E; discriminate.
  - apply each_end in E. destruct E; discriminate.
Qed.

(** Each element is there when the loop has gone through them all. *)
Lemma each_skip_len f v i a : forall l s g s',
  each (fun k s => match nth_z (s_arr s a) k with
          | Some x => unlet v (s_var s v) (unlet i (s_var s i) (exec meets f Skip (set_var i k (set_var v x s))))
          | None => Undef end) l s = End g s' ->
  g = Next /\ same s s' /\ forall k, In k l -> nth_z (s_arr s a) k <> None.
Proof.
  induction l as [|k l IH]; cbn [each]; intros s g s' E.
  - injection E as <- <-. split; [reflexivity|]. split; [apply same_refl|]. intros k [].
  - destruct (nth_z (s_arr s a) k) as [x|] eqn:Ex; [|discriminate].
    destruct f as [|f]; [discriminate|]. cbn [exec unlet] in E. apply IH in E. destruct E as (-> & E & H).
    split; [reflexivity|]. split.
    + eapply same_trans; [|exact E]. repeat split. intros y. cbn. unfold upd.
      destruct (Nat.eqb_spec y v) as [->|]; auto. destruct (Nat.eqb_spec y i) as [->|]; auto.
    + intros k' [<-|Hk']; [congruence|]. exact (H k' Hk').
Qed.

Lemma lower_correct : forall f p, correct f p.
Proof.
  induction f as [|f IH]; intros p s t g s' Hs E Hl; [discriminate|].
  destruct p as [|e|v e|a i e|p q|e p q|e p|e z p q| | | |ty v start stop step body|v i a len body|v i l body]; cbn [exec lower] in *.
  - injection E as <- <-. exists t. split; [exists 1%nat; reflexivity|exact Hs].
  - unfold with_value in E. destruct (eval e s) as [[z s1]|] eqn:E1; [|discriminate]. injection E as <- <-.
    destruct (eval_at _ _ _ _ _ Hs E1) as (t1 & E2 & S1). exists t1. split; [|exact S1].
    exists 1%nat. cbn. now rewrite E2.
  - unfold assign, with_value in E. destruct (eval e s) as [[z s1]|] eqn:E1; [|discriminate]. injection E as <- <-.
    destruct (eval_at _ _ _ _ _ Hs E1) as (t1 & E2 & S1). exists (set_var v z t1). split; [|now apply same_set].
    exists 1%nat. cbn [texec]. now rewrite E2.
  - apply store_end in E. destruct E as (x & s1 & y & s2 & l & E1 & E2 & Hx & Er & -> & ->).
    destruct (eval_at _ _ _ _ _ Hs E1) as (t1 & F1 & S1). destruct (eval_at _ _ _ _ _ S1 E2) as (t2 & F2 & S2).
    exists (set_arr a l t2). split; [|now apply same_set_arr]. exists 1%nat. cbn [texec]. unfold store.
    rewrite F1. cbn [with_value]. rewrite F2. cbn [with_value].
    replace (0 <=? x) with true by (symmetry; now apply Z.leb_le).
    destruct S2 as (_ & B & _). rewrite B, Er. reflexivity.
  - cbn in Hl. apply andb_true_iff in Hl. destruct Hl as [H1 H2].
    destruct (exec meets f p s) as [g1 s1| |] eqn:E1; try discriminate.
    destruct (IH p _ _ _ _ Hs E1 H1) as (t1 & L1 & S1). destruct g1;
      try (injection E as <- <-; exists t1; split; [apply leads_seq_stop; [exact L1|discriminate]|exact S1]).
    destruct (IH q _ _ _ _ S1 E H2) as (t2 & L2 & S2). exists t2. split; [now apply leads_seq with t1|exact S2].
  - cbn in Hl. apply andb_true_iff in Hl. destruct Hl as [H1 H2].
    unfold with_value in E. destruct (eval e s) as [[z s1]|] eqn:E1; [|discriminate].
    destruct (eval_at _ _ _ _ _ Hs E1) as (t1 & F1 & S1). destruct (z =? 0) eqn:Ez.
    + destruct (IH q _ _ _ _ S1 E H2) as (t2 & [k L2] & S2). exists t2. split; [|exact S2].
      exists (S k). cbn [texec]. rewrite F1. cbn [with_value]. now rewrite Ez.
    + destruct (IH p _ _ _ _ S1 E H1) as (t2 & [k L2] & S2). exists t2. split; [|exact S2].
      exists (S k). cbn [texec]. rewrite F1. cbn [with_value]. now rewrite Ez.
  - cbn in Hl. unfold with_value in E. destruct (eval e s) as [[z s1]|] eqn:E1; [|discriminate].
    destruct (eval_at _ _ _ _ _ Hs E1) as (t1 & F1 & S1). destruct (Z.eqb_spec z 0) as [->|Hz].
    + injection E as <- <-. exists t1. split; [now apply leads_while_done|exact S1].
    + destruct (exec meets f p s1) as [g2 s2| |] eqn:E2; try discriminate.
      destruct (IH p _ _ _ _ S1 E2 Hl) as (t2 & L2 & S2).
      assert (leads TSkip t2 Next t2) as Lu by (exists 1%nat; reflexivity).
      destruct g2.
      * destruct (IH (While e p) _ _ _ _ S2 E Hl) as (t3 & L3 & S3). exists t3. split; [|exact S3].
        cbn [lower] in L3. apply (leads_while_round _ _ _ t z t1 Next t2 t2 g t3); auto.
      * injection E as <- <-. exists t2. split; [|exact S2]. eapply leads_while_break; eauto.
      * destruct (IH (While e p) _ _ _ _ S2 E Hl) as (t3 & L3 & S3). exists t3. split; [|exact S3].
        cbn [lower] in L3. apply (leads_while_round _ _ _ t z t1 Cont t2 t2 g t3); auto.
      * injection E as <- <-. exists t2. split; [|exact S2]. eapply leads_while_ret; eauto.
  - cbn in Hl. rewrite !andb_true_iff in Hl. destruct Hl as [[[H1 H2] H3] H4].
    unfold with_value in E. destruct (eval e s) as [[x s1]|] eqn:E1; [|discriminate].
    destruct (eval_at _ _ _ _ _ Hs E1) as (t1 & F1 & S1).
    assert (exists t', leads (if x =? z then lower p else lower q) t1 g t' /\ same s' t') as (t' & [k L] & S2).
    { destruct (x =? z); eapply IH; eauto. }
    assert (g <> Brk) as Hg.
    { intros ->. destruct (x =? z); eapply no_break_spec in E; auto. }
    exists t'. split; [|exact S2]. exists (S k). cbn [texec]. rewrite F1. cbn [with_value].
    destruct (x =? z); rewrite L; destruct g; congruence.
  - injection E as <- <-. exists t. split; [exists 1%nat; reflexivity|exact Hs].
  - injection E as <- <-. exists t. split; [exists 1%nat; reflexivity|exact Hs].
  - injection E as <- <-. exists t. split; [exists 1%nat; reflexivity|exact Hs].
  - cbn in Hl. rewrite !andb_true_iff in Hl. destruct Hl as [[[H1 H2] H3] H4].
    unfold with_value in E. destruct (eval start s) as [[a s1]|] eqn:E1; [|discriminate].
    destruct (eval stop s1) as [[b s2]|] eqn:E2; [|discriminate].
    set (se := match step with Some e => e | None => Num 1 end) in *.
    assert (steady v body se = true) as H3' by (destruct step; [exact H3|reflexivity]).
    destruct (eval se s2) as [[c s3]|] eqn:E3; [|discriminate].
    destruct (steady_eval v body stop H2 s1 s1 b s2 ltac:(auto) ltac:(auto) E2) as [-> _].
    destruct (steady_eval v body se H3' s1 s1 c s3 ltac:(auto) ltac:(auto) E3) as [-> _].
    destruct (fits ty a && fits ty b && negb (c =? 0) && meets a b c) eqn:Eok; [|discriminate].
    rewrite !andb_true_iff in Eok. destruct Eok as [[[Fa Fb] _] Hm].
    destruct (meets_spec _ _ _ Hm) as (n & Hn & Hc & Hcount).
    destruct (eval_at _ _ _ _ _ Hs E1) as (t1 & F1 & S1).
    unfold values in E. rewrite Hcount in E.
    destruct (range_rounds f ty v stop se body a b c n s1 (IH body) H1 H4 H2 H3' E2 E3 Fa Fb Hc Hn n 0%nat ltac:(lia)
      s1 (set_var v a t1) g s') as (t' & L & S2).
    + split; cbn; intros; auto. unfold upd. destruct (Nat.eqb_spec x v) as [->|]; auto.
    + cbn. rewrite upd_same. lia.
    + destruct S1 as (A & B & C). repeat split; auto. intros y. cbn. unfold upd.
      destruct (Nat.eqb_spec y v) as [->|]; auto.
    + exact E.
    + assert (s_var t1 v = s_var s1 v) as Ev by apply S1.
      exists (set_var v (s_var t1 v) t'). split; [|rewrite Ev; exact S2].
      eapply leads_let; eauto.
  - cbn in Hl. rewrite !andb_true_iff in Hl. destruct Hl as [[[H1 H2] H3] H4].
    apply negb_true_iff, Nat.eqb_neq in H1. apply Z.ltb_lt in H3.
    set (t0 := set_var i 0 (set_var v 0 t)).
    assert (forall P, (exists t', leads P t0 g t' /\ same s' (set_var v (s_var s v) (set_var i (s_var s i) t'))) ->
      exists t', leads (TLet v (Num 0) (TLet i (Num 0) P)) t g t' /\ same s' t') as Hout.
    { intros P (t' & L & S2). eexists. split.
      - eapply leads_let; [reflexivity|]. eapply leads_let; [reflexivity|]. exact L.
      - cbn [set_var s_var]. rewrite (upd_other _ _ i) by auto.
        destruct Hs as (A & _). rewrite (A v), (A i). exact S2. }
    apply Hout. unfold with_element.
    assert (same s (set_var v (s_var s v) (set_var i (s_var s i) t0))) as S0.
    { destruct Hs as (A & B & C). repeat split; auto. intros y. subst t0. cbn. unfold upd.
      destruct (Nat.eqb_spec y v) as [->|]; auto. destruct (Nat.eqb_spec y i) as [->|]; auto. }
    destruct (lower body) eqn:Eb.
    1: { apply lower_skip in Eb. subst body.
      apply each_skip_len in E. destruct E as (-> & Hsame & Hlen).
      assert (length (s_arr t0 a) >= len)%nat as Hlen'.
      { destruct Hs as (_ & B & _). subst t0. cbn. rewrite B. destruct len as [|len]; [lia|].
        specialize (Hlen (Z.of_nat len)). unfold nth_z in Hlen.
        replace (0 <=? Z.of_nat len) with true in Hlen by (symmetry; apply Z.leb_le; lia).
        rewrite Nat2Z.id in Hlen. assert (nth_error (s_arr s a) len <> None) as Hne.
        { apply Hlen. apply in_map, in_seq. lia. }
        apply nth_error_Some in Hne. lia. }
      destruct (empty_rounds v i a len H1 H3 len 0%nat ltac:(lia) t0 Hlen') as (t' & x & y & L & S2).
      - subst t0. cbn. now rewrite upd_same.
      - exists t'. split; [exact L|]. apply same_trans with s; [now apply same_sym|].
        eapply same_trans; [exact S0|]. destruct S2 as (A & B & C). repeat split; auto.
        intros z. cbn. unfold upd. destruct (Nat.eqb_spec z v) as [Ez|Ez]; auto.
        destruct (Nat.eqb_spec z i) as [Ez'|Ez']; auto. rewrite A. cbn. unfold upd.
        destruct (Nat.eqb_spec z v); [contradiction|]. destruct (Nat.eqb_spec z i); [contradiction|]. reflexivity. }
    all: rewrite <- Eb; eapply (array_rounds f v i a len body (IH body) H1 H2 H4 H3 len 0%nat ltac:(lia) s t0 g s');
      [subst t0; cbn; now rewrite upd_same|exact S0|exact E].
  - discriminate.
Qed.

(** Fewer ranges with a meaning, the same meaning for those that have one *)
Lemma each_mono f f' l : (forall z s g s', f z s = End g s' -> f' z s = End g s') ->
  forall s g s', each f l s = End g s' -> each f' l s = End g s'.
Proof.
  intros H. induction l as [|z l IH]; cbn; intros s g s' E; [exact E|].
  destruct (f z s) as [[] s1| |] eqn:E1; try discriminate; rewrite (H _ _ _ _ E1); auto.
Qed.
Lemma exec_mono ok ok' : (forall a b c, ok a b c = true -> ok' a b c = true) ->
  forall f p s g s', exec ok f p s = End g s' -> exec ok' f p s = End g s'.
Proof.
  intros Hok. induction f as [|f IH]; intros p s g s' E; [discriminate|].
  destruct p as [|e|v e|a i e|p q|e p q|e p|e z p q| | | |t v start stop step body|v i a len body|v i l body]; cbn [exec] in *; try exact E.
  - destruct (exec ok f p s) as [[] s1| |] eqn:E1; try discriminate; rewrite (IH _ _ _ _ E1); auto.
  - unfold with_value in *. destruct (eval e s) as [[z s1]|]; [|discriminate]. destruct (z =? 0); auto.
  - unfold with_value in *. destruct (eval e s) as [[z s1]|]; [|discriminate]. destruct (z =? 0); auto.
    destruct (exec ok f p s1) as [[] s2| |] eqn:E1; try discriminate; rewrite (IH _ _ _ _ E1); auto.
  - unfold with_value in *. destruct (eval e s) as [[x s1]|]; [|discriminate]. destruct (x =? z); auto.
  - unfold with_value in *. destruct (eval start s) as [[x s1]|]; [|discriminate].
    destruct (eval stop s1) as [[y s2]|]; [|discriminate]. destruct (eval _ s2) as [[z s3]|]; [|discriminate].
    destruct (fits t x && fits t y && negb (z =? 0) && ok x y z) eqn:E1; [|discriminate].
    apply andb_true_iff in E1. destruct E1 as [E1 E2]. rewrite E1, (Hok _ _ _ E2). cbn [andb].
    eapply each_mono; [|exact E]. cbv beta. intros k u g' u' Ek. apply unlet_end in Ek.
    destruct Ek as (u1 & Ek & ->). rewrite (IH _ _ _ _ Ek). reflexivity.
  - eapply each_mono; [|exact E]. cbv beta. intros k u g' u' Ek.
    destruct (nth_z (s_arr u a) k) as [x|]; [|discriminate]. apply unlet_end in Ek. destruct Ek as (u1 & Ek & ->).
    apply unlet_end in Ek. destruct Ek as (u2 & Ek & ->). rewrite (IH _ _ _ _ Ek). reflexivity.
  - eapply each_mono; [|exact E]. cbv beta. intros k u g' u' Ek.
    destruct (nth_z l k) as [x|]; [|discriminate]. apply unlet_end in Ek. destruct Ek as (u1 & Ek & ->).
    apply unlet_end in Ek. destruct Ek as (u2 & Ek & ->). rewrite (IH _ _ _ _ Ek). reflexivity.
Qed.

(** Loops with constant bounds and an empty body *)
Definition bare (t : ity) (v : nat) (b c : Z) : tstmt := TWhile (Ne (Var v) (Num b)) TSkip (TStep t v (Num c)).

Lemma bare_unsigned_to w v b c : 0 < w -> 0 <= b < 2 ^ w -> forall f s g s',
  texec f (bare (Ity false w) v b c) s = End g s' ->
  exists n : nat, (s_var s v + Z.of_nat n * c) mod 2 ^ w = b \/ (n = 0%nat /\ s_var s v = b).
Proof.
  intros Hw Hb. assert (0 < 2 ^ w) as Hp by (apply Z.pow_pos_nonneg; lia).
  induction f as [|f IH]; intros s g s' E; [discriminate|].
  unfold bare in E. cbn [texec eval with_value] in E.
  destruct (Z.eqb_spec (s_var s v) b) as [Eq|Ne].
  - exists 0%nat. auto.
  - cbn [negb truth Z.eqb] in E. destruct f as [|f']; [discriminate|].
    set (f := S f') in *.
    assert (texec f TSkip s = End Next s) as E1 by reflexivity. rewrite E1 in E.
    set (s2 := set_var v ((s_var s v + c) mod 2 ^ w) s).
    assert (texec f (TStep (Ity false w) v (Num c)) s = End Next s2) as E2 by reflexivity. rewrite E2 in E.
    apply IH in E. destruct E as (n & [E|[-> E]]); subst s2; cbn [s_var set_var] in E; rewrite upd_same in E.
    + exists (S n). left. rewrite Z.add_mod_idemp_l in E by lia. rewrite <- E. f_equal. lia.
    + exists 1%nat. left. rewrite <- E. f_equal. lia.
Qed.

Lemma bare_unsigned_from w v b c : 0 < w -> 0 <= b < 2 ^ w -> forall (n : nat) s,
  0 <= s_var s v < 2 ^ w -> (s_var s v + Z.of_nat n * c) mod 2 ^ w = b ->
  exists f s', texec f (bare (Ity false w) v b c) s = End Next s'.
Proof.
  intros Hw Hb. assert (0 < 2 ^ w) as Hp by (apply Z.pow_pos_nonneg; lia).
  induction n as [|n IH]; intros s Hs E.
  - exists 1%nat, s. unfold bare. cbn [texec eval with_value].
    replace (s_var s v + Z.of_nat 0 * c) with (s_var s v) in E by lia. rewrite Z.mod_small in E by exact Hs.
    rewrite E, Z.eqb_refl. reflexivity.
  - destruct (Z.eq_dec (s_var s v) b) as [Eq|Ne].
    { exists 1%nat, s. unfold bare. cbn [texec eval with_value]. now rewrite Eq, Z.eqb_refl. }
    set (s2 := set_var v ((s_var s v + c) mod 2 ^ w) s).
    assert (s_var s2 v = (s_var s v + c) mod 2 ^ w) as Ev by (subst s2; cbn; apply upd_same).
    destruct (IH s2) as (f & s' & E1).
    + rewrite Ev. apply Z.mod_pos_bound. exact Hp.
    + rewrite Ev, Z.add_mod_idemp_l by lia. rewrite <- E. f_equal. lia.
    + exists (S (S f)), s'. unfold bare. cbn [texec eval with_value].
      destruct (Z.eqb_spec (s_var s v) b) as [|_]; [contradiction|]. cbn [negb truth Z.eqb].
      unfold plus. cbn [i_signed i_bits]. fold s2.
      exact (texec_more _ _ _ _ _ E1 (S f) ltac:(lia)).
Qed.

Lemma reach_gcd a b c m : 0 < m -> 0 <= b < m ->
  ((exists n : nat, (a + Z.of_nat n * c) mod m = b) <-> (Z.gcd c m | b - a)).
Proof.
  intros Hm Hb. split.
  - intros [n E]. pose proof (Z.div_mod (a + Z.of_nat n * c) m ltac:(lia)) as D. rewrite E in D.
    destruct (Z.gcd_divide_l c m) as [x Hx], (Z.gcd_divide_r c m) as [y Hy].
    set (q := (a + Z.of_nat n * c) / m) in *. exists (Z.of_nat n * x - q * y). nia.
  - intros [k Hk]. destruct (Z.gcd_bezout c m (Z.gcd c m) eq_refl) as (u & v & Huv).
    exists (Z.to_nat ((k * u) mod m)). rewrite Z2Nat.id by (apply Z.mod_pos_bound; exact Hm).
    pose proof (Z.div_mod (k * u) m ltac:(lia)) as D. set (q := k * u / m) in *. set (r := (k * u) mod m) in *.
    symmetry. apply Z.mod_unique with (- (k * v) - q * c); [left; lia|].
    assert (b - a = k * u * c + k * v * m) as E by (rewrite Hk, <- Huv; ring).
    rewrite D in E. lia.
Qed.

Lemma bare_signed_to w v b c : forall f s g s',
  texec f (bare (Ity true w) v b c) s = End g s' -> exists n : nat, b = s_var s v + Z.of_nat n * c.
Proof.
  induction f as [|f IH]; intros s g s' E; [discriminate|].
  unfold bare in E. cbn [texec eval with_value] in E.
  destruct (Z.eqb_spec (s_var s v) b) as [Eq|Ne]; [exists 0%nat; lia|].
  cbn [negb truth Z.eqb] in E. destruct f as [|f']; [discriminate|]. set (f := S f') in *.
  assert (texec f TSkip s = End Next s) as E1 by reflexivity. rewrite E1 in E.
  assert (texec f (TStep (Ity true w) v (Num c)) s =
    match plus (Ity true w) (s_var s v) c with Some z => End Next (set_var v z s) | None => Undef end) as E2 by reflexivity.
  rewrite E2 in E. unfold plus in E. cbn [i_signed] in E.
  destruct (fits (Ity true w) (s_var s v + c)); [|discriminate].
  apply IH in E. destruct E as [n E]. cbn [s_var set_var] in E. rewrite upd_same in E. exists (S n). lia.
Qed.
Lemma bare_signed_from w v a b c (n : nat) : fits (Ity true w) a = true -> fits (Ity true w) b = true ->
  b = a + Z.of_nat n * c -> c <> 0 -> forall j k s, (j + k = n)%nat -> s_var s v = a + Z.of_nat k * c ->
  exists f s', texec f (bare (Ity true w) v b c) s = End Next s'.
Proof.
  intros Fa Fb Hn Hc. induction j as [|j IH]; intros k s Hk Hs.
  - exists 1%nat, s. unfold bare. cbn [texec eval with_value].
    assert (s_var s v = b) as -> by (rewrite Hs, Hn; subst n; reflexivity). now rewrite Z.eqb_refl.
  - assert (s_var s v <> b) as Hne.
    { rewrite Hs, Hn. intros H. assert (Z.of_nat k * c = Z.of_nat n * c) as H' by lia.
      apply Z.mul_cancel_r in H'; [|exact Hc]. lia. }
    set (s2 := set_var v (a + Z.of_nat (S k) * c) s).
    destruct (IH (S k) s2 ltac:(lia)) as (f & s' & E1); [subst s2; cbn; apply upd_same|].
    exists (S (S f)), s'. unfold bare. cbn [texec eval with_value].
    destruct (Z.eqb_spec (s_var s v) b) as [|_]; [contradiction|]. cbn [negb truth Z.eqb].
    rewrite plus_fits.
    + replace (s_var s v + c) with (a + Z.of_nat (S k) * c) by (rewrite Hs; lia). fold s2.
      exact (texec_more _ _ _ _ _ E1 (S f) ltac:(lia)).
    + replace (s_var s v + c) with (a + Z.of_nat (S k) * c) by (rewrite Hs; lia). eapply between; eauto. lia.
Qed.

Definition bare_for (t : ity) (v : nat) (a b c : Z) : stmt := For t v (Num a) (Num b) (Some (Num c)) Skip.
Lemma bare_for_lower t v a b c s : (exists g s', leads (lower (bare_for t v a b c)) s g s') <->
  exists f g s', texec f (bare t v b c) (set_var v a s) = End g s'.
Proof.
  split.
  - intros (g & s' & [|f] & E); [discriminate|]. cbn [lower bare_for texec eval with_value] in E.
    apply unlet_end in E. destruct E as (s1 & E & _). exists f, g, s1. exact E.
  - intros (f & g & s' & E). exists g, (set_var v (s_var s v) s'), (S f).
    cbn [lower bare_for texec eval with_value]. unfold bare in E. now rewrite E.
Qed.

Lemma unsigned_ends_iff w v a b c s : 0 < w -> 0 <= a < 2 ^ w -> 0 <= b < 2 ^ w ->
  ((exists g s', leads (lower (bare_for (Ity false w) v a b c)) s g s') <-> (Z.gcd c (2 ^ w) | b - a)).
Proof.
  intros Hw Ha Hb. assert (0 < 2 ^ w) as Hp by (apply Z.pow_pos_nonneg; lia).
  rewrite bare_for_lower, <- (reach_gcd a b c (2 ^ w) Hp Hb).
  assert (s_var (set_var v a s) v = a) as Ev by (cbn; apply upd_same). split.
  - intros (f & g & s' & E). apply bare_unsigned_to in E; auto. rewrite Ev in E.
    destruct E as (n & [E|[-> E]]); [eauto|]. exists 0%nat. rewrite E. cbn. rewrite Z.add_0_r. apply Z.mod_small. exact Hb.
  - intros [n E]. destruct (bare_unsigned_from w v b c Hw Hb n (set_var v a s)) as (f & s' & E'); [rewrite Ev; exact Ha|rewrite Ev; exact E|]. eauto.
Qed.

Lemma signed_ends_iff w v a b c s : fits (Ity true w) a = true -> fits (Ity true w) b = true ->
  ((exists g s', leads (lower (bare_for (Ity true w) v a b c)) s g s') <-> a = b \/ meets a b c = true).
Proof.
  intros Fa Fb. rewrite bare_for_lower. assert (s_var (set_var v a s) v = a) as Ev by (cbn; apply upd_same). split.
  - intros (f & g & s' & E). apply bare_signed_to in E. rewrite Ev in E. destruct E as [n E].
    destruct (Z.eq_dec c 0) as [->|Hc]; [left; lia|]. right. unfold meets.
    assert (b - a = Z.of_nat n * c) as Ed by lia. rewrite Ed, Z.mod_mul, Z.div_mul by exact Hc.
    apply Z.eqb_neq in Hc. rewrite Hc. cbn. apply Z.leb_le. lia.
  - intros [->|Hm].
    + exists 1%nat, Next, (set_var v b s). unfold bare. cbn [texec eval with_value]. now rewrite Ev, Z.eqb_refl.
    + apply meets_spec in Hm. destruct Hm as (n & Hn & Hc & _).
      destruct (bare_signed_from w v a b c n Fa Fb Hn Hc n 0%nat (set_var v a s) ltac:(lia)) as (f & s' & E); [rewrite Ev; lia|]. eauto.
Qed.
