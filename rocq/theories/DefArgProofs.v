(** Proofs about default arguments. *)
From Coq Require Import Bool List Arith Lia.
Import ListNotations.
From Verif Require Import DefArgModel DefArgSpec.

Lemma shake_seen ps : fixed ps -> forall r n, shake ps r n true = if forallb (fun p => match p_def p with Some _ => true | None => false end) ps then Some (r, false) else None.
Proof.
  induction 1 as [|p ps F _ IH]; intros r n; [reflexivity|]. cbn [shake forallb]. destruct (p_def p); [apply IH|].
  rewrite F. reflexivity.
Qed.
Lemma defs_forall ps : forallb (fun p => match p_def p with Some _ => true | None => false end) ps = true <-> Forall (fun p => p_def p <> None) ps.
Proof.
  rewrite forallb_forall, Forall_forall. split; intros H p I; specialize (H p I); destruct (p_def p); congruence.
Qed.
Lemma shake_start ps : fixed ps -> forall n, (exists r', shake ps n n false = Some (r', false)) <-> trailing ps.
Proof.
  induction 1 as [|p ps F Fs IH]; intros n.
  - split; [|eexists; reflexivity]. intros _. exists [], []. repeat split; constructor.
  - cbn [shake]. destruct (p_def p) eqn:D.
    + rewrite shake_seen by exact Fs. split.
      * intros [r' H]. destruct (forallb _ ps) eqn:A; [|discriminate]. apply defs_forall in A. exists [], (p :: ps).
        repeat split; [constructor|constructor; [congruence|exact A]].
      * intros ([|q pl] & opt & E & P & O); simpl in E.
        -- subst opt. inversion O; subst. apply defs_forall in H2. rewrite H2. eauto.
        -- inversion E; subst. inversion P; congruence.
    + rewrite F. cbn [andb]. rewrite IH. split.
      * intros (pl & opt & -> & P & O). exists (p :: pl), opt. repeat split; [constructor; assumption|exact O].
      * intros ([|q pl] & opt & E & P & O); simpl in E.
        -- subst opt. inversion O; congruence.
        -- inversion E; subst. inversion P; subst. exists pl, opt. auto.
Qed.
Lemma shake_none ps : fixed ps -> forall n b, shake ps n n b <> None -> exists r, shake ps n n b = Some (r, false).
Proof.
  intros F. assert (X : forall r n b, match shake ps r n b with Some (_, v) => v = false | None => True end).
  { induction F as [|p ps Fp _ IH]; intros r n b; [reflexivity|]. cbn [shake]. destruct (p_def p); [apply IH|]. rewrite Fp.
    destruct (b && negb false); [exact I|apply IH]. }
  intros n b N. specialize (X n n b). destruct (shake ps n n b) as [[r v]|]; [|congruence]. subst. eauto.
Qed.
Lemma append_ok ps ds : append_defaults ps = Some ds /\ length ds = length ps <-> map p_def ps = map Some ds.
Proof.
  revert ds. induction ps as [|p ps IH]; intros ds; simpl.
  - destruct ds; split; try tauto; try discriminate. intros [_ H]. discriminate.
  - destruct (p_def p) as [d|].
    + destruct ds as [|e ds]; simpl.
      * split; [|discriminate]. intros [_ H]. discriminate.
      * specialize (IH ds). destruct (append_defaults ps) as [es|]; simpl.
        -- split.
           ++ intros [E L]. inversion E; subst. f_equal. apply IH. auto.
           ++ intros E. inversion E; subst. apply IH in H1 as [H1 H2]. inversion H1; subst. auto.
        -- split; [intros [X _]; discriminate|]. intros E. inversion E. apply IH in H1 as [X _]. discriminate.
    + destruct ds as [|e ds]; simpl.
      * split; [|discriminate]. intros [_ H]. discriminate.
      * split; [|discriminate]. destruct ps; intros [X _]; discriminate.
Qed.
Lemma append_len ps ds : append_defaults ps = Some ds -> length ds <= length ps.
Proof.
  revert ds. induction ps as [|p ps IH]; intros ds; simpl; [intros [= <-]; auto|]. destruct (p_def p).
  - destruct (append_defaults ps); [|discriminate]. intros [= <-]. simpl. specialize (IH _ eq_refl). lia.
  - destruct ps; [|discriminate]. intros [= <-]. simpl. lia.
Qed.
Lemma filled_iff ps args out : length args <= length ps ->
  filled ps args out <-> complete ps args = Some out /\ length out = length ps.
Proof.
  intros L. unfold complete.
  assert (S : length (skipn (length args) ps) = length ps - length args) by apply skipn_length.
  assert (F : filled ps args out <-> exists ds, map p_def (skipn (length args) ps) = map Some ds /\ out = args ++ ds).
  { split.
    - intros (g & r & ds & -> & G & D & ->). exists ds. split; [|reflexivity]. rewrite <- G, skipn_app, skipn_all, Nat.sub_diag. exact D.
    - intros (ds & D & ->). exists (firstn (length args) ps), (skipn (length args) ps), ds. rewrite firstn_skipn, firstn_length. repeat split; auto; lia. }
  rewrite F. destruct (Nat.ltb_spec (length args) (length ps)).
  - split.
    + intros (ds & D & ->). apply append_ok in D as [D E]. rewrite D. split; [reflexivity|]. rewrite app_length. lia.
    + intros [C O]. destruct (append_defaults (skipn (length args) ps)) as [ds|] eqn:A; [|discriminate]. inversion C; subst.
      exists ds. split; [|reflexivity]. apply append_ok. split; [exact A|]. rewrite app_length in O. lia.
  - assert (Z : skipn (length args) ps = []) by (apply length_zero_iff_nil; lia). rewrite Z. split.
    + intros (ds & D & ->). destruct ds; [|discriminate]. rewrite app_nil_r. split; [reflexivity|lia].
    + intros [[= ->] _]. exists []. split; [reflexivity|]. symmetry. apply app_nil_r.
Qed.
Lemma count_app a b : default_count (a ++ b) = default_count a + default_count b.
Proof. unfold default_count. rewrite filter_app, app_length. reflexivity. Qed.
Lemma count_none ps : Forall (fun p => p_def p = None) ps -> default_count ps = 0.
Proof. induction 1 as [|p ps E _ IH]; [reflexivity|]. unfold default_count in *. simpl. rewrite E. exact IH. Qed.
Lemma count_all ps : Forall (fun p => p_def p <> None) ps -> default_count ps = length ps.
Proof. induction 1 as [|p ps E _ IH]; [reflexivity|]. unfold default_count in *. simpl. destruct (p_def p); [simpl; lia|congruence]. Qed.
Lemma count_le ps : default_count ps <= length ps.
Proof. unfold default_count. induction ps as [|p ps IH]; [auto|]. simpl. destruct (p_def p); simpl; lia. Qed.
Lemma all_some ps : Forall (fun p => p_def p <> None) ps -> exists ds, map p_def ps = map Some ds.
Proof.
  induction 1 as [|p ps E _ [ds IH]]; [exists []; reflexivity|]. destruct (p_def p) as [d|] eqn:D; [|congruence].
  exists (d :: ds). simpl. rewrite D, IH. reflexivity.
Qed.
Lemma skip_defs ps n : trailing ps -> length ps - default_count ps <= n -> Forall (fun p => p_def p <> None) (skipn n ps).
Proof.
  intros (pl & opt & -> & P & O) H. rewrite count_app, (count_none pl P), (count_all opt O), app_length in H.
  rewrite skipn_app, (skipn_all2 pl) by lia. simpl. apply Forall_forall. intros p I. rewrite Forall_forall in O. apply O.
  rewrite <- (firstn_skipn (n - length pl) opt). apply in_or_app. right. exact I.
Qed.

(** * Types *)
Lemma same_types_map ps : forall qs, same_types ps qs = true <-> map p_type ps = map p_type qs.
Proof.
  induction ps as [|p ps IH]; intros [|q qs]; simpl; split; try discriminate; auto.
  - intros H. apply andb_prop in H as [H1 H2]. apply Nat.eqb_eq in H1. apply IH in H2. congruence.
  - intros H. inversion H as [[E F]]. rewrite Nat.eqb_refl. apply IH, F.
Qed.
Lemma same_func_alike a b : same_func a b = true <-> alike a b.
Proof.
  unfold same_func, alike. rewrite !andb_true_iff, Nat.eqb_eq, same_types_map.
  assert (N : same_name (f_name a) (f_name b) = true <-> f_name a = f_name b).
  { destruct (f_name a), (f_name b); simpl; try (split; congruence). rewrite Nat.eqb_eq. split; congruence. }
  rewrite N. tauto.
Qed.
Lemma alike_refl a : alike a a. Proof. repeat split. Qed.
Lemma alike_sym a b : alike a b -> alike b a. Proof. intros (A & B & C). repeat split; auto. Qed.
Lemma alike_trans a b c : alike a b -> alike b c -> alike a c.
Proof. intros (A & B & C) (D & E & F). repeat split; congruence. Qed.
(** The table keeps the first of its kind. *)
Definition first_of (seen : list ftype) (t r : ftype) : Prop :=
  exists a b, seen = a ++ r :: b /\ alike t r /\ Forall (fun u => ~ alike t u) a.
Lemma intern_spec table t table' r : intern table t = (table', r) ->
  alike t r /\ ((first_of table t r /\ table' = table) \/ (Forall (fun u => ~ alike t u) table /\ r = t /\ table' = table ++ [t])).
Proof.
  revert table' r. induction table as [|u table IH]; intros table' r H; simpl in H.
  - inversion H; subst. split; [apply alike_refl|]. right. auto.
  - destruct (same_func t u) eqn:S.
    + inversion H; subst. apply same_func_alike in S. split; [exact S|]. left. split; [|reflexivity]. exists [], table. auto.
    + assert (N : ~ alike t u) by (rewrite <- same_func_alike; congruence).
      destruct (intern table t) as [t1 r1] eqn:I. inversion H; subst. destruct (IH _ _ eq_refl) as [A [[(a & b & -> & _ & F) ->]|(F & -> & ->)]].
      * split; [exact A|]. left. split; [|reflexivity]. exists (u :: a), b. repeat split; try apply A. constructor; assumption.
      * split; [exact A|]. right. split; [constructor; assumption|split; reflexivity].
Qed.
Lemma first_unique seen t r r' : first_of seen t r -> first_of seen t r' -> r = r'.
Proof.
  intros (a & b & -> & A & F) (c & d & E & C & G). revert c E G. induction a as [|x a IH]; intros [|y c] E G; simpl in E; inversion E; subst.
  - reflexivity.
  - inversion G; contradiction.
  - inversion F; contradiction.
  - inversion F; inversion G; subst. eapply IH; eauto.
Qed.
(** Invariant: a type has the same first one in the table as in all that were declared. *)
Definition agrees (table decls : list ftype) : Prop := forall t r, first_of table t r <-> first_of decls t r.
Lemma first_snoc l x t r : first_of (l ++ [x]) t r <-> first_of l t r \/ (Forall (fun u => ~ alike t u) l /\ r = x /\ alike t x).
Proof.
  split.
  - intros (a & b & E & A & F). destruct b as [|y b] using rev_ind.
    + apply app_inj_tail in E as [-> ->]. right. auto.
    + rewrite app_comm_cons, app_assoc in E. apply app_inj_tail in E as [-> _]. left. exists a, b. auto.
  - intros [(a & b & -> & A & F)|(F & -> & A)].
    + exists a, (b ++ [x]). rewrite <- app_assoc. auto.
    + exists l, []. auto.
Qed.
Lemma first_none l t : (forall r, ~ first_of l t r) -> Forall (fun u => ~ alike t u) l.
Proof.
  induction l as [|x l IH] using rev_ind; intros H; [constructor|].
  assert (I : Forall (fun u => ~ alike t u) l) by (apply IH; intros r X; apply (H r), first_snoc; left; exact X).
  apply Forall_app. split; [exact I|]. constructor; [|constructor]. intros X. apply (H x), first_snoc. right. auto.
Qed.
Lemma none_first l t r : Forall (fun u => ~ alike t u) l -> ~ first_of l t r.
Proof. intros F (a & b & -> & A & _). apply Forall_app in F as [_ F]. inversion F; contradiction. Qed.
Lemma agrees_step table decls t : agrees table decls -> agrees (fst (intern table t)) (decls ++ [t]) /\
  first_of (decls ++ [t]) t (snd (intern table t)).
Proof.
  intros A. destruct (intern table t) as [table' r] eqn:I. apply intern_spec in I as [R [[F ->]|(F & -> & ->)]]; simpl.
  - assert (Fd := proj1 (A t r) F). split; [|apply first_snoc; left; exact Fd]. intros u s. rewrite first_snoc, (A u s). split; [auto|].
    intros [X|(N & -> & U)]; [exact X|]. exfalso. destruct Fd as (a & b & -> & _ & _). apply Forall_app in N as [_ N]. inversion N; subst.
    apply H1. eapply alike_trans; eauto.
  - assert (N : Forall (fun u => ~ alike t u) decls).
    { apply first_none. intros r X. apply A in X. exact (none_first _ _ _ F X). }
    split; [|apply first_snoc; right; auto using alike_refl]. intros u s. rewrite !first_snoc, (A u s). split; (intros [X|(M & -> & U)]; [left; exact X|right]).
    + repeat split; try apply U. apply first_none. intros r X. apply A in X. exact (none_first _ _ _ M X).
    + repeat split; try apply U. apply first_none. intros r X. apply A in X. exact (none_first _ _ _ M X).
Qed.
Lemma intern_all_first ts : forall table decls, agrees table decls -> forall i t r, nth_error ts i = Some t ->
  nth_error (intern_all table ts) i = Some r -> first_of (decls ++ firstn (S i) ts) t r.
Proof.
  induction ts as [|u ts IH]; intros table decls A i t r T R; [destruct i; discriminate|].
  cbn [intern_all] in R. destruct (agrees_step table decls u A) as [A' F]. destruct (intern table u) as [table' s]. simpl in A', F.
  destruct i as [|i].
  - simpl in T, R. inversion T; inversion R; subst. simpl. destruct ts; exact F.
  - simpl in T, R. specialize (IH table' (decls ++ [u]) A' i t r T R). rewrite <- app_assoc in IH. exact IH.
Qed.
Lemma intern_all_length table ts : length (intern_all table ts) = length ts.
Proof. revert table. induction ts as [|t ts IH]; intros table; [reflexivity|]. simpl. destruct (intern table t). simpl. f_equal. apply IH. Qed.
