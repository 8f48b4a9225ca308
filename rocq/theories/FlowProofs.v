(** Proofs about the analysis of returns. *)
From Coq Require Import Bool List.
Import ListNotations.
From Verif Require Import FlowModel FlowSpec.

Scheme expr_m := Induction for expr Sort Prop
with stmt_m := Induction for stmt Sort Prop
with stmts_m := Induction for stmts Sort Prop
with cases_m := Induction for cases Sort Prop.
Combined Scheme flow_ind from expr_m, stmt_m, stmts_m, cases_m.

(** * Combinators *)
Lemma same_refl A : same A A. Proof. intros o t. tauto. Qed.
Lemma same_sym A B : same A B -> same B A. Proof. intros H o t. destruct (H o t). tauto. Qed.
Lemma same_trans A B C : same A B -> same B C -> same A C.
Proof. intros H K o t. rewrite (H o t). apply K. Qed.
Lemma seq_same A A' B B' : same A A' -> same B B' -> same (seq A B) (seq A' B').
Proof.
  intros H K o t. unfold seq. rewrite (H o t). split; (intros [?|(t1 & t2 & a & b & e)]; [tauto|]); right;
    exists t1, t2; (split; [apply H; exact a|split; [apply K; exact b|exact e]]).
Qed.
Lemma seq_dead A A' B B' : same A A' -> never_ends A -> same (seq A B) (seq A' B').
Proof.
  intros H N o t. unfold seq. rewrite (H o t). split; (intros [?|(t1 & t2 & a & _)]; [tauto|]); exfalso.
  - exact (N _ a).
  - apply (N t1), H, a.
Qed.
Lemma choice_same A A' B B' : same A A' -> same B B' -> same (choice A B) (choice A' B').
Proof. intros H K o t. unfold choice. rewrite (H o t), (K o t). tauto. Qed.
Lemma loop_incl C C' B B' : same C C' -> same B B' -> forall o t, loop C B o t -> loop C' B' o t.
Proof.
  intros H K o t L. induction L.
  - apply loop_cond; [assumption|apply H; assumption].
  - apply loop_exit, H; assumption.
  - apply loop_break; [apply H|apply K]; assumption.
  - eapply loop_again; [apply H; eassumption|apply K; eassumption|assumption|assumption].
  - apply loop_leave; [apply H|apply K|]; assumption.
Qed.
Lemma loop_same C C' B B' : same C C' -> same B B' -> same (loop C B) (loop C' B').
Proof. intros H K o t. split; apply loop_incl; auto using same_sym. Qed.
Lemma loop_dead C C' B B' : same C C' -> never_ends C -> same (loop C B) (loop C' B').
Proof.
  intros H N o t. assert (N' : never_ends C') by (intros u Hu; apply (N u), H, Hu).
  split; intros L; destruct L as [o t ? c|? c|? ? c|? ? ? ? ? c|? ? ? c];
    try (exfalso; first [exact (N _ c)|exact (N' _ c)]); apply loop_cond; auto; apply H; exact c.
Qed.
Lemma deferred_same E E' R R' : same E E' -> same R R' -> same (deferred E R) (deferred E' R').
Proof.
  intros H K o t. unfold deferred. split; intros [[? ?]|(o1 & t1 & o2 & t2 & r & n & e & x)].
  - left. split; [assumption|apply K; assumption].
  - right. exists o1, t1, o2, t2. split; [apply K; exact r|split; [exact n|split; [apply H; exact e|exact x]]].
  - left. split; [assumption|apply K; assumption].
  - right. exists o1, t1, o2, t2. split; [apply K; exact r|split; [exact n|split; [apply H; exact e|exact x]]].
Qed.
Lemma seq_never_l A B : never_ends A -> never_ends (seq A B).
Proof. intros N t [[? _]|(t1 & t2 & a & _)]; [congruence|exact (N _ a)]. Qed.
Lemma seq_never_r A B : never_ends B -> never_ends (seq A B).
Proof. intros N t [[? _]|(t1 & t2 & _ & b & _)]; [congruence|exact (N _ b)]. Qed.
Lemma choice_never A B : never_ends A -> never_ends B -> never_ends (choice A B).
Proof. intros N M t [a|b]; [exact (N _ a)|exact (M _ b)]. Qed.
Lemma loop_never C B : never_ends C -> never_ends (loop C B).
Proof.
  intros N t L. inversion L; subst; try congruence;
    match goal with h : C ONormal _ |- _ => exact (N _ h) end.
Qed.
Lemma deferred_never E R : never_ends R -> never_ends (deferred E R).
Proof.
  intros N t [[? _]|(o1 & t1 & o2 & t2 & r & _ & _ & _ & e)]; [discriminate|].
  destruct o2; try discriminate. subst o1. exact (N _ r).
Qed.

(** * Code that always returns cannot be left at its end. *)
Lemma returns_never :
  (forall e, returns_e e = true -> never_ends (den_e e)) /\
  (forall s, returns_s s = true -> never_ends (den_s s)) /\
  (forall l, returns_l l = true -> never_ends (den_l l)) /\
  (forall cs : cases, True).
Proof.
  apply flow_ind; try (intros; exact I); simpl; intros;
    repeat match goal with
    | h : _ || _ = true |- _ => apply orb_true_iff in h; destruct h
    | h : _ && _ = true |- _ => apply andb_true_iff in h; destruct h
    end; try discriminate; auto using seq_never_l, seq_never_r, choice_never, loop_never.
  - apply seq_never_r. destruct k; try discriminate. intros t [_ [h|h]]; discriminate.
  - destruct s; try discriminate; auto using seq_never_l.
  - destruct s; auto using seq_never_r, deferred_never.
Qed.

(** * The state is set only after code that always returns. *)
Ltac splits := repeat match goal with
  | |- context [let '(_, _) := ?x in _] => let s := fresh "st" in let y := fresh "y" in
      let q := fresh "q" in destruct x as [s y] eqn:q
  end.
Lemma state_returns :
  (forall e, tame_e e -> forall s, fst (check_e s e) = true -> s = true \/ returns_e e = true) /\
  (forall c, tame_s c -> forall s, fst (check_s s c) = true -> s = true \/ returns_s c = true) /\
  (forall l, tame_l l -> forall s, fst (check_l s l) = true -> s = true \/ returns_l l = true) /\
  (forall cs, tame_c cs -> True).
Proof.
  assert (F : forall {A} (x : bool * A) s y, x = (s, y) -> s = fst x) by (intros A x s y ->; reflexivity).
  assert (L : forall X (f : bool -> bool * X) (r : bool), (forall s, fst (f s) = true -> s = true \/ r = true) ->
    forall s s1 y, f s = (s1, y) -> s1 = true -> s = true \/ r = true).
  { intros X f r H s s1 y E T. apply H. rewrite E. exact T. }
  apply flow_ind; try (intros; exact I); simpl.
  - auto.
  - auto.
  - intros a Ha b Hb [Ta Tb] s. splits. simpl. intros E.
    destruct (L _ _ _ (Hb Tb) _ _ _ q0 E) as [E1|E1]; [|rewrite E1, orb_true_r; auto].
    destruct (L _ _ _ (Ha Ta) _ _ _ q E1) as [E2|E2]; rewrite ?E2; auto.
  - intros a Ha b Hb (Ta & Tb & Rb) s. splits. simpl. intros E.
    destruct (L _ _ _ (Hb Tb) _ _ _ q0 E) as [E1|E1]; [|congruence].
    exact (L _ _ _ (Ha Ta) _ _ _ q E1).
  - intros c Hc a Ha b Hb (Tc & Ta & Tb & Ra & Rb) s. splits. simpl. intros E.
    destruct (L _ _ _ (Hb Tb) _ _ _ q1 E) as [E1|E1]; [|congruence].
    destruct (L _ _ _ (Ha Ta) _ _ _ q0 E1) as [E2|E2]; [|congruence].
    destruct (L _ _ _ (Hc Tc) _ _ _ q E2) as [E3|E3]; rewrite ?E3; auto.
  - intros a Ha b Hb [Ta Tb] s. splits. simpl. auto.
  - intros l Hl Tl s. splits. simpl. intros E. exact (L _ _ _ (Hl Tl) _ _ _ q E).
  - intros e He Te s. splits. simpl. intros E. exact (L _ _ _ (He Te) _ _ _ q E).
  - intros e He Te s. splits. simpl. intros E. exact (L _ _ _ (He Te) _ _ _ q E).
  - intros e He k Te s. splits. simpl. intros E. apply orb_true_iff in E as [E|E].
    + destruct (L _ _ _ (He Te) _ _ _ q E) as [E1|E1]; rewrite ?E1; auto.
    + destruct k; try discriminate. right. apply orb_true_r.
  - intros c Hc a _ [Tc Ta] s. splits. simpl. intros E. apply andb_true_iff in E as [_ E].
    exact (L _ _ _ (Hc Tc) _ _ _ q E).
  - intros c Hc a Ha b Hb (Tc & Ta & Tb) s. splits. simpl. intros E. apply andb_true_iff in E as [E1 E2].
    destruct (L _ _ _ (Ha Ta) _ _ _ q0 E1) as [?|E3]; [discriminate|].
    destruct (L _ _ _ (Hb Tb) _ _ _ q1 E2) as [?|E4]; [discriminate|].
    rewrite E3, E4. right. apply orb_true_r.
  - intros c Hc b _ [Tc Tb] s. splits. simpl. intros E. exact (L _ _ _ (Hc Tc) _ _ _ q E).
  - intros c Hc b _ [Tc Tb] s. splits. simpl. intros E. exact (L _ _ _ (Hc Tc) _ _ _ q E).
  - intros e He cs _ [Te Tcs] s. splits. simpl. discriminate.
  - intros e He cs _ [Te Tcs] s. splits. simpl. intros E. exact (L _ _ _ (He Te) _ _ _ q E).
  - intros l Hl Tl s. splits. simpl. intros E. exact (L _ _ _ (Hl Tl) _ _ _ q E).
  - auto.
  - auto.
  - intros e He [Te Re] s. splits. simpl. intros E.
    destruct (L _ _ _ (He Te) _ _ _ q E) as [?|?]; [auto|congruence].
  - auto.
  - intros c Hc r Hr [Tc Tr] s. splits. destruct (has_unreachable st c r); simpl.
    + intros E. destruct (L _ _ _ (Hc Tc) _ _ _ q E) as [E1|E1]; rewrite ?E1; auto.
    + splits. simpl. intros E.
      destruct (L _ _ _ (Hr Tr) _ _ _ q0 E) as [E1|E1]; [|rewrite E1, orb_true_r; auto].
      destruct (L _ _ _ (Hc Tc) _ _ _ q E1) as [E2|E2]; rewrite ?E2; auto.
Qed.

(** * What is kept does the same. *)
Definition kept_e e := same (den_e e) (den_e (snd (check_e false e))).
Lemma state_never_e e st y : tame_e e -> check_e false e = (st, y) -> st = true -> never_ends (den_e e).
Proof.
  intros T E ->. apply returns_never. destruct (proj1 state_returns e T false) as [h|h]; [rewrite E; reflexivity|discriminate|exact h].
Qed.
Lemma state_never_s c st y : tame_s c -> check_s false c = (st, y) -> st = true -> never_ends (den_s c).
Proof.
  intros T E ->. apply returns_never. destruct (proj1 (proj2 state_returns) c T false) as [h|h];
    [rewrite E; reflexivity|discriminate|exact h].
Qed.
Lemma state_never_l l st y : tame_l l -> check_l false l = (st, y) -> st = true -> never_ends (den_l l).
Proof.
  intros T E ->. apply returns_never. destruct (proj1 (proj2 (proj2 state_returns)) l T false) as [h|h];
    [rewrite E; reflexivity|discriminate|exact h].
Qed.

(** Statements other than defer stand in a block by [seq]. *)
Definition is_defer (s : stmt) : bool := match s with SDefer _ => true | _ => false end.
Lemma den_cons s r : is_defer s = false -> den_l (SCons s r) = seq (den_s s) (den_l r).
Proof. destruct s; try reflexivity. discriminate. Qed.
Lemma check_defer st s : is_defer (snd (check_s st s)) = is_defer s.
Proof. destruct s; simpl; splits; reflexivity. Qed.

Lemma kept :
  (forall e, tame_e e -> same (den_e e) (den_e (snd (check_e false e)))) /\
  (forall c, tame_s c -> same (den_s c) (den_s (snd (check_s false c)))) /\
  (forall l, tame_l l -> same (den_l l) (den_l (snd (check_l false l)))) /\
  (forall cs, tame_c cs -> same (den_c cs) (den_c (snd (check_c cs)))).
Proof.
  apply flow_ind; simpl.
  - intros _. apply same_refl.
  - intros n _. apply same_refl.
  - intros a Ha b Hb [Ta Tb]. splits. try rewrite q in Ha. simpl in *.
    destruct st; [exact (seq_dead _ _ _ _ (Ha Ta) (state_never_e _ _ _ Ta q eq_refl))|].
    try rewrite q0 in Hb. apply seq_same; auto.
  - intros a Ha b Hb (Ta & Tb & Rb). splits. try rewrite q in Ha. simpl in *.
    destruct st; [exact (seq_dead _ _ _ _ (Ha Ta) (state_never_e _ _ _ Ta q eq_refl))|].
    try rewrite q0 in Hb. apply seq_same; auto. apply choice_same; auto using same_refl.
  - intros c Hc a Ha b Hb (Tc & Ta & Tb & Ra & Rb). splits. try rewrite q in Hc. simpl in *.
    destruct st; [exact (seq_dead _ _ _ _ (Hc Tc) (state_never_e _ _ _ Tc q eq_refl))|].
    try rewrite q0 in Ha. assert (st0 = false) as ->.
    { destruct st0; [|reflexivity]. destruct (proj1 state_returns a Ta false) as [?|?]; [rewrite q0; reflexivity|discriminate|congruence]. }
    try rewrite q1 in Hb. apply seq_same; auto. apply choice_same; auto.
  - intros a Ha b Hb [Ta Tb]. splits. try rewrite q in Ha. simpl in *.
    destruct st; [exact (seq_dead _ _ _ _ (Ha Ta) (state_never_e _ _ _ Ta q eq_refl))|].
    try rewrite q0 in Hb. apply seq_same; auto. apply choice_same; auto using same_refl.
  - intros l Hl Tl. splits. auto.
  - intros e He Te. splits. auto.
  - intros e He Te. splits. auto.
  - intros e He k Te. splits. simpl in *. apply seq_same; auto using same_refl.
  - intros c Hc a Ha [Tc Ta]. splits. simpl in *. apply seq_same; auto. apply choice_same; auto using same_refl.
  - intros c Hc a Ha b Hb (Tc & Ta & Tb). splits. simpl in *. apply seq_same; auto. apply choice_same; auto.
  - intros c Hc b Hb [Tc Tb]. splits. simpl in *. apply loop_same; auto.
  - intros c Hc b Hb [Tc Tb]. splits. simpl in *. apply seq_same; auto. apply loop_same; auto using same_refl.
  - intros e He cs Hcs [Te Tcs]. splits. simpl in *. apply seq_same; auto. apply choice_same; auto using same_refl.
  - intros e He cs Hcs [Te Tcs]. splits. simpl in *. apply seq_same; auto. apply choice_same; auto using same_refl.
  - intros l Hl Tl. splits. auto.
  - intros _. apply same_refl.
  - intros _. apply same_refl.
  - intros e He [Te Re]. splits. auto.
  - intros _. apply same_refl.
  - intros s Hs r Hr [Ts Tr]. destruct (check_s false s) as [st s'] eqn:q. cbv zeta beta.
    specialize (Hs Ts). simpl in Hs.
    destruct (is_defer s) eqn:D.
    + destruct s; try discriminate. simpl in Ts. destruct Ts as [Te Re].
      assert (st = false) as ->.
      { destruct st; [|reflexivity].
        destruct (proj1 state_returns e Te false) as [?|?]; [|discriminate|congruence].
        simpl in q. destruct (check_e false e). inversion q. reflexivity. }
      simpl has_unreachable. cbv iota. destruct (check_l false r) as [st2 r'] eqn:q2. simpl in Hr.
      simpl in q. destruct (check_e false e) as [st3 e'] eqn:q3. inversion q; subst. simpl in *.
      apply deferred_same; auto.
    + assert (D' : is_defer s' = false).
      { pose proof (check_defer false s) as X. rewrite q in X. simpl in X. congruence. }
      assert (G : match s with SDefer e => deferred (den_e e) (den_l r) | _ => seq (den_s s) (den_l r) end =
        seq (den_s s) (den_l r)) by (destruct s; try reflexivity; discriminate).
      rewrite G.
      destruct (has_unreachable st s r) eqn:U.
      * change (snd (st, SCons s' SNil)) with (SCons s' SNil). rewrite den_cons by exact D'.
        apply seq_dead; [exact Hs|]. apply (state_never_s _ _ _ Ts q).
        unfold has_unreachable in U. destruct st; [reflexivity|discriminate].
      * destruct (check_l st r) as [st2 r'] eqn:q2.
        change (snd (st2, SCons s' r')) with (SCons s' r'). rewrite den_cons by exact D'.
        destruct st.
        -- apply seq_dead; [exact Hs|]. exact (state_never_s _ _ _ Ts q eq_refl).
        -- try rewrite q2 in Hr. apply seq_same; auto.
  - intros _. apply same_refl.
  - intros l Hl r Hr [Tl Tr]. splits. simpl in *. apply choice_same; auto.
Qed.

(** * The return that is added *)
Lemma seq_assoc A B C : same (seq (seq A B) C) (seq A (seq B C)).
Proof.
  intros o t. unfold seq. split.
  - intros [[n [[_ a]|(t1 & t2 & a & b & e)]]|(t1 & t2 & [[n _]|(u1 & u2 & a & b & e)] & c & e')].
    + auto.
    + right. exists t1, t2. auto.
    + congruence.
    + right. exists u1, (u2 ++ t2). subst. rewrite app_assoc. repeat split; auto. right. exists u2, t2. auto.
  - intros [[n a]|(t1 & t2 & a & [[n b]|(u1 & u2 & b & c & e)] & e')].
    + auto.
    + left. split; [exact n|]. right. exists t1, t2. auto.
    + right. exists (t1 ++ u1), u2. subst. rewrite app_assoc. repeat split; auto. right. exists t1, u1. auto.
Qed.

Lemma can_stop :
  (forall e, den_e e OStop []) /\ (forall s, den_s s OStop []) /\ (forall l, den_l l OStop []) /\ (forall cs : cases, True).
Proof.
  assert (S : forall A B : D, A OStop [] -> seq A B OStop []) by (intros A B h; left; split; [discriminate|exact h]).
  apply flow_ind; try (intros; exact I); simpl; intros; auto; try (split; auto; fail); try (right; auto; fail).
  - apply loop_cond; [discriminate|assumption].
  - destruct s; auto. left. auto.
Qed.
(** Whoever watches may stop at the end too. *)
Lemma stop_at_end :
  (forall e o t, den_e e o t -> den_e e OStop t) /\ (forall s o t, den_s s o t -> den_s s OStop t) /\
  (forall l o t, den_l l o t -> den_l l OStop t) /\ (forall cs o t, den_c cs o t -> den_c cs OStop t).
Proof.
  assert (N : forall o t, nop o t -> nop OStop t) by (intros o t [-> _]; split; auto).
  assert (G : forall k o t, goes k o t -> goes k OStop t) by (intros k o t [-> _]; split; auto).
  assert (S : forall A B : D, (forall o t, A o t -> A OStop t) -> (forall o t, B o t -> B OStop t) ->
    forall o t, seq A B o t -> seq A B OStop t).
  { intros A B HA HB o t [[n a]|(t1 & t2 & a & b & ->)].
    - left. split; [discriminate|eauto].
    - right. exists t1, t2. repeat split; eauto. }
  assert (C : forall A B : D, (forall o t, A o t -> A OStop t) -> (forall o t, B o t -> B OStop t) ->
    forall o t, choice A B o t -> choice A B OStop t).
  { intros A B HA HB o t [a|b]; [left|right]; eauto. }
  assert (L : forall A B : D, (forall o t, A o t -> A OStop t) -> (forall o t, B o t -> B OStop t) ->
    forall o t, loop A B o t -> loop A B OStop t).
  { intros A B HA HB o t l. induction l.
    - apply loop_cond; [discriminate|eauto].
    - apply loop_cond; [discriminate|eauto].
    - apply loop_leave; eauto.
    - eapply loop_again; eauto.
    - apply loop_leave; eauto. }
  apply flow_ind; simpl; intros; eauto; try (eapply S; [| |eassumption]; intros; eauto; fail).
  - destruct H as [[_ ->]|[_ h]]; right; auto.
  - destruct s; try (eapply S; [| |eassumption]; intros; eauto; fail).
    destruct H1 as [[_ r1]|(o1 & t1 & o2 & t2 & r0 & m & e0 & -> & _)].
    + left. auto.
    + right. exists o1, t1, OStop, t2. repeat split; auto. simpl in H. eauto.
Qed.
Lemma deferred_goes (E R : D) k : E OStop [] -> (forall o t, E o t -> E OStop t) ->
  same (deferred E (seq R (goes (ORet k)))) (seq (deferred E R) (goes (ORet k))).
Proof.
  intros ES EE o t. split.
  - intros [[-> [[_ r]|(t1 & t2 & r & [-> _] & ->)]]|(o1 & t1 & o2 & t2 & [[n r]|(u1 & u2 & r & [-> [->| ->]] & ->)] & m & e & -> & ->)].
    + left. split; [discriminate|]. left. auto.
    + left. split; [discriminate|]. right. exists ONormal, t1, OStop, []. repeat split; auto. discriminate.
    + left. split; [destruct o2; auto; discriminate|]. right. exists o1, t1, o2, t2. auto.
    + rewrite app_nil_r. destruct o2.
      * right. exists (u1 ++ t2), []. rewrite app_nil_r. split; [|split; [split; auto|reflexivity]].
        right. exists ONormal, u1, ONormal, t2. repeat split; auto. discriminate.
      * left. split; [discriminate|]. right. exists ONormal, u1, (ORet k0), t2. repeat split; auto. discriminate.
      * left. split; [discriminate|]. right. exists ONormal, u1, OBreak, t2. repeat split; auto. discriminate.
      * left. split; [discriminate|]. right. exists ONormal, u1, OContinue, t2. repeat split; auto. discriminate.
      * left. split; [discriminate|]. right. exists ONormal, u1, OStop, t2. repeat split; auto. discriminate.
    + congruence.
  - intros [[n [[-> r]|(o1 & t1 & o2 & t2 & r & m & e & -> & ->)]]|(t1 & t2 & [[x _]|(o1 & u1 & o2 & u2 & r & m & e & -> & x)] & [-> g] & ->)].
    + left. split; [reflexivity|]. left. split; [discriminate|exact r].
    + destruct o1 eqn:O.
      * right. exists (ORet k), t1, o2, t2. split.
        { right. exists t1, []. rewrite app_nil_r. repeat split; auto. }
        split; [discriminate|]. split; [exact e|]. split; [reflexivity|]. destruct o2; auto. congruence.
      * right. exists (ORet k0), t1, o2, t2. split; [left; split; [discriminate|exact r]|]. auto.
      * right. exists OBreak, t1, o2, t2. split; [left; split; [discriminate|exact r]|]. auto.
      * right. exists OContinue, t1, o2, t2. split; [left; split; [discriminate|exact r]|]. auto.
      * congruence.
    + discriminate.
    + destruct o2; try discriminate. subst o1. rewrite app_nil_r.
      destruct g as [->| ->].
      * right. exists (ORet k), u1, ONormal, u2. split.
        { right. exists u1, []. rewrite app_nil_r. repeat split; auto. }
        repeat split; auto. discriminate.
      * right. exists (ORet k), u1, OStop, u2.
        split; [right; exists u1, []; rewrite app_nil_r; repeat split; auto|].
        repeat split; eauto. discriminate.
Qed.
Lemma seq_goes A B k : same A B -> same (seq A (goes k)) (seq B (goes k)).
Proof. intros H. apply seq_same; [exact H|apply same_refl]. Qed.
Lemma den_snoc l k : same (den_l (snoc l (SReturn EConst k))) (seq (den_l l) (goes (ORet k))).
Proof.
  induction l as [|s r IH].
  - simpl. intros o t. split.
    + intros [[n [[m [-> a]]|(t1 & t2 & [-> a] & [-> b] & ->)]]|(t1 & t2 & [[m _]|(u1 & u2 & [-> a] & [-> [b|b]] & e)] & c & e')];
        try congruence; try discriminate.
      * left. split; [exact n|]. split; auto.
      * right. exists [], []. repeat split; auto.
    + intros [[n [-> a]]|(t1 & t2 & [-> a] & [-> b] & ->)].
      * left. split; [exact n|]. left. split; [exact n|]. split; auto.
      * left. split; [destruct b; subst; discriminate|]. right. exists [], []. repeat split; auto.
  - simpl snoc. destruct (is_defer s) eqn:D.
    + destruct s; try discriminate. simpl.
      eapply same_trans; [apply deferred_same; [apply same_refl|exact IH]|].
      apply deferred_goes; [apply can_stop|apply stop_at_end].
    + rewrite !den_cons by exact D. eapply same_trans; [apply seq_same; [apply same_refl|exact IH]|].
      apply same_sym, seq_assoc.
Qed.

Lemma body_kept l : tame_l l -> same (den_l (check_body false l)) (den_l l).
Proof.
  intros T. unfold check_body. pose proof (proj1 (proj2 (proj2 kept)) l T) as K.
  destruct (check_l false l) as [s l']. simpl in *. apply same_sym, K.
Qed.
Lemma body_void l : tame_l l -> same (den_l (check_body true l)) (seq (den_l l) (goes (ORet KImplicit))).
Proof.
  intros T. unfold check_body. pose proof (proj1 (proj2 (proj2 kept)) l T) as K.
  destruct (check_l false l) as [[] l'] eqn:q; simpl in *.
  - pose proof (state_never_l _ _ _ T q eq_refl) as N.
    assert (N' : never_ends (den_l l')) by (intros t h; apply (N t), K, h).
    intros o t. unfold seq. rewrite <- (K o t). split.
    + intros h. left. split; [intros ->; exact (N _ h)|exact h].
    + intros [[_ h]|(t1 & t2 & a & _)]; [exact h|destruct (N _ a)].
  - eapply same_trans; [apply den_snoc|]. apply seq_goes, same_sym, K.
Qed.
Lemma body_void_ends l : tame_l l -> never_ends (den_l (check_body true l)).
Proof.
  intros T t h. apply (body_void l T) in h. destruct h as [[n _]|(t1 & t2 & _ & [_ [b|b]] & _)]; [congruence|discriminate|discriminate].
Qed.
