(** Proofs about match statements on unions. *)
From Coq Require Import Bool List Arith Lia.
Import ListNotations.
From Verif Require Import UMatchModel UMatchSpec.

Lemma ty_eqb_eq : forall a b, ty_eqb a b = true <-> a = b.
Proof.
  induction a; destruct b; cbn; split; intros H; try discriminate.
  - apply Nat.eqb_eq in H. congruence.
  - injection H as ->. apply Nat.eqb_refl.
  - apply IHa in H. congruence.
  - injection H as ->. apply IHa. reflexivity.
  - apply andb_prop in H as [H1 H2]. apply Nat.eqb_eq in H1. apply IHa in H2. congruence.
  - injection H as -> ->. rewrite Nat.eqb_refl. apply IHa. reflexivity.
Qed.

Lemma strip_names t n : strip t = Base n <-> names t n.
Proof.
  split.
  - induction t; cbn; intros H; try (constructor; auto). injection H as ->. constructor.
  - induction 1; cbn; auto.
Qed.

Lemma strip_base t : exists n, strip t = Base n.
Proof. induction t; cbn; eauto. Qed.

Lemma resolve_plainly t n : resolve t = Base n <-> plainly t n.
Proof.
  split.
  - induction t; cbn; intros H; try discriminate; try (constructor; auto). injection H as ->. constructor.
  - induction 1; cbn; auto.
Qed.

Lemma resolve_idem t : resolve (resolve t) = resolve t.
Proof. induction t; cbn; auto. Qed.

Lemma strip_resolve t : strip (resolve t) = strip t.
Proof. induction t; cbn; auto. Qed.

Lemma names_fun t n m : names t n -> names t m -> n = m.
Proof. rewrite <- !strip_names. congruence. Qed.

Lemma names_some t : exists n, names t n.
Proof. destruct (strip_base t) as [n H]. exists n. apply strip_names, H. Qed.

(** ** Members of a union *)
Lemma add_in ms m x : In x (add_union ms m) <-> In x ms \/ x = m.
Proof.
  unfold add_union. destruct (existsb (ty_eqb m) ms) eqn:E.
  - apply existsb_exists in E as (y & I & Y). apply ty_eqb_eq in Y. subst y. intuition congruence.
  - rewrite in_app_iff. cbn. intuition congruence.
Qed.

Lemma add_nodup ms m : NoDup ms -> NoDup (add_union ms m).
Proof.
  intros N. unfold add_union. destruct (existsb (ty_eqb m) ms) eqn:E; [exact N|].
  apply NoDup_Add with (a := m) (l := ms).
  - rewrite <- (app_nil_r ms) at 1. apply Add_app.
  - split; [exact N|]. intros I. assert (T : existsb (ty_eqb m) ms = true); [|congruence].
    apply existsb_exists. exists m. split; [exact I|]. apply ty_eqb_eq. reflexivity.
Qed.

Lemma union_in_gen ds : forall ms x, In x (fold_left (fun ms d => add_union ms (resolve d)) ds ms) <->
  In x ms \/ exists d, In d ds /\ x = resolve d.
Proof.
  induction ds as [|d r IH]; intros ms x; cbn.
  - firstorder.
  - rewrite IH, add_in. split.
    + intros [[H|H]|(e & I & E)]; eauto 6.
    + intros [H|(e & [<-|I] & E)]; eauto 6.
Qed.

Lemma union_in ds x : In x (union_of ds) <-> exists d, In d ds /\ x = resolve d.
Proof. unfold union_of. rewrite union_in_gen. cbn. firstorder. Qed.

Lemma union_nodup ds : NoDup (union_of ds).
Proof.
  unfold union_of. assert (G : forall ms, NoDup ms -> NoDup (fold_left (fun ms d => add_union ms (resolve d)) ds ms)).
  { induction ds; cbn; auto using add_nodup. }
  apply G. constructor.
Qed.

(** ** Numbers of members *)
Lemma index_ge ms t : forall k i, index_from k ms t = Some i -> k <= i.
Proof.
  induction ms as [|m r IH]; cbn; intros k i; [discriminate|].
  destruct (ty_eqb (resolve m) t); [intros [= ->]; lia|]. intros H. apply IH in H. lia.
Qed.

Lemma index_nth ms t : forall k i, index_from k ms t = Some i -> exists m, nth_error ms (i - k) = Some m /\ resolve m = t.
Proof.
  induction ms as [|m r IH]; cbn; intros k i H; [discriminate|].
  destruct (ty_eqb (resolve m) t) eqn:E.
  - injection H as <-. rewrite Nat.sub_diag. exists m. split; [reflexivity|]. apply ty_eqb_eq, E.
  - pose proof (index_ge _ _ _ _ H). apply IH in H as (x & X & R). exists x. split; [|exact R].
    replace (i - k) with (S (i - S k)) by lia. exact X.
Qed.

Lemma index_some ms t : forall k, (exists i, index_from k ms t = Some i) <-> exists m, In m ms /\ resolve m = t.
Proof.
  induction ms as [|m r IH]; cbn; intros k.
  - split; [intros [i H]; discriminate|intros (m & [] & _)].
  - destruct (ty_eqb (resolve m) t) eqn:E.
    + apply ty_eqb_eq in E. split; eauto.
    + rewrite IH. split; [intros (x & I & R); eauto|].
      intros (x & [<-|I] & R); [|eauto]. apply ty_eqb_eq in R. congruence.
Qed.

Lemma find_exact ds t n : names t n -> ((exists i, find_index (union_of ds) t = Some i) <-> has_plain ds n).
Proof.
  intros N. unfold find_index. apply strip_names in N. rewrite N, index_some. unfold has_plain. split.
  - intros (m & I & R). apply union_in in I as (d & D & ->). rewrite resolve_idem in R. exists d. split; [exact D|].
    apply resolve_plainly, R.
  - intros (d & D & P). exists (resolve d). split; [apply union_in; eauto|]. rewrite resolve_idem. apply resolve_plainly, P.
Qed.

Lemma find_same ms s t n : names s n -> names t n -> find_index ms s = find_index ms t.
Proof. rewrite <- !strip_names. unfold find_index. congruence. Qed.

Lemma find_inj ms s t n m i : names s n -> names t m -> find_index ms s = Some i -> find_index ms t = Some i -> n = m.
Proof.
  rewrite <- !strip_names. unfold find_index. intros -> -> A B.
  apply index_nth in A as (x & X & R). apply index_nth in B as (y & Y & Q). congruence.
Qed.

Lemma find_member ds t n i : names t n -> find_index (union_of ds) t = Some i -> nth_error (union_of ds) i = Some (Base n).
Proof.
  rewrite <- strip_names. unfold find_index. intros -> A. apply index_nth in A as (x & X & R). rewrite Nat.sub_0_r in X.
  rewrite X. apply nth_error_In, union_in in X as (d & _ & ->). rewrite resolve_idem in R. congruence.
Qed.

(** ** Checks *)
Lemma dup_gen cs : forall before, duplicates before cs = false <->
  (forall it c, In it before -> In c cs -> same_case it c = false) /\
  (forall i j c d, i < j -> nth_error cs i = Some c -> nth_error cs j = Some d -> same_case c d = false).
Proof.
  induction cs as [|c r IH]; intros before; cbn [duplicates].
  - split; [intros _; split|auto].
    + intros ? ? _ [].
    + intros [|i] j ? ? _ H; discriminate.
  - rewrite orb_false_iff, IH. split.
    + intros (A & B & D). assert (A' : forall it, In it before -> same_case it c = false).
      { intros it I. destruct (same_case it c) eqn:E; [|reflexivity].
        assert (T : existsb (fun it => same_case it c) before = true) by (apply existsb_exists; eauto). congruence. }
      split.
      * intros it x I [<-|X]; [auto|]. apply B; [apply in_app_iff; auto|exact X].
      * intros [|i] [|j] x y L X Y; try lia; cbn in X, Y.
        -- injection X as <-. apply B; [apply in_app_iff; cbn; auto|]. apply nth_error_In in Y. exact Y.
        -- apply (D i j); [lia|exact X|exact Y].
    + intros (A & B). split; [|split].
      * destruct (existsb (fun it => same_case it c) before) eqn:E; [|reflexivity].
        apply existsb_exists in E as (it & I & E). rewrite A in E; [discriminate|exact I|cbn; auto].
      * intros it x I X. apply in_app_iff in I as [I|[<-|[]]].
        -- apply A; cbn; auto.
        -- apply In_nth_error in X as [j X]. apply (B 0 (S j)); [lia|reflexivity|exact X].
      * intros i j x y L X Y. apply (B (S i) (S j)); [lia|exact X|exact Y].
Qed.

Lemma same_case_eq a b : same_case a b = true <-> c_type a = c_type b.
Proof.
  unfold same_case. destruct (c_type a), (c_type b); try (split; congruence).
  rewrite ty_eqb_eq. split; congruence.
Qed.

Lemma dup_iff cs : duplicates [] cs = false <-> written_apart cs.
Proof.
  rewrite dup_gen. split.
  - intros [_ B] i j c d N C D E. apply same_case_eq in E.
    destruct (Nat.lt_ge_cases i j) as [L|L].
    + rewrite (B i j c d L C D) in E. discriminate.
    + apply same_case_eq in E. symmetry in E. apply same_case_eq in E.
      rewrite (B j i d c) in E; [discriminate|lia|exact D|exact C].
  - intros W. split; [intros ? ? []|]. intros i j c d L C D. destruct (same_case c d) eqn:E; [|reflexivity].
    apply same_case_eq in E. destruct (W i j c d); auto. lia.
Qed.

Lemma check_cases_some ms cs : (exists l, check_cases ms cs = Some l) <->
  forall t b, In (Case (Some t) b) cs -> exists i, find_index ms t = Some i.
Proof.
  induction cs as [|c r IH]; cbn.
  - split; [intros _ t b []|eauto].
  - split.
    + intros [l H]. destruct (check_case ms c) eqn:E; [|discriminate]. destruct (check_cases ms r) eqn:R; [|discriminate].
      intros t b [->|I]; [|apply (proj1 IH (ex_intro _ _ eq_refl) t b I)].
      unfold check_case in E. cbn in E. destruct (find_index ms t); [eauto|discriminate].
    + intros H. destruct (proj2 IH) as [l ->]; [intros t b I; apply (H t b); auto|].
      destruct c as [[t|] b]; unfold check_case; cbn; [|eauto]. destruct (H t b) as [i ->]; eauto.
Qed.

(** ** Runs *)
Definition relc ms (c : case) (x : option nat * nat) : Prop := check_case ms c = Some x.

Lemma check_cases_rel ms cs : forall l, check_cases ms cs = Some l <-> Forall2 (relc ms) cs l.
Proof.
  unfold relc. induction cs as [|c r IH]; cbn; intros l.
  - split; [intros [= <-]; constructor|inversion 1; reflexivity].
  - split.
    + destruct (check_case ms c) eqn:E; [|discriminate]. destruct (check_cases ms r) eqn:R; [|discriminate].
      intros [= <-]. constructor; [exact E|]. apply IH. reflexivity.
    + inversion 1 as [|? ? ? ? A B]; subst. rewrite A. apply IH in B. rewrite B. reflexivity.
Qed.

Lemma f2_nth {A B} (R : A -> B -> Prop) l m : Forall2 R l m -> forall i,
  match nth_error l i, nth_error m i with Some x, Some y => R x y | None, None => True | _, _ => False end.
Proof. induction 1; intros [|i]; cbn; auto. apply IHForall2. Qed.

Lemma c_accepts_iff l : c_accepts l = true <->
  forall i j x y, i < j -> nth_error l i = Some x -> nth_error l j = Some y -> fst x <> fst y.
Proof.
  induction l as [|[k b] r IH]; cbn [c_accepts].
  - split; [intros _ [|i] j ? ? _ H; discriminate|reflexivity].
  - assert (L : forall a c, label_eqb a c = true <-> a = c).
    { intros [a|] [c|]; cbn; try (split; congruence). rewrite Nat.eqb_eq. split; congruence. }
    rewrite andb_true_iff, IH, negb_true_iff. split.
    + intros [A B] [|i] [|j] x y Q X Y; try lia; cbn in X, Y.
      * injection X as <-. cbn. intros E.
        assert (T : existsb (fun x => label_eqb k (fst x)) r = true); [|congruence].
        apply existsb_exists. exists y. split; [apply nth_error_In in Y; exact Y|]. apply L, E.
      * apply (B i j); auto. lia.
    + intros H. split.
      * destruct (existsb (fun x => label_eqb k (fst x)) r) eqn:E; [|reflexivity].
        apply existsb_exists in E as (y & I & E). apply L in E. apply In_nth_error in I as [j J].
        destruct (H 0 (S j) (k, b) y); auto. lia.
      * intros i j x y Q X Y. apply (H (S i) (S j)); auto. lia.
Qed.

Lemma labelled_some tag l i b : labelled tag l = Some (i, b) -> i = tag /\ In (Some tag, b) l.
Proof.
  induction l as [|[[k|] c] r IH]; cbn; [discriminate| |]; [|intros H; apply IH in H as [-> H]; auto].
  destruct (Nat.eqb_spec k tag) as [->|N]; [intros [= <- <-]; auto|]. intros H. apply IH in H as [-> H]; auto.
Qed.

Lemma labelled_none tag l : labelled tag l = None -> forall b, ~ In (Some tag, b) l.
Proof.
  induction l as [|[[k|] c] r IH]; cbn; intros H b; [tauto| |].
  - destruct (Nat.eqb_spec k tag) as [->|N]; [discriminate|]. intros [[= -> _]|I]; [congruence|]. eapply IH; eauto.
  - intros [[= ]|I]. eapply IH; eauto.
Qed.

Lemma default_some l b : default_of l = Some b -> In (None, b) l.
Proof. induction l as [|[[k|] c] r IH]; cbn; [discriminate| |]; [auto|]. intros [= ->]. auto. Qed.

Lemma default_none l : default_of l = None -> forall b, ~ In (None, b) l.
Proof.
  induction l as [|[[k|] c] r IH]; cbn; intros H b; [tauto| |discriminate]. intros [[= ]|I]. eapply IH; eauto.
Qed.

Lemma f2_in_l {A B} (R : A -> B -> Prop) l m x : Forall2 R l m -> In x l -> exists y, In y m /\ R x y.
Proof. induction 1; cbn; [tauto|]. intros [->|I]; [eauto|]. destruct (IHForall2 I) as (z & Z & Q). eauto. Qed.
Lemma f2_in_r {A B} (R : A -> B -> Prop) l m y : Forall2 R l m -> In y m -> exists x, In x l /\ R x y.
Proof. induction 1; cbn; [tauto|]. intros [->|I]; [eauto|]. destruct (IHForall2 I) as (z & Z & Q). eauto. Qed.

Lemma run_should {V} ms cs l t n i (v : V) : check_cases ms cs = Some l -> names t n -> find_index ms t = Some i ->
  should cs n v (run l (i, v)).
Proof.
  intros C N F. apply check_cases_rel in C.
  assert (K : forall b, In (Some i, b) l <-> case_for cs n b).
  { intros b. split.
    - intros I. destruct (f2_in_r _ _ _ _ C I) as ([[s|] b'] & J & E); unfold relc, check_case in E; cbn in E; [|discriminate].
      destruct (find_index ms s) eqn:G; [|discriminate]. injection E as -> ->. exists s. split; [exact J|].
      destruct (names_some s) as [m M]. rewrite (find_inj ms t s n m i); auto.
    - intros (s & J & M). destruct (f2_in_l _ _ _ _ C J) as (y & Y & E). unfold relc, check_case in E. cbn in E.
      rewrite (find_same ms s t n M N), F in E. injection E as <-. exact Y. }
  assert (D : forall b, In (None, b) l <-> default_is cs b).
  { intros b. split.
    - intros I. destruct (f2_in_r _ _ _ _ C I) as ([[s|] b'] & J & E); unfold relc, check_case in E; cbn in E.
      + destruct (find_index ms s); discriminate.
      + injection E as ->. exact J.
    - intros J. destruct (f2_in_l _ _ _ _ C J) as (y & Y & E). unfold relc, check_case in E. cbn in E.
      injection E as <-. exact Y. }
  unfold run. cbn [fst]. destruct (labelled i l) as [[k b]|] eqn:L.
  - apply labelled_some in L as [-> I]. unfold read. cbn. rewrite Nat.eqb_refl. constructor. apply K, I.
  - assert (Z : forall b', ~ case_for cs n b') by (intros b' X; apply K in X; exact (labelled_none _ _ L _ X)).
    destruct (default_of l) as [b|] eqn:Q.
    + apply s_default; [exact Z|]. apply D, default_some, Q.
    + apply s_none; [exact Z|]. intros b' X. apply D in X. exact (default_none _ Q _ X).
Qed.

Lemma accepts_apart ms cs l : check_cases ms cs = Some l -> (c_accepts l = true <-> apart cs).
Proof.
  intros C. apply check_cases_rel in C. rewrite c_accepts_iff.
  assert (A : forall i j c d x y, nth_error cs i = Some c -> nth_error cs j = Some d -> nth_error l i = Some x -> nth_error l j = Some y ->
     (fst x <> fst y <-> match c_type c, c_type d with None, None => False | Some s, Some t => forall n, names s n -> ~ names t n | _, _ => True end)).
  { intros i j c d x y X Y X' Y'.
    pose proof (f2_nth _ _ _ C i) as P. rewrite X, X' in P. pose proof (f2_nth _ _ _ C j) as Q. rewrite Y, Y' in Q.
    unfold relc, check_case in P, Q. destruct (c_type c) as [s|], (c_type d) as [t|].
    - destruct (find_index ms s) as [a|] eqn:FA; [|discriminate]. destruct (find_index ms t) as [b|] eqn:FB; [|discriminate].
      injection P as <-. injection Q as <-. cbn. split.
      + intros NE n S T. apply NE. rewrite (find_same ms s t n S T) in FA. congruence.
      + intros H [= E]. subst b. destruct (names_some s) as [n S]. destruct (names_some t) as [m T].
        assert (n = m) by (eapply find_inj; eauto). subst m. exact (H n S T).
    - destruct (find_index ms s); [|discriminate]. injection P as <-. injection Q as <-. cbn. split; [auto|discriminate].
    - destruct (find_index ms t); [|discriminate]. injection P as <-. injection Q as <-. cbn. split; [auto|discriminate].
    - injection P as <-. injection Q as <-. cbn. split; [congruence|tauto]. }
  split.
  - intros H i j c d NE X Y.
    pose proof (f2_nth _ _ _ C i) as P. rewrite X in P. destruct (nth_error l i) as [x|] eqn:X'; [|tauto].
    pose proof (f2_nth _ _ _ C j) as Q. rewrite Y in Q. destruct (nth_error l j) as [y|] eqn:Y'; [|tauto].
    apply (A i j c d x y X Y X' Y'). destruct (Nat.lt_ge_cases i j) as [L|L].
    + apply (H i j); auto.
    + intros E. symmetry in E. revert E. apply (H j i); auto. lia.
  - intros H i j x y L X' Y'.
    pose proof (f2_nth _ _ _ C i) as P. rewrite X' in P. destruct (nth_error cs i) as [c|] eqn:X; [|tauto].
    pose proof (f2_nth _ _ _ C j) as Q. rewrite Y' in Q. destruct (nth_error cs j) as [d|] eqn:Y; [|tauto].
    apply (A i j c d x y X Y X' Y'). apply (H i j); auto. lia.
Qed.
