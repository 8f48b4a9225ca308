(** Proofs about the expansion of macros. *)
From Coq Require Import Bool List Arith Lia.
Import ListNotations.
From Verif Require Import ExpandModel ExpandSpec.

Scheme expands_m := Induction for expands Sort Prop
with expands_all_m := Induction for expands_all Sort Prop.
Combined Scheme expands_mind from expands_m, expands_all_m.

Definition all_calls (P : nat -> Prop) (es : list expr) : Prop := Forall (calls P) es.
Lemma calls_call P m args : calls P (Call m args) <-> P m /\ all_calls P args.
Proof.
  simpl. unfold all_calls. assert (E : (fix all es := match es with [] => True | e :: es => calls P e /\ all es end) args
    <-> Forall (calls P) args).
  { induction args as [|e es IH]; [split; auto|]. rewrite Forall_cons_iff, IH. tauto. }
  tauto.
Qed.

Lemma assoc_in {A} n (l : list (nat * A)) x : assoc n l = Some x -> In (n, x) l.
Proof.
  induction l as [|[m y] l IH]; [discriminate|]. simpl. destruct (Nat.eqb_spec m n); [intros [= ->]; subst; auto|auto].
Qed.
Lemma assoc_none {A} n (l : list (nat * A)) : assoc n l = None <-> ~ In n (map fst l).
Proof.
  induction l as [|[m y] l IH]; simpl; [tauto|]. destruct (Nat.eqb_spec m n); [split; [discriminate|tauto]|].
  rewrite IH. tauto.
Qed.
Lemma assoc_perm {A} n (l k : list (nat * A)) : NoDup (map fst l) -> (forall x, In x l <-> In x k) -> NoDup (map fst k) ->
  assoc n l = assoc n k.
Proof.
  intros N H M. assert (U : forall (k : list (nat * A)) x y, NoDup (map fst k) -> In (n, x) k -> In (n, y) k -> x = y).
  { clear. induction k as [|[m z] k IH]; simpl; [tauto|]. intros x y N. inversion N; subst.
    intros [a|a] [b|b]; try congruence; eauto.
    - inversion a; subst. destruct H1. apply (in_map fst) in b. exact b.
    - inversion b; subst. destruct H1. apply (in_map fst) in a. exact a. }
  destruct (assoc n l) as [x|] eqn:E; destruct (assoc n k) as [y|] eqn:F; auto.
  - f_equal. apply (U k); [exact M|apply H, assoc_in, E|apply assoc_in, F].
  - apply assoc_in in E. apply H in E. apply assoc_none in F. destruct F. apply (in_map fst) in E. exact E.
  - apply assoc_in in F. apply H in F. apply assoc_none in E. destruct E. apply (in_map fst) in F. exact F.
Qed.

Section G.
Variable G : macros.
Hypothesis T : tidy G.

(** Nothing in it is a macro or a parameter. *)
Definition stable (e : expr) : Prop := calls (fun n => ~ is_macro G n /\ ~ is_param G n) e.
Definition keys (s : scope) : list nat := map fst s.
Definition env_ok (env : list scope) : Prop := Forall (fun s => forall n, In n (keys s) -> is_param G n) env.

Lemma find_none n env : env_ok env -> ~ is_param G n -> find n env = None.
Proof.
  intros E N. induction E as [|s env H _ IH]; [reflexivity|]. simpl.
  destruct (assoc n s) eqn:A; [|exact IH]. apply assoc_in, (in_map fst), H in A. destruct (N A).
Qed.

(** * Expanded code stays as it is. *)
Lemma stable_fix fuel : forall env v w, env_ok env -> stable v -> visit fuel G env v = Ok w -> w = v.
Proof.
  induction fuel as [|fuel IH]; intros env v w E S V; [discriminate|]. destruct v as [n|a b|m args]; cbn [visit] in V.
  - congruence.
  - destruct S as [Sa Sb]. destruct (visit fuel G env a) as [| |a'] eqn:A; try discriminate.
    destruct (visit fuel G env b) as [| |b'] eqn:B; try discriminate. cbn [bind] in V. inversion V.
    f_equal; eauto.
  - apply calls_call in S as [[M P] S].
    assert (X : forall args', visits (visit fuel G env) args = Ok args' -> args' = args).
    { clear V. induction S as [|e es Se Ss IHs]; intros args' V; simpl in V; [congruence|].
      destruct (visit fuel G env e) as [| |e'] eqn:A; try discriminate. cbn [bind] in V.
      destruct (visits (visit fuel G env) es) as [| |es'] eqn:B; try discriminate. cbn [bind] in V. inversion V.
      f_equal; eauto. }
    destruct (visits (visit fuel G env) args) as [| |args'] eqn:A; try discriminate. cbn [bind] in V.
    destruct (assoc m G) eqn:AG; [destruct M; unfold is_macro; congruence|].
    rewrite find_none in V by assumption. inversion V. f_equal. auto.
Qed.
Lemma define_fix fuel env args : forall s ps s', env_ok env -> (forall n, In n (keys s) -> is_param G n) ->
  (forall n, In n ps -> is_param G n) -> Forall stable args -> length args = length ps ->
  define (fun s => visit fuel G (s :: env)) s ps args = Ok s' -> NoDup (keys s) ->
  s' = rev (combine ps args) ++ s /\ NoDup (keys s').
Proof.
  induction args as [|a args IH]; intros s [|p ps] s' E K P S L D N; simpl in L; try discriminate.
  - simpl in D. inversion D; subst. auto.
  - inversion S; subst. simpl in D. destruct (visit fuel G (s :: env) a) as [| |a'] eqn:A; try discriminate.
    cbn [bind] in D. apply stable_fix in A; [|constructor; assumption|assumption]. subst a'.
    destruct (assoc p s) eqn:B; [discriminate|]. apply assoc_none in B.
    apply IH in D; auto.
    + simpl. rewrite <- app_assoc. exact D.
    + intros n [<-|X]; [apply P; left; reflexivity|apply K, X].
    + intros n X. apply P. right. exact X.
    + simpl. constructor; assumption.
Qed.

(** Code under way: its environment gives the parameters [s], all expanded. *)
Definition state_ok (s : scope) (env : list scope) : Prop :=
  env_ok env /\ Forall (fun x => stable (snd x)) s /\ (forall n, In n (keys s) -> is_param G n) /\
  (forall n, In n (keys s) \/ ~ is_param G n -> find n env = assoc n s).
Lemma param_not_macro n : is_param G n -> assoc n G = None.
Proof.
  intros (m & d & A & I). destruct (T m d A) as (_ & D & _). specialize (D n I). unfold is_macro in D.
  destruct (assoc n G); [destruct D; discriminate|reflexivity].
Qed.
Lemma keys_combine ps (args : list expr) : length args = length ps -> keys (combine ps args) = ps.
Proof. revert args. induction ps; intros [|a' args]; simpl; intros; try discriminate; [reflexivity|]. f_equal. auto. Qed.

(** The state inside the body of a macro *)
Lemma enter m d args s' s0 env fuel : assoc m G = Some d -> env_ok env -> Forall stable args -> length args = length (m_params d) ->
  s' = rev (combine (m_params d) args) ++ [] -> NoDup (keys s') -> s0 = combine (m_params d) args -> fuel = 0 ->
  state_ok s0 (s' :: env).
Proof.
  intros A E S L D N -> _. rewrite app_nil_r in D. subst s'.
  assert (P : forall n, In n (m_params d) -> is_param G n) by (intros n H; exists m, d; auto).
  assert (N0 : NoDup (keys (combine (m_params d) args))) by (rewrite keys_combine by exact L; apply (T m d A)).
  assert (Q : forall n, assoc n (rev (combine (m_params d) args)) = assoc n (combine (m_params d) args)).
  { intros n. apply assoc_perm; [exact N|intros x; symmetry; apply in_rev|exact N0]. }
  repeat split.
  - constructor; [|exact E]. intros n H. unfold keys in H. rewrite map_rev in H. apply in_rev in H.
    fold (keys (combine (m_params d) args)) in H. rewrite keys_combine in H by exact L. auto.
  - apply Forall_forall. intros [p v] H. apply in_combine_r in H. rewrite Forall_forall in S. auto.
  - intros n H. rewrite keys_combine in H by exact L. auto.
  - intros n H. simpl. rewrite Q. destruct (assoc n (combine (m_params d) args)) eqn:X; [reflexivity|].
    apply assoc_none in X. fold (keys (combine (m_params d) args)) in X. destruct H as [H|H]; [destruct (X H)|].
    apply find_none; assumption.
Qed.

(** * Whatever the compiler ends with is the expansion, and contains no macros. *)
Lemma visit_sound fuel : forall s env e w, state_ok s env -> scoped G (keys s) e -> visit fuel G env e = Ok w ->
  expands G s e w /\ stable w.
Proof.
  induction fuel as [|fuel IH]; intros s env e w O S V; [discriminate|]. destruct e as [n|a b|m args]; cbn [visit] in V.
  - inversion V. split; [constructor|exact I].
  - destruct S as [Sa Sb]. destruct (visit fuel G env a) as [| |a'] eqn:A; try discriminate.
    destruct (visit fuel G env b) as [| |b'] eqn:B; try discriminate. cbn [bind] in V. inversion V.
    destruct (IH s env a a' O Sa A). destruct (IH s env b b' O Sb B). split; [constructor|split]; assumption.
  - apply calls_call in S as [M S].
    assert (X : forall args', visits (visit fuel G env) args = Ok args' -> expands_all G s args args' /\ Forall stable args').
    { clear V. induction S as [|e es Se Ss IHs]; intros args' V; simpl in V.
      - inversion V. split; constructor.
      - destruct (visit fuel G env e) as [| |e'] eqn:A; try discriminate. cbn [bind] in V.
        destruct (visits (visit fuel G env) es) as [| |es'] eqn:B; try discriminate. cbn [bind] in V. inversion V.
        destruct (IHs es' eq_refl). destruct (IH s env e e' O Se A). split; constructor; assumption. }
    destruct (visits (visit fuel G env) args) as [| |args'] eqn:A; try discriminate. cbn [bind] in V.
    destruct (X args' eq_refl) as [XA XS]. destruct O as (E & SS & K & F).
    destruct (assoc m G) as [d|] eqn:AG.
    + assert (N : assoc m s = None).
      { apply assoc_none. intros H. apply K in H. apply param_not_macro in H. congruence. }
      destruct (Nat.eqb_spec (length args') (length (m_params d))) as [L|L]; [|discriminate].
      destruct (define (fun s => visit fuel G (s :: env)) [] (m_params d) args') as [| |s'] eqn:D; try discriminate.
      cbn [bind] in V. destruct (define_fix fuel env args' [] (m_params d) s') as [D1 D2]; auto.
      * intros n [].
      * intros n H. exists m, d. auto.
      * constructor.
      * assert (O' : state_ok (combine (m_params d) args') (s' :: env)) by (eapply enter; eauto).
        assert (B : scoped G (keys (combine (m_params d) args')) (m_body d))
          by (rewrite keys_combine by exact L; apply (T m d AG)).
        destruct (IH _ _ _ _ O' B V) as [Y Z]. split; [|exact Z]. eapply x_macro; eauto.
    + rewrite (F m M) in V. destruct (assoc m s) as [v|] eqn:AS.
      * assert (Sv : stable v) by (rewrite Forall_forall in SS; exact (SS (m, v) (assoc_in _ _ _ AS))).
        apply stable_fix in V; [|exact E|exact Sv]. subst w. split; [|exact Sv]. eapply x_param; eauto.
      * inversion V. split; [apply x_other; auto|]. apply calls_call. split; [|exact XS]. split.
        -- unfold is_macro. congruence.
        -- destruct M as [M|M]; [|exact M]. apply assoc_none in AS. destruct (AS M).
Qed.

(** * Fuel *)
Lemma visits_mono (f g : expr -> res expr) es : (forall e w, f e = Ok w -> g e = Ok w) ->
  forall ws, visits f es = Ok ws -> visits g es = Ok ws.
Proof.
  intros H. induction es as [|e es IH]; intros ws V; simpl in *; [exact V|].
  destruct (f e) as [| |e'] eqn:A; try discriminate. cbn [bind] in V.
  destruct (visits f es) as [| |es'] eqn:B; try discriminate. cbn [bind] in V.
  rewrite (H _ _ A). cbn [bind]. rewrite (IH _ eq_refl). exact V.
Qed.
Lemma define_mono (f g : scope -> expr -> res expr) args : (forall s e w, f s e = Ok w -> g s e = Ok w) ->
  forall s ps s', define f s ps args = Ok s' -> define g s ps args = Ok s'.
Proof.
  intros H. induction args as [|a args IH]; intros s [|p ps] s' V; simpl in *; try exact V.
  destruct (f s a) as [| |a'] eqn:A; try discriminate. rewrite (H _ _ _ A). cbn [bind] in *.
  destruct (assoc p s); [discriminate|]. auto.
Qed.
Lemma visit_step fuel : forall env e w, visit fuel G env e = Ok w -> visit (S fuel) G env e = Ok w.
Proof.
  induction fuel as [|fuel IH]; intros env e w V; [discriminate|]. destruct e as [n|a b|m args].
  - exact V.
  - cbn [visit] in V. destruct (visit fuel G env a) as [| |a'] eqn:A; try discriminate. cbn [bind] in V.
    destruct (visit fuel G env b) as [| |b'] eqn:B; try discriminate. cbn [bind] in V.
    change (bind (visit (S fuel) G env a) (fun a' => bind (visit (S fuel) G env b) (fun b' => Ok (Node a' b'))) = Ok w).
    rewrite (IH _ _ _ A), (IH _ _ _ B). exact V.
  - cbn [visit] in V. destruct (visits (visit fuel G env) args) as [| |args'] eqn:A; try discriminate. cbn [bind] in V.
    change (bind (visits (visit (S fuel) G env) args) (fun args' =>
            match assoc m G with
            | Some d =>
                if length args' =? length (m_params d) then
                  bind (define (fun s => visit (S fuel) G (s :: env)) [] (m_params d) args') (fun s =>
                    visit (S fuel) G (s :: env) (m_body d))
                else Err
            | None => match find m env with Some a => visit (S fuel) G env a | None => Ok (Call m args') end
            end) = Ok w).
    rewrite (visits_mono _ (visit (S fuel) G env) args (IH env) args' A). cbn [bind].
    destruct (assoc m G) as [d|].
    + destruct (length args' =? length (m_params d)); [|discriminate].
      destruct (define (fun s => visit fuel G (s :: env)) [] (m_params d) args') as [| |s'] eqn:D; try discriminate.
      rewrite (define_mono _ (fun s => visit (S fuel) G (s :: env)) args' (fun s => IH (s :: env)) [] _ s' D).
      cbn [bind] in *. auto.
    + destruct (find m env); auto.
Qed.
Lemma visit_mono fuel fuel' env e w : fuel <= fuel' -> visit fuel G env e = Ok w -> visit fuel' G env e = Ok w.
Proof. induction 1; auto using visit_step. Qed.

Lemma expr_nested (P : expr -> Prop) : (forall n, P (Lit n)) -> (forall a b, P a -> P b -> P (Node a b)) ->
  (forall m args, Forall P args -> P (Call m args)) -> forall e, P e.
Proof.
  intros L N C. fix F 1. intros [n|a b|m args].
  - apply L.
  - apply N; apply F.
  - apply C. induction args; constructor; [apply F|assumption].
Qed.
Lemma stable_ends v : stable v -> exists fuel, forall env, env_ok env -> visit fuel G env v = Ok v.
Proof.
  induction v as [n|a b IHa IHb|m args IH] using expr_nested; intros S.
  - exists 1. reflexivity.
  - destruct S as [Sa Sb]. destruct (IHa Sa) as [x X]. destruct (IHb Sb) as [y Y]. exists (Datatypes.S (max x y)). intros env E.
    cbn [visit]. rewrite (visit_mono x (max x y) env a a) by (auto; lia).
    rewrite (visit_mono y (max x y) env b b) by (auto; lia). reflexivity.
  - apply calls_call in S as [[M P] S].
    assert (X : exists fuel, forall env, env_ok env -> visits (visit fuel G env) args = Ok args).
    { clear M P. induction args as [|e es IHs]; [exists 0; reflexivity|]. inversion IH; inversion S; subst.
      destruct (H1 H5) as [x X]. destruct (IHs H2 H6) as [y Y]. exists (max x y). intros env E. simpl.
      rewrite (visit_mono x (max x y) env e e) by (auto; lia). cbn [bind].
      rewrite (visits_mono (visit y G env) (visit (max x y) G env) es) with (ws := es); auto.
      intros. eapply visit_mono; [|eassumption]. lia. }
    destruct X as [x X]. exists (Datatypes.S x). intros env E. cbn [visit]. rewrite (X env E). cbn [bind].
    destruct (assoc m G) eqn:A; [destruct M; unfold is_macro; congruence|]. rewrite find_none by assumption. reflexivity.
Qed.
Lemma define_ends args : Forall stable args -> exists fuel, forall env s ps, env_ok env ->
  (forall n, In n (keys s) -> is_param G n) -> (forall n, In n ps -> is_param G n) -> NoDup ps ->
  (forall n, In n ps -> ~ In n (keys s)) -> length args = length ps ->
  define (fun s => visit fuel G (s :: env)) s ps args = Ok (rev (combine ps args) ++ s).
Proof.
  induction 1 as [|a args Sa _ IH].
  - exists 0. intros env s [|p ps]; [reflexivity|discriminate].
  - destruct (stable_ends a Sa) as [x X]. destruct IH as [y Y]. exists (max x y).
    intros env s [|p ps] E K P N D L; [discriminate|]. simpl.
    rewrite (visit_mono x (max x y) (s :: env) a a) by (auto; try lia; apply X; constructor; assumption). cbn [bind].
    destruct (assoc p s) eqn:A.
    + apply assoc_in, (in_map fst) in A. destruct (D p); [left; reflexivity|exact A].
    + inversion N; subst. rewrite <- app_assoc. simpl.
      apply define_mono with (f := fun s => visit y G (s :: env)).
      * intros. eapply visit_mono; [|eassumption]. lia.
      * apply Y; auto.
        -- intros n [<-|H]; [apply P; left; reflexivity|apply K, H].
        -- intros n H. apply P. right. exact H.
        -- intros n H [<-|H']; [simpl in *; tauto|]. apply (D n); [right; exact H|exact H'].
Qed.

(** * The compiler gets there. *)
Lemma visit_complete :
  (forall s e w, expands G s e w -> scoped G (keys s) e -> forall env, state_ok s env ->
    exists fuel, visit fuel G env e = Ok w) /\
  (forall s es ws, expands_all G s es ws -> Forall (scoped G (keys s)) es -> forall env, state_ok s env ->
    exists fuel, visits (visit fuel G env) es = Ok ws).
Proof.
  apply (expands_mind G (fun s e w _ => scoped G (keys s) e -> forall env, state_ok s env -> exists fuel, visit fuel G env e = Ok w)
    (fun s es ws _ => Forall (scoped G (keys s)) es -> forall env, state_ok s env -> exists fuel, visits (visit fuel G env) es = Ok ws)).
  - intros. exists 1. reflexivity.
  - intros s a b a' b' _ IHa _ IHb [Sa Sb] env O. destruct (IHa Sa env O) as [x X]. destruct (IHb Sb env O) as [y Y].
    exists (Datatypes.S (max x y)). cbn [visit]. rewrite (visit_mono x (max x y) env a a') by (auto; lia).
    rewrite (visit_mono y (max x y) env b b') by (auto; lia). reflexivity.
  - intros s m args args' v A _ IH S env O. apply calls_call in S as [M S]. destruct (IH S env O) as [x X].
    pose proof O as (E & SS & K & F).
    assert (Sv : stable v) by (rewrite Forall_forall in SS; exact (SS (m, v) (assoc_in _ _ _ A))).
    destruct (stable_ends v Sv) as [y Y]. exists (Datatypes.S (max x y)). cbn [visit].
    rewrite (visits_mono (visit x G env) (visit (max x y) G env) args) with (ws := args'); auto.
    2: { intros. eapply visit_mono; [|eassumption]. lia. }
    cbn [bind]. rewrite param_not_macro by (apply K; apply assoc_in, (in_map fst) in A; exact A).
    rewrite (F m M), A. apply visit_mono with (fuel := y); [lia|apply Y, E].
  - intros s m args args' d v N A XA IH L _ IHb S env O. apply calls_call in S as [M S]. destruct (IH S env O) as [x X].
    pose proof O as (E & SS & K & F).
    assert (Sa : Forall stable args').
    { clear - X O S T. revert args' X. induction S as [|e es Se _ IHs]; intros ws X; simpl in X.
      - inversion X. constructor.
      - destruct (visit x G env e) as [| |e'] eqn:B; try discriminate. cbn [bind] in X.
        destruct (visits (visit x G env) es) as [| |es'] eqn:C; try discriminate. cbn [bind] in X. inversion X.
        constructor; [|apply IHs; reflexivity]. eapply visit_sound; eauto. }
    destruct (define_ends args' Sa) as [y Y].
    assert (D : define (fun s => visit y G (s :: env)) [] (m_params d) args' = Ok (rev (combine (m_params d) args') ++ [])).
    { apply Y; auto.
      - intros n [].
      - intros n H. exists m, d. auto.
      - apply (T m d A). }
    assert (ND : NoDup (keys (rev (combine (m_params d) args') ++ []))).
    { rewrite app_nil_r. unfold keys. rewrite map_rev. apply NoDup_rev. fold (keys (combine (m_params d) args')).
      rewrite keys_combine by exact L. apply (T m d A). }
    assert (O' : state_ok (combine (m_params d) args') ((rev (combine (m_params d) args') ++ []) :: env))
      by (eapply enter; eauto).
    assert (B : scoped G (keys (combine (m_params d) args')) (m_body d))
      by (rewrite keys_combine by exact L; apply (T m d A)).
    destruct (IHb B _ O') as [z Z].
    exists (Datatypes.S (max x (max y z))). cbn [visit].
    rewrite (visits_mono (visit x G env) (visit (max x (max y z)) G env) args) with (ws := args'); auto.
    2: { intros. eapply visit_mono; [|eassumption]. lia. }
    cbn [bind]. rewrite A. destruct (Nat.eqb_spec (length args') (length (m_params d))); [|contradiction].
    rewrite (define_mono _ (fun s => visit (max x (max y z)) G (s :: env)) args') with (1 := fun s e w H => visit_mono y (max x (max y z)) (s :: env) e w ltac:(lia) H) (2 := D).
    cbn [bind]. apply visit_mono with (fuel := z); [lia|exact Z].
  - intros s m args args' N A _ IH S env O. apply calls_call in S as [M S]. destruct (IH S env O) as [x X].
    pose proof O as (E & SS & K & F). exists (Datatypes.S x). cbn [visit]. rewrite X. cbn [bind]. rewrite A, (F m M), N. reflexivity.
  - intros. exists 0. reflexivity.
  - intros s e es e' es' _ IHe _ IHs S env O. inversion S; subst. destruct (IHe H1 env O) as [x X].
    destruct (IHs H2 env O) as [y Y]. exists (max x y). simpl. rewrite (visit_mono x (max x y) env e e') by (auto; lia).
    cbn [bind]. rewrite (visits_mono (visit y G env) (visit (max x y) G env) es) with (ws := es'); auto.
    intros. eapply visit_mono; [|eassumption]. lia.
Qed.
Lemma start_ok : state_ok [] [[]].
Proof.
  repeat split.
  - constructor; [|constructor]. intros n [].
  - constructor.
  - intros n [].
Qed.
End G.
