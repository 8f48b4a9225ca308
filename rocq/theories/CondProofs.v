(** Proofs about conditional blocks and imports. *)
From Coq Require Import Bool List Arith Lia.
Import ListNotations.
From Verif Require Import CondModel CondSpec.

Definition no_as (ts : list tok) : Prop := match ts with KAs :: _ => False | _ => True end.
Definition no_else (ts : list tok) : Prop := match ts with KElse :: _ => False | _ => True end.

Lemma entity_ok e r : no_as r -> parse_entity (w_entity e ++ r) = Ok (m_entity e) r.
Proof.
  destruct e as [n [a|]]; unfold w_entity; simpl; [reflexivity|]. intros H. unfold parse_entity. simpl.
  destruct r as [|[] r]; try reflexivity. destruct H.
Qed.
Lemma entities_step fuel e u : parse_entities (S fuel) (w_entity e ++ u) =
  bind (parse_entity (w_entity e ++ u)) (fun e r =>
    match r with
    | KComma :: r => bind (parse_entities fuel r) (fun es r => Ok (e :: es) r)
    | KRBrace :: _ => Ok [e] r
    | _ => Fail
    end).
Proof. reflexivity. Qed.
Lemma entity_brace e : ~ In KRBrace (w_entity e).
Proof. destruct e as [n [a|]]; unfold w_entity; simpl; intuition discriminate. Qed.
Lemma body_one e m r : parse_import_body (w_entity e ++ KFrom :: KStr m :: r) = Ok [NImport [m_entity e] m None] r.
Proof. destruct e as [n [a|]]; reflexivity. Qed.
Lemma not_test e r : parse_import false (w_entity e ++ r) = parse_import_body (w_entity e ++ r).
Proof. reflexivity. Qed.
Lemma test_one n m r : no_as r -> skip_import_test (w_entity (Entity n None) ++ KFrom :: KStr m :: r) = Ok tt r.
Proof. intros H. unfold w_entity. simpl. destruct r as [|[] r]; try reflexivity. destruct H. Qed.
Lemma test_alias n a r : skip_import_test (w_entity (Entity n (Some a)) ++ r) = Fail.
Proof. reflexivity. Qed.
Local Opaque w_entity.
Lemma entities_ok es : forall e r fuel, length es < fuel ->
  parse_entities fuel (w_entity e ++ w_more es ++ KRBrace :: r) = Ok (map m_entity (e :: es)) (KRBrace :: r).
Proof.
  induction es as [|e' es IH]; intros e r [|fuel] F; simpl in F; try lia; rewrite entities_step.
  - cbn [w_more]. rewrite entity_ok by exact I. reflexivity.
  - cbn [w_more]. rewrite <- app_comm_cons, <- app_assoc. rewrite entity_ok by exact I. cbn [bind].
    rewrite (IH e' r fuel) by lia. reflexivity.
Qed.
Lemma len_more es : length es <= length (w_more es).
Proof. induction es as [|e es IH]; simpl; [lia|]. rewrite app_length. lia. Qed.

Lemma skip_until_app k pre r : ~ In k pre -> skip_until k (pre ++ k :: r) = k :: r.
Proof.
  induction pre as [|t pre IH]; simpl; intros H.
  - destruct (tok_beq k k) eqn:E; [reflexivity|]. rewrite (internal_tok_dec_lb k k eq_refl) in E. discriminate.
  - destruct (tok_beq t k) eqn:E; [apply internal_tok_dec_bl in E; tauto|]. apply IH. tauto.
Qed.
Lemma more_brace es : ~ In KRBrace (w_more es).
Proof.
  induction es as [|e es IH]; [simpl; tauto|]. intros [H|H]; [discriminate|]. fold w_more in H.
  apply in_app_iff in H as [H|H]; [exact (entity_brace _ H)|tauto].
Qed.

Lemma body_ok es m a r : wf (DImport false es m a) -> no_as r ->
  parse_import_body (match es with
      | ENone => []
      | EOne e => w_entity e ++ [KFrom]
      | EMany e es => KLBrace :: w_entity e ++ w_more es ++ [KRBrace; KFrom]
      end ++ KStr m :: match a with Some a => [KAs; KIdent a] | None => [] end ++ r) =
  Ok [NImport (match es with ENone => [] | EOne e => [m_entity e] | EMany e es => map m_entity (e :: es) end) m a] r.
Proof.
  intros W H. destruct es as [|e|e es]; simpl in W.
  - unfold parse_import_body. simpl. destruct a; [reflexivity|]. simpl. destruct r as [|[] r]; try reflexivity. destruct H.
  - subst a. rewrite <- app_assoc. simpl app. apply body_one.
  - subst a. simpl app. rewrite <- !app_assoc. simpl app. unfold parse_import_body. cbv iota.
    rewrite entities_ok.
    + reflexivity.
    + rewrite !app_length. pose proof (len_more es). lia.
Qed.

Lemma decl_ok tm d r : wf d -> no_as r -> readable tm d -> parse_decl tm (w_decl d ++ r) = Ok (m_decl tm d) r.
Proof.
  intros W H R. destruct d as [t es m a|[] s|s|s]; try reflexivity.
  unfold w_decl. simpl app. unfold parse_decl. rewrite <- app_assoc. rewrite <- app_assoc. simpl app at 3.
  destruct t.
  - destruct tm.
    + simpl app. cbn [parse_import]. cbn [andb negb m_decl]. apply (body_ok es m a r W H).
    + destruct R as [R|R]; [discriminate|]. simpl in R.
      destruct es as [|e|e es]; [subst a|simpl in W; subst a|destruct R].
      * simpl. destruct r as [|[] r]; reflexivity.
      * destruct e as [n al]. simpl in R. subst al. unfold parse_import.
        repeat (simpl app; rewrite <- ?app_assoc). rewrite test_one by exact H. reflexivity.
  - cbn [andb m_decl]. simpl app at 1. rewrite <- (body_ok es m a r W H).
    destruct es as [|e|]; reflexivity.
Qed.

(** What happens with an import that cannot be left out *)
Lemma decl_bad d r : wf d -> no_as r -> ~ plain d ->
  parse_decl false (w_decl d ++ r) = Fail \/ exists a, parse_decl false (w_decl d ++ r) = Ok [] (KAs :: KIdent a :: r).
Proof.
  intros W H P. destruct d as [[] es m a|[] s|s|s]; try (exfalso; apply P; exact I).
  destruct es as [|e|e es].
  - right. destruct a as [a|]; [|exfalso; apply P; reflexivity]. exists a. reflexivity.
  - left. destruct e as [n [al|]]; [|exfalso; apply P; reflexivity]. unfold w_decl. simpl app.
    unfold parse_decl, parse_import. cbv iota. rewrite <- !app_assoc. rewrite test_alias. reflexivity.
  - left. unfold w_decl. simpl app. unfold parse_decl, parse_import, skip_import_test. cbv iota.
    replace ((w_entity e ++ w_more es ++ [KRBrace; KFrom]) ++ _) with
      ((w_entity e ++ w_more es) ++ KRBrace :: KFrom :: KStr m :: match a with Some a => [KAs; KIdent a] | None => [] end).
    2: { rewrite <- !app_assoc. reflexivity. }
    rewrite <- app_assoc. rewrite <- app_comm_cons. rewrite skip_until_app; [reflexivity|].
    intros X. apply in_app_iff in X as [X|X]; [exact (entity_brace _ X)|exact (more_brace _ X)].
Qed.

Lemma w_decl_head d : exists t u, w_decl d = t :: u /\ t <> KRBrace /\ t <> KAs /\ t <> KElse /\ t <> KDefine /\ t <> KLBrace.
Proof.
  destruct d as [t es m a|[] s|s|s]; simpl; do 2 eexists; (split; [reflexivity|]); repeat split; discriminate.
Qed.
Lemma w_decls_no_as ds r : no_as (w_decls ds ++ KRBrace :: r).
Proof.
  destruct ds as [|d ds]; [exact I|]. simpl. destruct (w_decl_head d) as (t & u & E & N). rewrite E. simpl.
  destruct t; try exact I. intuition congruence.
Qed.
Lemma decls_ok tm ds r fuel : length ds < fuel -> Forall wf ds -> Forall (readable tm) ds ->
  parse_decls fuel tm (w_decls ds ++ KRBrace :: r) = Ok (m_decls tm ds) (KRBrace :: r).
Proof.
  revert fuel. induction ds as [|d ds IH]; intros [|fuel] F W R; simpl in F; try lia; [reflexivity|].
  inversion W; inversion R; subst. simpl w_decls. rewrite <- app_assoc. cbn [parse_decls].
  destruct (w_decl_head d) as (t & u & E & N & _).
  pose proof (decl_ok tm d (w_decls ds ++ KRBrace :: r) H1 (w_decls_no_as _ _) H5) as P.
  rewrite E in *. simpl app in *. rewrite P. cbn [bind]. rewrite IH by (auto; lia). cbn [bind m_decls flat_map].
  destruct t; try reflexivity. congruence.
Qed.
Lemma decls_bad ds r fuel : Forall wf ds -> ~ Forall (readable false) ds ->
  parse_decls fuel false (w_decls ds ++ KRBrace :: r) = Fail.
Proof.
  revert fuel. induction ds as [|d ds IH]; intros [|fuel] W R; try reflexivity; [destruct R; constructor|].
  inversion W; subst. simpl w_decls. rewrite <- app_assoc. cbn [parse_decls].
  destruct (w_decl_head d) as (t & u & E & N & _).
  assert (G : bind (parse_decl false (w_decl d ++ w_decls ds ++ KRBrace :: r)) (fun ns r =>
               bind (parse_decls fuel false r) (fun ms r => Ok (ns ++ ms) r)) = Fail).
  { assert (D : plain d \/ ~ plain d).
    { destruct d as [[] [|[? [?|]]|] ? [?|]| | |]; simpl; auto; right; discriminate. }
    destruct D as [D|D].
    - rewrite decl_ok by (auto using w_decls_no_as; right; exact D). cbn [bind].
      rewrite IH; [reflexivity|assumption|]. intros X. apply R. constructor; [right; exact D|exact X].
    - destruct (decl_bad d (w_decls ds ++ KRBrace :: r) H1 (w_decls_no_as _ _) D) as [X|[a X]]; rewrite X; [reflexivity|].
      cbn [bind]. destruct fuel; reflexivity. }
  rewrite E in *. simpl app in *. rewrite G. destruct t; try reflexivity. congruence.
Qed.

Lemma len_decls ds : length ds <= length (w_decls ds).
Proof.
  induction ds as [|d ds IH]; simpl; [lia|]. rewrite app_length. destruct (w_decl_head d) as (t & u & E & _).
  rewrite E. simpl. lia.
Qed.
Lemma block_ok tm ds r : Forall wf ds -> Forall (readable tm) ds ->
  parse_block tm (KLBrace :: w_decls ds ++ KRBrace :: r) = Ok (m_decls tm ds) r.
Proof.
  intros W R. unfold parse_block. cbn [consume tok_beq bind]. rewrite decls_ok; auto.
  rewrite app_length. pose proof (len_decls ds). simpl. lia.
Qed.
Lemma block_bad tm ds r : Forall wf ds -> ~ Forall (readable tm) ds ->
  parse_block tm (KLBrace :: w_decls ds ++ KRBrace :: r) = Fail.
Proof.
  intros W R. destruct tm; [destruct R; apply Forall_forall; intros; left; reflexivity|].
  unfold parse_block. cbn [consume tok_beq bind]. rewrite decls_bad by auto. reflexivity.
Qed.

(** * Passing over *)
Lemma decl_brace d : braceless d -> ~ In KRBrace (w_decl d).
Proof.
  destruct d as [t [|e|e es] m a|[] s|s|s]; simpl; intros B; try destruct B; try (intuition discriminate).
  - destruct t, a; simpl; intuition discriminate.
  - pose proof (entity_brace e). destruct t, a; simpl; rewrite ?in_app_iff; simpl; intuition discriminate.
Qed.
Lemma decls_brace ds : Forall braceless ds -> ~ In KRBrace (w_decls ds).
Proof.
  induction 1 as [|d ds B _ IH]; simpl; [tauto|]. rewrite in_app_iff. pose proof (decl_brace d B). tauto.
Qed.
Lemma skip_ok ds r : Forall braceless ds -> skip_block (KLBrace :: w_decls ds ++ KRBrace :: r) = Ok tt r.
Proof.
  intros B. unfold skip_block. cbn [consume tok_beq bind]. rewrite skip_until_app by (apply decls_brace, B). reflexivity.
Qed.
(** The first braces stop it: what is left begins with [from]. *)
Lemma skip_bad ds r : ~ Forall braceless ds ->
  exists u, skip_block (KLBrace :: w_decls ds ++ KRBrace :: r) = Ok tt (KFrom :: u) /\ length r < length u.
Proof.
  intros B. cut (exists pre u, w_decls ds ++ KRBrace :: r = pre ++ KRBrace :: KFrom :: u /\ ~ In KRBrace pre /\ length r < length u).
  { intros (pre & u & E & N & L). exists u. split; [|exact L]. unfold skip_block. cbn [consume tok_beq bind].
    rewrite E, skip_until_app by exact N. reflexivity. }
  induction ds as [|d ds IH]; [destruct B; constructor|].
  assert (D : braceless d \/ ~ braceless d) by (destruct d as [? [|?|? ?] ? ?| | |]; simpl; tauto).
  destruct D as [D|D].
  - destruct IH as (pre & u & E & N & L); [intros X; apply B; constructor; assumption|].
    exists (w_decl d ++ pre), u. simpl. rewrite <- !app_assoc, E. split; [reflexivity|]. split; [|exact L].
    rewrite in_app_iff. pose proof (decl_brace d D). tauto.
  - destruct d as [t [|e|e es] m a| | |]; try (destruct D; exact I). simpl.
    exists (KImport :: (if t then [KTest] else []) ++ KLBrace :: w_entity e ++ w_more es),
      (KStr m :: match a with Some a => [KAs; KIdent a] | None => [] end ++ w_decls ds ++ KRBrace :: r).
    split.
    + repeat (rewrite <- ?app_assoc; simpl). reflexivity.
    + split.
      * simpl. rewrite in_app_iff. simpl. rewrite in_app_iff.
        pose proof (entity_brace e). pose proof (more_brace es). destruct t; simpl; intuition discriminate.
      * simpl. rewrite !app_length. simpl. lia.
Qed.

(** * Chains *)
Fixpoint depth (c : chain) : nat := match c with CIf _ _ => 1 | CElse _ _ _ => 2 | CElif _ _ c => S (depth c) end.
Definition all_wf (c : chain) : Prop := Forall (Forall wf) (branches c).

Lemma len_chain c : depth c <= length (w_chain c).
Proof. induction c; simpl; try lia; rewrite !app_length; simpl; lia. Qed.
Lemma w_if_app b ds r : w_if b ds ++ r =
  KDefine :: KIf :: KLParen :: KCond b :: KRParen :: KLBrace :: w_decls ds ++ KRBrace :: r.
Proof. unfold w_if. simpl. rewrite <- app_assoc. reflexivity. Qed.
Lemma skip_header b r : skip_until KLBrace (KIf :: KLParen :: KCond b :: KRParen :: KLBrace :: r) = KLBrace :: r.
Proof. reflexivity. Qed.

(** What follows a branch that was taken: [e_chain] is the rest of the chain after [else]. *)
Lemma elses_ok c r fuel : depth c < fuel -> no_else r -> Forall (Forall braceless) (branches c) ->
  skip_elses (S fuel) (KElse :: w_chain c ++ r) = Ok tt r.
Proof.
  revert fuel. induction c as [b ds|b ds es|b ds c IH]; intros fuel F N B; simpl in B; inversion B; subst.
  - cbn [w_chain]. rewrite w_if_app. cbn [skip_elses]. rewrite skip_header, skip_ok by assumption. cbn [bind].
    simpl in F. destruct fuel; [lia|]. destruct r as [|[] r]; try reflexivity. destruct N.
  - cbn [w_chain]. rewrite <- app_assoc, w_if_app. cbn [skip_elses]. rewrite skip_header.
    rewrite <- app_comm_cons. rewrite skip_ok by assumption. cbn [bind].
    simpl in F. destruct fuel as [|fuel]; [lia|]. cbn [skip_elses]. rewrite <- app_comm_cons, <- app_assoc. simpl app at 2.
    inversion H2; subst. rewrite skip_ok by assumption. cbn [bind]. destruct fuel as [|fuel]; [lia|].
    destruct r as [|[] r]; try reflexivity. destruct N.
  - cbn [w_chain]. rewrite <- app_assoc, w_if_app. cbn [skip_elses]. rewrite skip_header.
    rewrite <- app_comm_cons. rewrite skip_ok by assumption. cbn [bind].
    simpl in F. destruct fuel as [|fuel]; [lia|]. apply IH; auto. lia.
Qed.

Definition braceless_dec d : {braceless d} + {~ braceless d}.
Proof. destruct d as [? [|?|? ?] ? ?| | |]; simpl; auto. Defined.
Definition readable_dec tm d : {readable tm d} + {~ readable tm d}.
Proof.
  unfold readable. destruct tm; [left; auto|].
  destruct d as [[] [|[? [?|]]|] ? [?|]| | |]; simpl; auto; right; intros [?|?]; try discriminate; auto.
Defined.
Definition ds_dec ds : {Forall braceless ds} + {~ Forall braceless ds} := Forall_dec _ braceless_dec ds.

Lemma elses_from fuel u : skip_elses fuel (KFrom :: u) = Fail \/ skip_elses fuel (KFrom :: u) = Ok tt (KFrom :: u).
Proof. destruct fuel; auto. Qed.
Lemma elses_bad c r fuel : ~ Forall (Forall braceless) (branches c) ->
  skip_elses fuel (KElse :: w_chain c ++ r) = Fail \/
  exists u, skip_elses fuel (KElse :: w_chain c ++ r) = Ok tt u /\ length r < length u.
Proof.
  assert (X : forall ds t fuel, length r <= length t -> ~ Forall braceless ds ->
    let x := bind (skip_block (KLBrace :: w_decls ds ++ KRBrace :: t)) (fun _ r => skip_elses fuel r) in
    x = Fail \/ exists u, x = Ok tt u /\ length r < length u).
  { intros ds t f L B. destruct (skip_bad ds t B) as (u & E & Lu). cbv zeta. rewrite E. cbn [bind].
    destruct (elses_from f u) as [F|F]; rewrite F; [auto|]. right. exists (KFrom :: u). simpl. split; [reflexivity|lia]. }
  revert fuel. induction c as [b ds|b ds es|b ds c IH]; intros [|fuel] B; try (left; reflexivity); cbn [w_chain branches] in *.
  - rewrite w_if_app. cbn [skip_elses]. rewrite skip_header. apply X; [lia|]. intros Y. apply B. auto.
  - rewrite <- app_assoc, w_if_app. cbn [skip_elses]. rewrite skip_header. destruct (ds_dec ds) as [Y|Y].
    + rewrite <- app_comm_cons, skip_ok by exact Y. cbn [bind]. destruct fuel as [|fuel]; [left; reflexivity|].
      cbn [skip_elses]. rewrite <- app_comm_cons, <- app_assoc. apply X; [simpl; lia|]. intros Z. apply B. auto.
    + apply X; [|exact Y]. simpl. rewrite !app_length. simpl. lia.
  - rewrite <- app_assoc, w_if_app. cbn [skip_elses]. rewrite skip_header. destruct (ds_dec ds) as [Y|Y].
    + rewrite <- app_comm_cons, skip_ok by exact Y. cbn [bind]. apply IH. intros Z. apply B. auto.
    + apply X; [|exact Y]. simpl. rewrite !app_length. simpl. lia.
Qed.

Lemma cond_if fuel tm b t : parse_cond (S fuel) tm (KDefine :: KIf :: KLParen :: KCond b :: KRParen :: t) =
  if b then bind (parse_block tm t) (fun ns r => bind (skip_elses (S (length r)) r) (fun _ r => Ok ns r))
  else bind (skip_block t) (fun _ r => match r with KElse :: r => parse_cond fuel tm r | _ => Ok [] r end).
Proof. destruct b; reflexivity. Qed.
Lemma elses_none r fuel : no_else r -> skip_elses (S fuel) r = Ok tt r.
Proof. destruct r as [|[] r]; try reflexivity. intros []. Qed.

Definition good tm c := Forall (readable tm) (taken c) /\ Forall (Forall braceless) (passed c).
Lemma chain_ok tm c r fuel : depth c < fuel -> all_wf c -> no_else r -> good tm c ->
  parse_cond fuel tm (w_chain c ++ r) = Ok (m_decls tm (taken c)) r.
Proof.
  unfold all_wf, good. revert fuel.
  induction c as [b ds|b ds es|b ds c IH]; intros [|fuel] F W N [R B]; cbn [depth] in F; try lia;
    cbn [w_chain branches taken passed] in *; inversion W; subst.
  - rewrite w_if_app, cond_if. destruct b.
    + rewrite block_ok by auto. cbn [bind]. rewrite elses_none by exact N. reflexivity.
    + inversion B; subst. rewrite skip_ok by auto. cbn [bind]. destruct r as [|[] r]; try reflexivity. destruct N.
  - rewrite <- app_assoc, w_if_app, cond_if. inversion H2; subst. destruct b.
    + rewrite block_ok by auto. cbn [bind]. inversion B; subst.
      rewrite <- app_comm_cons. cbn [skip_elses]. rewrite <- app_comm_cons, <- app_assoc. simpl app at 2.
      rewrite skip_ok by auto. cbn [bind]. simpl length. rewrite elses_none by exact N. reflexivity.
    + inversion B; subst. rewrite skip_ok by auto. cbn [bind]. rewrite <- app_comm_cons.
      destruct fuel as [|fuel]; [lia|]. rewrite <- app_comm_cons, <- app_assoc. simpl app at 2.
      cbn [parse_cond]. apply block_ok; auto.
  - rewrite <- app_assoc, w_if_app, cond_if. destruct b.
    + rewrite block_ok by auto. cbn [bind]. rewrite <- app_comm_cons. rewrite elses_ok; [reflexivity| |exact N|exact B].
      simpl. rewrite app_length. pose proof (len_chain c). lia.
    + inversion B; subst. rewrite skip_ok by auto. cbn [bind]. rewrite <- app_comm_cons. apply IH; auto. lia.
Qed.

Lemma chain_bad tm c r fuel : all_wf c -> no_else r -> ~ good tm c ->
  forall ns u, parse_cond fuel tm (w_chain c ++ r) = Ok ns u -> length r < length u.
Proof.
  unfold all_wf, good. revert fuel.
  induction c as [b ds|b ds es|b ds c IH]; intros [|fuel] W N G ns u E; try discriminate;
    cbn [w_chain branches taken passed] in *; inversion W; subst.
  - rewrite w_if_app, cond_if in E. destruct b.
    + rewrite block_bad in E; [discriminate|auto|]. intros X. apply G. auto.
    + destruct (skip_bad ds r) as (v & X & L); [intros X; apply G; auto|]. rewrite X in E. inversion E. simpl. lia.
  - rewrite <- app_assoc, w_if_app, cond_if in E. inversion H2; subst. destruct b.
    + destruct (Forall_dec _ (readable_dec tm) ds) as [X|X]; [|rewrite block_bad in E by auto; discriminate].
      rewrite block_ok in E by auto. cbn [bind] in E.
      assert (B : ~ Forall braceless es) by (intros Y; apply G; auto).
      rewrite <- app_comm_cons in E. cbn [skip_elses] in E. rewrite <- app_comm_cons, <- app_assoc in E. simpl app at 2 in E.
      destruct (skip_bad es r B) as (v & Y & L). rewrite Y in E. cbn [bind] in E. simpl length in E.
      rewrite elses_none in E by exact I. cbn [bind] in E. inversion E. simpl. lia.
    + destruct (ds_dec ds) as [X|X].
      * rewrite skip_ok in E by auto. cbn [bind] in E. rewrite <- app_comm_cons in E.
        destruct fuel as [|fuel]; [discriminate|]. rewrite <- app_comm_cons, <- app_assoc in E. simpl app at 2 in E.
        cbn [parse_cond] in E. rewrite block_bad in E; [discriminate|auto|]. intros Y. apply G. auto.
      * destruct (skip_bad ds ((KElse :: KLBrace :: w_decls es ++ [KRBrace]) ++ r) X) as (v & Y & L).
        rewrite Y in E. inversion E. simpl in *. rewrite !app_length in L. lia.
  - rewrite <- app_assoc, w_if_app, cond_if in E. destruct b.
    + destruct (Forall_dec _ (readable_dec tm) ds) as [X|X]; [|rewrite block_bad in E by auto; discriminate].
      rewrite block_ok in E by auto. cbn [bind] in E. rewrite <- app_comm_cons in E.
      destruct (elses_bad c r (S (length (KElse :: w_chain c ++ r)))) as [Y|(v & Y & L)].
      * intros Y. apply G. auto.
      * rewrite Y in E. discriminate.
      * rewrite Y in E. inversion E. subst. exact L.
    + destruct (ds_dec ds) as [X|X].
      * rewrite skip_ok in E by auto. cbn [bind] in E. rewrite <- app_comm_cons in E.
        apply (IH fuel H2 N) in E; [exact E|]. intros [Y Z]. apply G. auto.
      * destruct (skip_bad ds ((KElse :: w_chain c) ++ r) X) as (v & Y & L).
        rewrite Y in E. inversion E. simpl in *. rewrite !app_length in L. lia.
Qed.
Lemma chain_exact tm c r : all_wf c -> no_else r ->
  (parse_conditional tm (w_chain c ++ r) = Ok (m_decls tm (taken c)) r <-> good tm c).
Proof.
  intros W N. unfold parse_conditional. split.
  - intros E. destruct (Forall_dec _ (readable_dec tm) (taken c)) as [X|X].
    + destruct (Forall_dec _ ds_dec (passed c)) as [Y|Y]; [split; assumption|].
      apply chain_bad in E; [lia|assumption|assumption|intros [_ Z]; auto].
    + apply chain_bad in E; [lia|assumption|assumption|intros [Z _]; auto].
  - intros G. apply chain_ok; auto. rewrite app_length. pose proof (len_chain c). lia.
Qed.
Lemma decl_exact tm d r : wf d -> no_as r ->
  (parse_decl tm (w_decl d ++ r) = Ok (m_decl tm d) r <-> readable tm d).
Proof.
  intros W N. split; [|apply decl_ok; assumption]. intros E. destruct (readable_dec tm d) as [R|R]; [exact R|exfalso].
  destruct tm; [apply R; left; reflexivity|].
  destruct (decl_bad d r W N) as [X|[a X]]; [intros P; apply R; right; exact P| |]; rewrite X in E; [discriminate|].
  assert (L : KAs :: KIdent a :: r = r) by congruence. apply (f_equal (@length tok)) in L. simpl in L. lia.
Qed.
