(** Proofs about the text of expressions in C. *)
From stdpp Require Import numbers list.
From Coq Require Import Lia.
From Verif Require Import ParseModel ParseSpec ParseProofs CPrModel CPrSpec.

(** ** The tokens that should be read *)
Definition pun (u : unop) : punct :=
  match u with
  | PreDec => PDec | PreInc => PInc | Minus => PBin Sub | Plus => PBin Add | Deref => PBin Mul | Not => PNot
  | Compl => PTilde | Refof => PBin BAnd | _ => PArrow
  end.
Definition sep (ls : list (list ctok)) : list ctok :=
  match ls with [] => [] | l :: ls => l ++ concat (map (cons (KP PComma)) ls) end.
Fixpoint ct (e : expr) : list ctok :=
  match e with
  | EId x => [KW (Name x)]
  | EInt neg k => if neg then [KP (PBin Sub); KW (Number k)] else [KW (Number k)]
  | EGroup e => KP PLPar :: ct e ++ [KP PRPar]
  | ECast t e => KP PLPar :: KW (TypeName t) :: KP PRPar :: ct e
  | EIndex a i => ct a ++ KP PLBr :: ct i ++ [KP PRBr]
  | ECall f es => ct f ++ KP PLPar :: sep (map ct es) ++ [KP PRPar]
  | EPost inc e => ct e ++ [KP (if inc then PInc else PDec)]
  | EUn u e => KP (pun u) :: ct e
  | EBin o l r => ct l ++ KP (PBin o) :: ct r
  | EAssign o l r => ct l ++ KP (PAssign o) :: ct r
  | ETern c a b => ct c ++ KP PQuest :: ct a ++ KP PColon :: ct b
  | EElvis c b => ct c ++ KP PQuest :: KP PColon :: ct b
  | ESym _ | ETuple _ | EDiscard => []
  end.

Definition closed (p : punct) : bool :=
  match p with PInc | PDec | PQuest | PColon | PLPar | PRPar | PLBr | PRBr | PComma => true | _ => false end.
Lemma lex_closed p k : closed p = true -> lex_go [] (chars (spell p) ++ k) = KP p :: lex_go [] k.
Proof. destruct k as [|[w|c] k]; destruct p; try done; intros _; try reflexivity; destruct c; reflexivity. Qed.
Lemma lex_op o k : c_op o = true ->
  lex_go [] (chars (Csp :: op_string o ++ [Csp]) ++ k) = KP (PBin o) :: lex_go [] k.
Proof. destruct o; done. Qed.
Lemma lex_assign o k : c_assign o = true ->
  lex_go [] (chars (Csp :: assign_string o ++ [Csp]) ++ k) = KP (PAssign o) :: lex_go [] k.
Proof. destruct o as [[]|]; done. Qed.

(** How the text begins *)
Definition begin (e : expr) (l : list piece) : Prop :=
  match l with
  | W _ :: _ | Ch Clpar :: _ => first_op e = None
  | Ch c :: _ => exists u, first_op e = Some u /\ c_un u = true /\ head (un_string u) = Some c
  | [] => False
  end.
Lemma begin_app e e' l k : begin e l -> first_op e' = first_op e -> begin e' (l ++ k).
Proof. intros H E. destruct l as [|[w|[]] l]; cbn in *; try done; rewrite E; done. Qed.
Lemma print_begin e : in_c e = true -> begin e (print e).
Proof.
  induction e as [x|ng k|x|e IHe|es IHs|t e IHe|e1 e2 IHe1 IHe2|f es IHe IHs|ng e IHe|u e IHe|o e1 e2 IHe1 IHe2| |o e1 e2 IHe1 IHe2|e1 e2 e3 IHe1 IHe2 IHe3|e1 e2 IHe1 IHe2] using expr_ind'; cbn [in_c print]; rewrite ?andb_true_iff; try done; intros Hin;
    repeat match goal with H : _ /\ _ |- _ => destruct H end;
    try (eapply begin_app; [eauto|done]).
  - destruct ng; cbn; eauto.
  - destruct u; try done; cbn; eauto.
Qed.

Lemma lex_un u e k : c_un u = true -> in_c e = true -> glue u (first_op e) = false ->
  lex_go [] (chars (un_string u) ++ print e ++ k) = KP (pun u) :: lex_go [] (print e ++ k).
Proof.
  intros Hu He Hg. pose proof (print_begin e He) as B. destruct (print e) as [|p l]; [done|]. cbn in B.
  destruct p as [w|c]; [destruct u; done|].
  assert (c = Clpar \/ exists v, first_op e = Some v /\ c_un v = true /\ head (un_string v) = Some c) as [->|(v & E & Hv & Hc)].
  { destruct c; auto. }
  - destruct u; done.
  - rewrite E in Hg. destruct v; try done; injection Hc as <-; destruct u; try done.
Qed.

Lemma lex_lpar k : lex_go [] (Ch Clpar :: k) = KP PLPar :: lex_go [] k.
Proof. apply (lex_closed PLPar k eq_refl). Qed.
Lemma lex_rpar k : lex_go [] (Ch Crpar :: k) = KP PRPar :: lex_go [] k.
Proof. apply (lex_closed PRPar k eq_refl). Qed.
Lemma lex_lbr k : lex_go [] (Ch Clbr :: k) = KP PLBr :: lex_go [] k.
Proof. apply (lex_closed PLBr k eq_refl). Qed.
Lemma lex_rbr k : lex_go [] (Ch Crbr :: k) = KP PRBr :: lex_go [] k.
Proof. apply (lex_closed PRBr k eq_refl). Qed.
Lemma lex_quest k : lex_go [] (Ch Cquest :: k) = KP PQuest :: lex_go [] k.
Proof. apply (lex_closed PQuest k eq_refl). Qed.
Lemma lex_colon k : lex_go [] (Ch Ccolon :: k) = KP PColon :: lex_go [] k.
Proof. apply (lex_closed PColon k eq_refl). Qed.
Lemma lex_comma k : lex_go [] (Ch Ccomma :: k) = KP PComma :: lex_go [] k.
Proof. apply (lex_closed PComma k eq_refl). Qed.
Lemma lex_space k : lex_go [] (Ch Csp :: k) = lex_go [] k.
Proof. reflexivity. Qed.
Lemma lex_word w k : lex_go [] (W w :: k) = KW w :: lex_go [] k.
Proof. reflexivity. Qed.
Ltac norm := repeat (rewrite <- ?app_assoc; cbn [app]).

Lemma lex_print e : in_c e = true -> no_glue e = true -> forall k, lex_go [] (print e ++ k) = ct e ++ lex_go [] k.
Proof.
  induction e as [x|ng k|x|e IHe|es IHs|t e IHe|e1 e2 IHe1 IHe2|f es IHe IHs|ng e IHe|u e IHe|o e1 e2 IHe1 IHe2|
    |o e1 e2 IHe1 IHe2|e1 e2 e3 IHe1 IHe2 IHe3|e1 e2 IHe1 IHe2] using expr_ind';
    cbn [in_c no_glue print ct]; rewrite ?andb_true_iff; try done; intros Hin Hg kk;
    repeat match goal with H : _ /\ _ |- _ => destruct H end; rewrite <- ?app_assoc; cbn [app].
  - destruct ng; reflexivity.
  - rewrite lex_lpar, <- app_assoc, IHe by done. cbn [app]. rewrite lex_rpar. by rewrite <- app_assoc.
  - by rewrite lex_lpar, lex_word, lex_rpar, IHe.
  - rewrite IHe1 by done. rewrite lex_lbr, <- !app_assoc, IHe2 by done. cbn [app]. rewrite lex_rbr. done.
  - rewrite IHe by done. f_equal. rewrite lex_lpar. f_equal. rewrite <- !app_assoc.
    assert (forall k, lex_go [] (separated (map print es) ++ k) = sep (map ct es) ++ lex_go [] k) as L.
    { rewrite forallb_forall in *.
      assert (forall e, In e es -> forall k, lex_go [] (print e ++ k) = ct e ++ lex_go [] k) as L1.
      { intros e' He'. rewrite Forall_forall in IHs. apply IHs; [by apply elem_of_list_In|auto|auto]. }
      clear - L1. destruct es as [|e es]; [done|]. intros k. cbn [map separated sep]. rewrite <- !app_assoc, L1 by (left; done).
      f_equal. assert (forall e', In e' es -> forall k, lex_go [] (print e' ++ k) = ct e' ++ lex_go [] k) as L2
        by (intros; apply L1; right; done). clear L1.
      induction es as [|e' es IH]; [done|]. cbn [map concat chars app]. rewrite <- !app_assoc.
      rewrite lex_comma, lex_space, L2 by (left; done). do 2 f_equal. apply IH. intros. apply L2. right. done. }
    rewrite L. f_equal. apply lex_rpar.
  - rewrite IHe by done. f_equal. destruct ng; [apply (lex_closed PInc)|apply (lex_closed PDec)]; done.
  - rewrite lex_un, IHe; try done. by apply negb_true_iff.
  - rewrite IHe1 by done. f_equal. rewrite lex_op, IHe2 by done. done.
  - rewrite IHe1 by done. f_equal. rewrite lex_assign, IHe2 by done. done.
  - rewrite IHe1 by done. f_equal. rewrite lex_quest, lex_space, <- !app_assoc, IHe2 by done. cbn [app].
    rewrite lex_colon, lex_space, IHe3 by done. done.
  - rewrite IHe1 by done. f_equal. by rewrite lex_quest, lex_colon, lex_space, IHe2.
Qed.
Lemma lex_text e : in_c e = true -> no_glue e = true -> lex (print e) = ct e.
Proof. intros H G. pose proof (lex_print e H G []) as L. rewrite !app_nil_r in L. unfold lex. exact L. Qed.

(** ** Steps *)
Lemma cparse_mono n : forall n' m ts r, n <= n' -> cparse n m ts = Some r -> cparse n' m ts = Some r.
Proof.
  induction n as [|n IH]; intros n' m ts r Hn; [done|].
  destruct n' as [|k]; [lia|]. apply le_S_n in Hn. specialize (fun m ts r => IH k m ts r Hn). clear Hn.
  cbn [cparse].
  destruct m;
  repeat (cbn [cbind];
    match goal with
    | |- cparse n _ _ = Some _ -> cparse k _ _ = Some _ => apply IH
    | |- ?a = Some _ -> ?a = Some _ => intros ?; assumption
    | |- cbind (cparse n ?m ?t) _ = _ -> _ =>
        let E := fresh in destruct (cparse n m t) as [[[? ?]|]|] eqn:E;
        [rewrite (IH _ _ _ E)|rewrite (IH _ _ _ E)|discriminate]
    | |- (match ?x with _ => _ end) = _ -> _ => destruct x
    | |- (if ?x then _ else _) = _ -> _ => destruct x
    end).
Qed.
Lemma c_reads_det ps e e' : c_reads ps e -> c_reads ps e' -> e = e'.
Proof.
  intros [n H] [n' H']. apply (cparse_mono n (max n n')) in H; [|lia]. apply (cparse_mono n' (max n n')) in H'; [|lia].
  congruence.
Qed.

Definition ev (m : cmode) (ts : list ctok) (r : option (expr * list ctok)) : Prop := exists n, cparse n m ts = Some r.
Ltac both H1 H2 n := destruct H1 as [n H1]; let k := fresh "k" in destruct H2 as [k H2];
  apply (cparse_mono _ (max n k)) in H1; [|lia]; apply (cparse_mono _ (max n k)) in H2; [|lia];
  revert H1 H2; generalize (max n k); clear n k; intros n H1 H2.

(** ** What may follow *)
Definition stop0 (k : list ctok) : bool :=
  match k with KP (PInc | PDec | PLBr | PLPar) :: _ => false | _ => true end.
Definition stopc (k : list ctok) : bool :=
  match k with KP (PInc | PDec | PLBr | PLPar | PBin _ | PQuest) :: _ => false | _ => true end.
Definition stope (k : list ctok) : bool :=
  match k with KP (PInc | PDec | PLBr | PLPar | PBin _ | PQuest | PAssign _) :: _ => false | _ => true end.
Lemma stope_c k : stope k = true -> stopc k = true.
Proof. by destruct k as [|[|[]] ?]. Qed.
Lemma stopc_0 k : stopc k = true -> stop0 k = true.
Proof. by destruct k as [|[|[]] ?]. Qed.
(** operators behind an expression of level [l] bind no tighter. *)
Definition looser (l : nat) (k : list ctok) : Prop := forall o k', k = KP (PBin o) :: k' -> c_op o = true -> l <= cprec o.
Lemma looser_stopc l k : stopc k = true -> looser l k.
Proof. by intros H o k' ->. Qed.

(** How the tokens begin *)
Definition starts (k : list ctok) : bool :=
  match k with
  | KW (Name _ | Number _) :: _ => true
  | KP p :: _ => match p with PLPar => true | _ => match un_of p with Some _ => true | None => false end end
  | _ => false
  end.
Definition starts0 (k : list ctok) : bool :=
  match k with
  | KW (Name _ | Number _) :: _ => true
  | KP PLPar :: KW (TypeName _) :: _ => false
  | KP PLPar :: _ => true
  | _ => false
  end.
Lemma starts_app l k : starts l = true -> starts (l ++ k) = true.
Proof. destruct l; done. Qed.
Lemma starts0_app l k : starts0 l = true -> length l <> 1 \/ k = [] \/ hd (KW (Name 0)) l <> KP PLPar -> starts0 (l ++ k) = true.
Proof. destruct l as [|[[]|[]] [|[[]|[]] l]]; cbn; try done; intros _ [?|[->|?]]; try done; lia. Qed.
Lemma ct_starts e : in_c e = true -> starts (ct e) = true.
Proof.
  induction e as [x|ng k|x|e IHe|es IHs|t e IHe|e1 e2 IHe1 IHe2|f es IHe IHs|ng e IHe|u e IHe|o e1 e2 IHe1 IHe2|
    |o e1 e2 IHe1 IHe2|e1 e2 e3 IHe1 IHe2 IHe3|e1 e2 IHe1 IHe2] using expr_ind';
    cbn [in_c ct]; rewrite ?andb_true_iff; try done; intros Hin;
    repeat match goal with H : _ /\ _ |- _ => destruct H end; try (apply starts_app; auto).
  - by destruct ng.
  - by destruct u.
Qed.
Lemma ct_starts0 e k : in_c e = true -> fits e = true -> clev e = 0 -> starts0 (ct e ++ k) = true.
Proof.
  revert k.
  induction e as [x|ng i|x|e IHe|es IHs|t e IHe|e1 e2 IHe1 IHe2|f es IHe IHs|ng e IHe|u e IHe|o e1 e2 IHe1 IHe2|
    |o e1 e2 IHe1 IHe2|e1 e2 e3 IHe1 IHe2 IHe3|e1 e2 IHe1 IHe2] using expr_ind';
    cbn [in_c ct fits clev]; intros k; rewrite ?andb_true_iff; try done; intros Hin Hf Hl;
    repeat match goal with H : _ /\ _ |- _ => destruct H end; rewrite <- ?app_assoc.
  - by destruct ng.
  - cbn. pose proof (ct_starts e Hin) as S. destruct (ct e) as [|[[]|] ?]; done.
  - apply IHe1; auto. by apply Nat.eqb_eq.
  - apply IHe; auto. by apply Nat.eqb_eq.
  - apply IHe; auto. by apply Nat.eqb_eq.
  - by destruct o.
Qed.
Lemma clev_cform e : clev (cform e) = clev e.
Proof. by destruct e as [| [] | | | | | | | | | | | | |]. Qed.

(** ** Reading is complete *)
Definition good (e : expr) : Prop := in_c e = true /\ fits e = true.
Record reads (e : expr) : Prop := Reads {
  r_post : clev e = 0 -> forall k r, ev (CPost (cform e)) k r -> ev CUnary (ct e ++ k) r;
  r_unary : clev e <= 1 -> forall k, stop0 k = true -> ev CUnary (ct e ++ k) (Some (cform e, k));
  r_cast : clev e <= 2 -> forall k, stop0 k = true -> ev CCast (ct e ++ k) (Some (cform e, k));
  r_bin : forall p k r, clev e < p -> p <= 13 -> stop0 k = true -> looser (clev e) k ->
    ev (CLoop p (cform e)) k r -> ev (CBin p) (ct e ++ k) r;
  r_cond : clev e <= 13 -> forall k, stopc k = true -> ev CCond (ct e ++ k) (Some (cform e, k));
  r_exp : forall k, stope k = true -> ev CExp (ct e ++ k) (Some (cform e, k))
}.

Lemma ev_post_stop e k : stop0 k = true -> ev (CPost e) k (Some (e, k)).
Proof. intros H. exists 1. by destruct k as [|[|[]] ?]. Qed.
Lemma ev_loop_stop p e k : (forall o k', k = KP (PBin o) :: k' -> c_op o = true -> p <= cprec o) -> ev (CLoop p e) k (Some (e, k)).
Proof.
  intros H. exists 1. destruct k as [|[|[]] ?]; try done. cbn [cparse].
  destruct (c_op o) eqn:E; [|done]. specialize (H o _ eq_refl E). destruct (Nat.ltb_spec (cprec o) p); [lia|done].
Qed.
Lemma ev_bin p k e k1 r : ev CCast k (Some (e, k1)) -> ev (CLoop p e) k1 r -> ev (CBin p) k r.
Proof. intros H1 H2. both H1 H2 n. exists (Datatypes.S n). cbn [cparse]. rewrite H1. exact H2. Qed.

(** from the unary level up *)
Lemma reads_bin e : (clev e <= 2 -> forall k, stop0 k = true -> ev CCast (ct e ++ k) (Some (cform e, k))) -> clev e <= 2 ->
  forall p k r, clev e < p -> p <= 13 -> stop0 k = true -> looser (clev e) k -> ev (CLoop p (cform e)) k r -> ev (CBin p) (ct e ++ k) r.
Proof. intros H L p k r _ _ S _ E. eapply ev_bin; [by apply H|done]. Qed.
Lemma reads_cond e : clev e < 13 ->
  (forall p k r, clev e < p -> p <= 13 -> stop0 k = true -> looser (clev e) k -> ev (CLoop p (cform e)) k r -> ev (CBin p) (ct e ++ k) r) ->
  forall k, stopc k = true -> ev CCond (ct e ++ k) (Some (cform e, k)).
Proof.
  intros L H k S.
  assert (ev (CBin 13) (ct e ++ k) (Some (cform e, k))) as [n Hn].
  { apply H; auto using stopc_0, looser_stopc. apply ev_loop_stop. intros o k' ->. done. }
  exists (Datatypes.S n). cbn [cparse]. rewrite Hn. cbn [cbind]. by destruct k as [|[|[]] ?].
Qed.
Lemma reads_exp e : (forall k, stopc k = true -> ev CCond (ct e ++ k) (Some (cform e, k))) ->
  forall k, stope k = true -> ev CExp (ct e ++ k) (Some (cform e, k)).
Proof.
  intros H k S. destruct (H k (stope_c _ S)) as [n Hn]. exists (Datatypes.S n). cbn [cparse]. rewrite Hn. cbn [cbind].
  by destruct k as [|[|[]] ?].
Qed.
Lemma reads_low e : clev e <= 2 ->
  (clev e = 0 -> forall k r, ev (CPost (cform e)) k r -> ev CUnary (ct e ++ k) r) ->
  (clev e <= 1 -> forall k, stop0 k = true -> ev CUnary (ct e ++ k) (Some (cform e, k))) ->
  (forall k, stop0 k = true -> ev CCast (ct e ++ k) (Some (cform e, k))) -> reads e.
Proof.
  intros L H0 H1 H2.
  assert (forall p k r, clev e < p -> p <= 13 -> stop0 k = true -> looser (clev e) k ->
    ev (CLoop p (cform e)) k r -> ev (CBin p) (ct e ++ k) r) as HB by (apply reads_bin; auto).
  assert (forall k, stopc k = true -> ev CCond (ct e ++ k) (Some (cform e, k))) as HC by (apply reads_cond; auto; lia).
  constructor; auto. by apply reads_exp.
Qed.
Lemma cast_unary k r : (forall t k', k <> KP PLPar :: KW (TypeName t) :: KP PRPar :: k') -> ev CUnary k r -> ev CCast k r.
Proof.
  intros H [n Hn]. exists (Datatypes.S n). cbn [cparse].
  destruct k as [|[|[]] k]; try exact Hn. destruct k as [|[[]|] k]; try exact Hn. destruct k as [|[|[]] k]; try exact Hn.
  by destruct (H t k).
Qed.
Lemma reads_post e : good e -> clev e = 0 ->
  (forall k r, ev (CPost (cform e)) k r -> ev CUnary (ct e ++ k) r) -> reads e.
Proof.
  intros [Hi Hf] L H.
  assert (forall k, stop0 k = true -> ev CUnary (ct e ++ k) (Some (cform e, k))) as HU by (intros; apply H, ev_post_stop; done).
  apply reads_low; auto; [lia|]. intros k S. apply cast_unary; auto.
  intros t k' E. pose proof (ct_starts0 e k Hi Hf L) as S0. rewrite E in S0. done.
Qed.
Lemma unary_prim k e k1 r : starts0 k = true -> ev CPrim k (Some (e, k1)) -> ev (CPost e) k1 r -> ev CUnary k r.
Proof.
  intros S H1 H2. both H1 H2 n. exists (Datatypes.S n). cbn [cparse].
  destruct k as [|[|[]] k]; try done; cbn [un_of]; rewrite H1; exact H2.
Qed.
Lemma reads_unary u e : c_un u = true -> in_c e = true ->
  (forall k, stop0 k = true -> ev (if match u with PreInc | PreDec => true | _ => false end then CUnary else CCast) (ct e ++ k) (Some (cform e, k))) ->
  reads (EUn u e).
Proof.
  intros Hu Hi H.
  assert (forall k, stop0 k = true -> ev CUnary (ct (EUn u e) ++ k) (Some (cform (EUn u e), k))) as HU.
  { intros k S. destruct (H k S) as [n Hn]. exists (Datatypes.S n). destruct u; try done; cbn [cparse ct pun un_of app cform]; cbn in Hn; by rewrite Hn. }
  apply reads_low; auto; [done|]. intros k S. apply cast_unary; auto. intros t k'. by destruct u.
Qed.

Lemma ev_args es0 es k : es <> [] -> Forall reads es ->
  ev (CArgs es0) (sep (map ct es) ++ KP PRPar :: k) (Some (ETuple (es0 ++ map cform es), k)).
Proof.
  intros Hn HF. destruct es as [|e es]; [done|]. clear Hn. revert e es0 HF.
  induction es as [|e2 es IH]; intros e es0 HF; inversion HF as [|? ? He HF']; subst; cbn [map sep concat].
  - rewrite app_nil_r. destruct (r_exp _ He (KP PRPar :: k) eq_refl) as [n Hn]. exists (Datatypes.S n). cbn [cparse].
    rewrite Hn. done.
  - pose proof (r_exp _ He (KP PComma :: sep (map ct (e2 :: es)) ++ KP PRPar :: k) eq_refl) as H1.
    pose proof (IH e2 (es0 ++ [cform e]) HF') as H2. rewrite <- app_assoc in H2. cbn [app map] in H1, H2.
    both H1 H2 n. exists (Datatypes.S n). cbn [cparse sep] in *. rewrite <- app_assoc. cbn [app]. rewrite H1. cbn [cbind].
    exact H2.
Qed.

Lemma cprec_bound o : c_op o = true -> 3 <= cprec o <= 12.
Proof. destruct o; cbn; done || lia. Qed.

Theorem reads_all e : good e -> reads e.
Proof.
  induction e as [x|ng i|x|e IHe|es IHs|t e IHe|e1 e2 IHe1 IHe2|f es IHe IHs|ng e IHe|u e IHe|o e1 e2 IHe1 IHe2|
    |o e1 e2 IHe1 IHe2|e1 e2 e3 IHe1 IHe2 IHe3|e1 e2 IHe1 IHe2] using expr_ind';
    intros G; pose proof G as [Hi Hf]; cbn [in_c fits] in Hi, Hf; try done;
    rewrite ?andb_true_iff in Hi; rewrite ?andb_true_iff in Hf;
    repeat match goal with H : _ /\ _ |- _ => let a := fresh "J" in let b := fresh "J" in destruct H as [a b] end.
  - apply reads_post; [done..|]. intros k r H. eapply unary_prim; [done| |exact H]. by exists 1.
  - destruct ng.
    + assert (reads (EUn Minus (EInt false i))) as R.
      { apply reads_unary; try done. intros k S. apply cast_unary; [done|]. eapply unary_prim; [done| |by apply ev_post_stop]. by exists 1. }
      destruct R. constructor; auto.
    + apply reads_post; [done..|]. intros k r H. eapply unary_prim; [done| |exact H]. by exists 1.
  - assert (reads e) as R by (apply IHe; split; done).
    apply reads_post; [done..|]. intros k r H. eapply unary_prim; [|  |exact H].
    + apply (ct_starts0 (EGroup e)); done.
    + cbn [ct app]. rewrite <- app_assoc. destruct (r_exp _ R (KP PRPar :: k) eq_refl) as [n Hn].
      exists (Datatypes.S n). cbn [cparse app]. rewrite Hn. done.
  - assert (reads e) as R by (apply IHe; split; done).
    assert (clev e <= 2) as L by (by apply Nat.leb_le).
    apply reads_low; try done; [by cbn; lia|].
    intros k S. destruct (r_cast _ R L k S) as [n Hn]. exists (Datatypes.S n). cbn [cparse ct app]. rewrite Hn. done.
  - assert (reads e1) as R1 by (apply IHe1; split; done). assert (reads e2) as R2 by (apply IHe2; split; done).
    apply reads_post; [done..|]. intros k r H. cbn [ct]. rewrite <- app_assoc.
    apply (r_post _ R1); [by apply Nat.eqb_eq|]. cbn [app]. rewrite <- app_assoc.
    pose proof (r_exp _ R2 (KP PRBr :: k) eq_refl) as H1. both H1 H n. exists (Datatypes.S n). cbn [cparse app]. rewrite H1. exact H.
  - assert (reads f) as R by (apply IHe; split; done).
    assert (Forall reads es) as RS.
    { rewrite Forall_forall in IHs |- *. intros e He. rewrite forallb_forall in *.
      apply IHs; [done|]. apply elem_of_list_In in He. split; auto. }
    apply reads_post; [done..|]. intros k r H. cbn [ct]. rewrite <- app_assoc.
    apply (r_post _ R); [by apply Nat.eqb_eq|]. cbn [app]. rewrite <- app_assoc. cbn [app cform] in *.
    destruct es as [|e es].
    + destruct H as [n H]. exists (Datatypes.S n). exact H.
    + pose proof (ev_args [] (e :: es) k ltac:(done) RS) as H1. cbn [app] in H1.
      assert (starts (sep (map ct (e :: es)) ++ KP PRPar :: k) = true) as S.
      { cbn [map sep]. rewrite <- app_assoc. apply starts_app, ct_starts. cbn [forallb] in *. by rewrite ?andb_true_iff in *; intuition. }
      both H1 H n. exists (Datatypes.S n). cbn [cparse].
      destruct (sep (map ct (e :: es)) ++ KP PRPar :: k) as [|[|[]] ?]; try done; rewrite H1; exact H.
  - assert (reads e) as R by (apply IHe; split; done).
    apply reads_post; [done..|]. intros k r H. cbn [ct]. rewrite <- app_assoc.
    apply (r_post _ R); [by apply Nat.eqb_eq|]. destruct H as [n H]. exists (Datatypes.S n). by destruct ng.
  - assert (reads e) as R by (apply IHe; split; done).
    apply reads_unary; [done..|]. intros k S. destruct u; try done; (apply (r_unary _ R) || apply (r_cast _ R)); try done; by apply Nat.leb_le.
  - assert (reads e1) as R1 by (apply IHe1; split; done). assert (reads e2) as R2 by (apply IHe2; split; done).
    assert (c_op o = true) as Ho by done. pose proof (cprec_bound o Ho) as B.
    assert (clev e1 <= cprec o) as L1 by (by apply Nat.leb_le). assert (clev e2 < cprec o) as L2 by (by apply Nat.ltb_lt).
    assert (forall p k r, cprec o < p -> p <= 13 -> stop0 k = true -> looser (cprec o) k ->
      ev (CLoop p (cform (EBin o e1 e2))) k r -> ev (CBin p) (ct (EBin o e1 e2) ++ k) r) as HB.
    { intros p k r Hp Hp2 S Hl H. cbn [ct]. rewrite <- app_assoc. cbn [app].
      apply (r_bin _ R1); try done; [lia| |].
      - intros o' k' [= -> _] _. exact L1.
      - assert (ev (CBin (cprec o)) (ct e2 ++ k) (Some (cform e2, k))) as H1.
        { apply (r_bin _ R2); try done; [lia| |].
          - intros o' k' E C. specialize (Hl o' k' E C). lia.
          - apply ev_loop_stop. exact Hl. }
        both H1 H n. exists (Datatypes.S n). cbn [cparse]. rewrite Ho. cbn [andb].
        destruct (Nat.ltb_spec (cprec o) p); [|lia]. rewrite H1. exact H. }
    assert (forall k, stopc k = true -> ev CCond (ct (EBin o e1 e2) ++ k) (Some (cform (EBin o e1 e2), k))) as HC
      by (apply reads_cond; [cbn; lia|exact HB]).
    constructor; try (cbn [clev]; lia); auto. by apply reads_exp.
  - assert (reads e1) as R1 by (apply IHe1; split; done). assert (reads e2) as R2 by (apply IHe2; split; done).
    assert (clev e1 <= 1) as L1 by (by apply Nat.leb_le).
    constructor; try (cbn [clev]; lia).
    intros k S. cbn [ct]. rewrite <- app_assoc. cbn [app].
    pose proof (r_cond _ R1 ltac:(lia) (KP (PAssign o) :: ct e2 ++ k) eq_refl) as H1.
    pose proof (r_exp _ R2 k S) as H2. both H1 H2 n. exists (Datatypes.S n). cbn [cparse]. rewrite H1. cbn [cbind].
    rewrite clev_cform. destruct (Nat.leb_spec (clev e1) 1); [|lia]. rewrite H2. done.
  - assert (reads e1) as R1 by (apply IHe1; split; done). assert (reads e2) as R2 by (apply IHe2; split; done).
    assert (reads e3) as R3 by (apply IHe3; split; done).
    assert (clev e1 < 13) as L1 by (by apply Nat.ltb_lt). assert (clev e3 <= 13) as L3 by (by apply Nat.leb_le).
    assert (forall k, stopc k = true -> ev CCond (ct (ETern e1 e2 e3) ++ k) (Some (cform (ETern e1 e2 e3), k))) as HC.
    { intros k S. cbn [ct]. rewrite <- app_assoc. cbn [app]. rewrite <- app_assoc. cbn [app].
      assert (ev (CBin 13) (ct e1 ++ KP PQuest :: ct e2 ++ KP PColon :: ct e3 ++ k)
        (Some (cform e1, KP PQuest :: ct e2 ++ KP PColon :: ct e3 ++ k))) as H1.
      { apply (r_bin _ R1); try done. apply ev_loop_stop. done. }
      pose proof (r_exp _ R2 (KP PColon :: ct e3 ++ k) eq_refl) as H2.
      pose proof (r_cond _ R3 L3 k S) as H3.
      both H1 H2 n. destruct H3 as [n' H3].
      apply (cparse_mono _ (max n n')) in H1; [|lia]. apply (cparse_mono _ (max n n')) in H2; [|lia]. apply (cparse_mono _ (max n n')) in H3; [|lia].
      exists (Datatypes.S (max n n')). cbn [cparse]. rewrite H1. cbn [cbind].
      pose proof (starts_app _ (KP PColon :: ct e3 ++ k) (ct_starts e2 ltac:(done))) as St.
      destruct (ct e2 ++ KP PColon :: ct e3 ++ k) as [|[|[]] ?]; try done; rewrite H2; cbn [cbind]; rewrite H3; done. }
    constructor; try (cbn [clev]; lia); auto. by apply reads_exp.
  - assert (reads e1) as R1 by (apply IHe1; split; done). assert (reads e2) as R2 by (apply IHe2; split; done).
    assert (clev e1 < 13) as L1 by (by apply Nat.ltb_lt). assert (clev e2 <= 13) as L3 by (by apply Nat.leb_le).
    assert (forall k, stopc k = true -> ev CCond (ct (EElvis e1 e2) ++ k) (Some (cform (EElvis e1 e2), k))) as HC.
    { intros k S. cbn [ct]. rewrite <- app_assoc. cbn [app].
      assert (ev (CBin 13) (ct e1 ++ KP PQuest :: KP PColon :: ct e2 ++ k)
        (Some (cform e1, KP PQuest :: KP PColon :: ct e2 ++ k))) as H1.
      { apply (r_bin _ R1); try done. apply ev_loop_stop. done. }
      pose proof (r_cond _ R2 L3 k S) as H2.
      both H1 H2 n. exists (Datatypes.S n). cbn [cparse]. rewrite H1. cbn [cbind]. rewrite H2. done. }
    constructor; try (cbn [clev]; lia); auto. by apply reads_exp.
Qed.

(** ** What is read fits *)
Definition pre (m : cmode) (ts : list ctok) : Prop :=
  match m with
  | CBin p => 3 <= p
  | CLoop p l => 3 <= p /\ fits l = true /\ clev l < p /\ looser (clev l) ts
  | CPost e => fits e = true /\ clev e = 0
  | CArgs es => forallb fits es = true
  | _ => True
  end.
Definition post (m : cmode) (e : expr) (k : list ctok) : Prop :=
  match m with
  | CExp => fits e = true
  | CCond => fits e = true /\ clev e <= 13
  | CBin p | CLoop p _ => fits e = true /\ clev e < p /\ looser p k
  | CCast => fits e = true /\ clev e <= 2
  | CUnary => fits e = true /\ clev e <= 1
  | CPost _ | CPrim => fits e = true /\ clev e = 0
  | CArgs _ => exists es, e = ETuple es /\ forallb fits es = true
  end.
Ltac sub IH E := apply IH in E; cbn [pre post] in E.
Lemma un_of_spec p u s : un_of p = Some (u, s) -> s = match u with PreInc | PreDec => true | _ => false end.
Proof. destruct p as [[]|?| | | | | | | | | | | |]; cbn; try done; intros [= <- <-]; done. Qed.
Lemma cparse_fits n : forall m ts e k, cparse n m ts = Some (Some (e, k)) -> pre m ts -> post m e k.
Proof.
  induction n as [|n IH]; intros m ts e k; [done|].
  destruct m as [| |p|p l| | |e0| |es]; cbn [cparse pre post]; unfold cok, cerr.
  - destruct (cparse n CCond ts) as [[[l ts1]|]|] eqn:E; try done. cbn [cbind]. intros H _.
    destruct (IH _ _ _ _ E I) as [F L].
    destruct ts1 as [|[|[]] ts1]; try (injection H as <- <-; exact F).
    destruct (Nat.leb_spec (clev l) 1); [|done].
    destruct (cparse n CExp ts1) as [[[r ts2]|]|] eqn:E2; try done. cbn in H. injection H as <- <-.
    pose proof (IH _ _ _ _ E2 I) as F2. cbn in F2 |- *. rewrite F, F2. by destruct (Nat.leb_spec (clev l) 1); [|lia].
  - destruct (cparse n (CBin 13) ts) as [[[c ts1]|]|] eqn:E; try done. cbn [cbind]. intros H _.
    destruct (IH _ _ _ _ E ltac:(cbn; lia)) as (F & L & _).
    destruct ts1 as [|[|[]] ts1]; try (injection H as <- <-; split; [exact F|lia]).
    assert ((exists ts2, ts1 = KP PColon :: ts2) \/
      cbind (cparse n CExp ts1) (fun a ts => match ts with KP PColon :: ts => cbind (cparse n CCond ts) (fun b ts => Some (Some (ETern c a b, ts))) | _ => Some None end)
        = Some (Some (e, k))) as [[ts2 ->]|H2].
    { destruct ts1 as [|[|[]] ts1]; eauto. }
    + destruct (cparse n CCond ts2) as [[[b ts3]|]|] eqn:E2; try done. cbn in H. injection H as <- <-.
      destruct (IH _ _ _ _ E2 I) as [F2 L2]. cbn [fits clev]. rewrite F, F2.
      destruct (Nat.ltb_spec (clev c) 13), (Nat.leb_spec (clev b) 13); try lia; auto.
    + clear H. destruct (cparse n CExp ts1) as [[[a ts2]|]|] eqn:E1; try done. cbn [cbind] in H2.
      destruct ts2 as [|[|[]] ts2]; try done.
      destruct (cparse n CCond ts2) as [[[b ts3]|]|] eqn:E2; try done. cbn in H2. injection H2 as <- <-.
      pose proof (IH _ _ _ _ E1 I) as F1. cbn in F1. destruct (IH _ _ _ _ E2 I) as [F2 L2]. cbn [fits clev]. rewrite F, F1, F2.
      destruct (Nat.ltb_spec (clev c) 13), (Nat.leb_spec (clev b) 13); try lia; auto.
  - destruct (cparse n CCast ts) as [[[l ts1]|]|] eqn:E; try done. cbn [cbind]. intros H Hp.
    destruct (IH _ _ _ _ E I) as [F L]. apply (IH _ _ _ _ H). cbn. repeat split; auto; [lia|].
    intros o k' _ Ho. pose proof (cprec_bound o Ho). lia.
  - intros H (Hp & F & L & Hl).
    assert ((Some (Some (e, k)) = Some (Some (l, ts)) /\ looser p ts) \/ exists o ts', ts = KP (PBin o) :: ts' /\ c_op o = true /\ cprec o < p /\
      cbind (cparse n (CBin (cprec o)) ts') (fun r ts => cparse n (CLoop p (EBin o l r)) ts) = Some (Some (e, k)))
      as [[[= -> ->] S]|(o & ts' & -> & Ho & Hlt & H2)].
    { destruct ts as [|[|[]] ts']; try (left; split; [congruence|intros ? ? [=]; fail]).
      destruct (c_op o) eqn:Ho; cbn [andb] in H.
      - destruct (Nat.ltb_spec (cprec o) p); [right; eauto 10|]. left. split; [congruence|]. by intros ? ? [= <- <-].
      - left. split; [congruence|]. intros ? ? [= <- <-]. congruence. }
    + auto.
    + clear H. destruct (cparse n (CBin (cprec o)) ts') as [[[r ts1]|]|] eqn:E; try done. cbn [cbind] in H2.
      pose proof (cprec_bound o Ho) as B. specialize (Hl o ts' eq_refl Ho).
      destruct (IH _ _ _ _ E ltac:(cbn; lia)) as (F2 & L2 & S2).
      apply (IH _ _ _ _ H2). cbn [pre fits clev]. rewrite F, F2.
      destruct (Nat.leb_spec (clev l) (cprec o)), (Nat.ltb_spec (clev r) (cprec o)); try lia. auto.
  - intros H _.
    assert ((exists t ts', ts = KP PLPar :: KW (TypeName t) :: KP PRPar :: ts' /\
        cbind (cparse n CCast ts') (fun e ts => Some (Some (ECast t e, ts))) = Some (Some (e, k))) \/
      cparse n CUnary ts = Some (Some (e, k))) as [(t & ts' & -> & H2)|H2].
    { destruct ts as [|[|[]] ts]; auto. destruct ts as [|[[]|] ts]; auto. destruct ts as [|[|[]] ts]; auto. left. eauto. }
    + clear H. destruct (cparse n CCast ts') as [[[e1 ts1]|]|] eqn:E; try done. injection H2 as <- <-.
      destruct (IH _ _ _ _ E I) as [F L]. cbn [fits clev]. rewrite F. destruct (Nat.leb_spec (clev e1) 2); [auto|lia].
    + destruct (IH _ _ _ _ H2 I) as [F L]. split; [done|lia].
  - intros H _.
    assert ((exists p ts' u s, ts = KP p :: ts' /\ un_of p = Some (u, s) /\
        cbind (cparse n (if s : bool then CUnary else CCast) ts') (fun e ts => Some (Some (EUn u e, ts))) = Some (Some (e, k))) \/
      cbind (cparse n CPrim ts) (fun e ts => cparse n (CPost e) ts) = Some (Some (e, k))) as [(p & ts' & u & s & -> & Hu & H2)|H2].
    { destruct ts as [|[|p] ts]; auto. destruct (un_of p) as [[u s]|] eqn:E; auto. left. eauto 10. }
    + clear H. destruct (cparse n (if s then CUnary else CCast) ts') as [[[e1 ts1]|]|] eqn:E; try done. injection H2 as <- <-.
      apply un_of_spec in Hu. cbn [fits clev]. split; [|lia].
      assert (fits e1 = true /\ clev e1 <= if s then 1 else 2) as [F L] by (destruct s; exact (IH _ _ _ _ E I)).
      rewrite F. destruct u; subst s; destruct (Nat.leb_spec (clev e1) 2), (Nat.leb_spec (clev e1) 1); try lia; done.
    + clear H. destruct (cparse n CPrim ts) as [[[e1 ts1]|]|] eqn:E; try done. cbn [cbind] in H2.
      destruct (IH _ _ _ _ E I) as [F L]. destruct (IH _ _ _ _ H2 ltac:(done)) as [F2 L2]. split; [done|lia].
  - intros H [F L].
    assert (forall x, fits x = true -> clev x = 0 -> forall ts', cparse n (CPost x) ts' = Some (Some (e, k)) -> fits e = true /\ clev e = 0) as R.
    { intros x Fx Lx ts' Hx. exact (IH _ _ _ _ Hx (conj Fx Lx)). }
    destruct ts as [|[|[]] ts]; try (injection H as <- <-; done).
    + apply (R (EPost true e0) ltac:(cbn [fits]; rewrite F, L; done) eq_refl _ H).
    + apply (R (EPost false e0) ltac:(cbn [fits]; rewrite F, L; done) eq_refl _ H).
    + assert (ts = KP PRPar :: tail ts /\ cparse n (CPost (ECall e0 [])) (tail ts) = Some (Some (e, k)) \/
        cbind (cparse n (CArgs []) ts) (fun a ts => match a with ETuple es => cparse n (CPost (ECall e0 es)) ts | _ => Some None end) = Some (Some (e, k)))
        as [[_ H2]|H2]. { destruct ts as [|[|[]] ts]; auto. }
      * apply (R (ECall e0 []) ltac:(cbn [fits]; rewrite F, L; done) eq_refl _ H2).
      * destruct (cparse n (CArgs []) ts) as [[[a ts1]|]|] eqn:E; try done. cbn [cbind] in H2.
        destruct (IH _ _ _ _ E eq_refl) as (es & -> & FS). apply (R (ECall e0 es) ltac:(cbn [fits]; rewrite F, L, FS; done) eq_refl _ H2).
    + destruct (cparse n CExp ts) as [[[i ts1]|]|] eqn:E; try done. cbn [cbind] in H.
      destruct ts1 as [|[|[]] ts1]; try done. pose proof (IH _ _ _ _ E I) as F2. cbn in F2.
      apply (R (EIndex e0 i) ltac:(cbn [fits]; rewrite F, L, F2; done) eq_refl _ H).
  - intros H _. destruct ts as [|[[]|[]] ts]; try done; try (injection H as <- <-; done).
    destruct (cparse n CExp ts) as [[[i ts1]|]|] eqn:E; try done. cbn [cbind] in H.
    destruct ts1 as [|[|[]] ts1]; try done. injection H as <- <-. pose proof (IH _ _ _ _ E I) as F2. done.
  - intros H FS. destruct (cparse n CExp ts) as [[[i ts1]|]|] eqn:E; try done. cbn [cbind] in H.
    pose proof (IH _ _ _ _ E I) as F2. cbn in F2.
    assert (forallb fits (es ++ [i]) = true) as FS2 by (rewrite forallb_app; cbn; by rewrite FS, F2).
    destruct ts1 as [|[|[]] ts1]; try done.
    + injection H as <- <-. eauto.
    + exact (IH _ _ _ _ H FS2).
Qed.
Lemma fits_cform e : fits (cform e) = fits e.
Proof.
  induction e as [x|ng i|x|e IHe|es IHs|t e IHe|e1 e2 IHe1 IHe2|f es IHe IHs|ng e IHe|u e IHe|o e1 e2 IHe1 IHe2|
    |o e1 e2 IHe1 IHe2|e1 e2 e3 IHe1 IHe2 IHe3|e1 e2 IHe1 IHe2] using expr_ind'; cbn [cform fits];
    rewrite ?clev_cform; try congruence.
  - by destruct ng.
  - f_equal; [congruence|]. induction IHs; cbn; congruence.
Qed.
Lemma c_reads_fits ps e : c_reads ps (cform e) -> fits e = true.
Proof. intros [n H]. rewrite <- fits_cform. exact (cparse_fits _ _ _ _ _ H I). Qed.

(** ** The trees of the parser fit *)
Lemma prec_cprec o o' : c_op o = true -> c_op o' = true ->
  (prec o <= prec o' -> cprec o <= cprec o') /\ (prec o < prec o' -> cprec o < cprec o').
Proof. destruct o; try done; intros _; destruct o'; try done; intros _; cbn; lia. Qed.
Definition sel (p : nat) (e : expr) : Prop := match e with EBin o _ _ => prec o < p | _ => clev e <= 1 end.
Definition ok_tree (e : expr) : bool := in_c e && tern_ok e.
Lemma sel_12 p e : in_c e = true -> sel p e -> clev e <= 12.
Proof. destruct e as [| [] | | | | | | | | | | | | |]; cbn; try lia. rewrite !andb_true_iff. intros [[H _] _] _. pose proof (cprec_bound _ H). lia. Qed.

Lemma sel_low p e : in_c e = true -> clev e <= 1 -> sel p e.
Proof.
  destruct e as [| [] | | | | | | | | | o' ? ? | | | |]; cbn; auto.
  rewrite !andb_true_iff. intros [[H _] _] L. pose proof (cprec_bound o' H). lia.
Qed.
Lemma sel_le o p e : c_op o = true -> in_c e = true -> sel p e ->
  (p <= S (prec o) -> clev e <= cprec o) /\ (p <= prec o -> clev e < cprec o).
Proof.
  intros Ho Hi S. pose proof (cprec_bound o Ho) as B.
  assert (clev e <= 1 \/ exists o' a b, e = EBin o' a b) as [L|(o' & a & b & ->)].
  { destruct e; eauto. }
  - lia.
  - cbn [sel clev in_c] in *. rewrite !andb_true_iff in Hi. destruct Hi as [[Ho' _] _].
    destruct (prec_cprec o' o Ho' Ho) as [P1 P2]. split; intros; [apply P1|apply P2]; lia.
Qed.
Lemma D_fits :
  (forall e ts, DPrim e ts -> ok_tree e = true -> fits e = true /\ clev e = 0) /\
  (forall es ts, DMore es ts -> forallb ok_tree es = true -> forallb fits es = true) /\
  (forall es ts, DArgs es ts -> forallb ok_tree es = true -> forallb fits es = true) /\
  (forall e ts, DOper e ts -> ok_tree e = true -> fits e = true /\ clev e = 0) /\
  (forall e ts, DPrefix e ts -> ok_tree e = true -> fits e = true /\ clev e <= 1) /\
  (forall p e ts, DBin p e ts -> ok_tree e = true -> fits e = true /\ sel p e) /\
  (forall e ts, DAssign e ts -> ok_tree e = true -> fits e = true /\ (not_assign e = true -> clev e <= 12)) /\
  (forall e ts, DTern e ts -> ok_tree e = true -> fits e = true /\ (not_assign e = true -> clev e <= 13)).
Proof.
  assert (forall es, forallb in_c es = true -> forallb tern_ok es = true -> forallb ok_tree es = true) as FA.
  { induction es as [|e es IH]; [done|]. cbn. rewrite !andb_true_iff. unfold ok_tree at 1. rewrite andb_true_iff. intuition. }
  apply D_mutind; unfold ok_tree in *; cbn [in_c tern_ok fits clev forallb not_assign sel]; try done.
  all: intros;
    repeat match goal with
      | H : _ && _ = true |- _ => apply andb_true_iff in H
      | H : _ /\ _ |- _ => let a := fresh "J" in let b := fresh "J" in destruct H as [a b] end; subst.
  all: repeat match goal with
      | IH : in_c ?e && tern_ok ?e = true -> _, A : in_c ?e = true, B : tern_ok ?e = true |- _ =>
          specialize (IH (proj2 (andb_true_iff _ _) (conj A B)))
      | IH : forallb (fun _ => _) ?es = true -> _, A : forallb in_c ?es = true, B : forallb tern_ok ?es = true |- _ =>
          specialize (IH (FA es A B))
      | IH : forallb ?f ?es = true -> _, A : forallb ?f ?es = true |- _ => specialize (IH A)
      | H : _ /\ _ |- _ => let a := fresh "J" in let b := fresh "J" in destruct H as [a b] end.
  all: repeat match goal with H : fits _ = true |- _ => rewrite H | H : forallb fits _ = true |- _ => rewrite H
     | H : clev _ = 0 |- _ => rewrite H end.
  all: try (split; [done|done || lia]).
  all: rewrite ?andb_true_r; try done.
  - split; [|done]. destruct u; apply Nat.leb_le; lia.
  - split; [done|].
    apply sel_low; assumption.
  - split; [|done]. apply andb_true_iff.
    match goal with H : sel (S (prec o)) l, K : sel (prec o) r, C : c_op o = true, A : in_c l = true, B : in_c r = true |- _ =>
      rename H into S1; rename K into S2; rename C into Co; rename A into Il; rename B into Ir end.
    pose proof (cprec_bound o Co) as Bo. split; [apply Nat.leb_le|apply Nat.ltb_lt].
    + apply (sel_le o (S (prec o)) l); auto.
    + apply (sel_le o (prec o) r); auto.
  - split; [done|]. intros _. eapply sel_12; eassumption.
  - split; [by apply Nat.leb_le|done].
  - split; [|done]. rewrite andb_true_iff, Nat.ltb_lt, Nat.leb_le.
    repeat match goal with H : not_assign ?e = true, K : not_assign ?e = true -> _ |- _ => specialize (K H) end. lia.
  - split; [|done]. rewrite andb_true_iff, Nat.ltb_lt, Nat.leb_le.
    repeat match goal with H : not_assign ?e = true, K : not_assign ?e = true -> _ |- _ => specialize (K H) end. lia.
Qed.
Lemma fits_tern e : in_c e = true -> fits e = true -> tern_ok e = true.
Proof.
  induction e as [x|ng i|x|e IHe|es IHs|t e IHe|e1 e2 IHe1 IHe2|f es IHe IHs|ng e IHe|u e IHe|o e1 e2 IHe1 IHe2|
    |o e1 e2 IHe1 IHe2|e1 e2 e3 IHe1 IHe2 IHe3|e1 e2 IHe1 IHe2] using expr_ind';
    cbn [in_c fits tern_ok]; rewrite ?andb_true_iff; try done; intros Hi Hf;
    repeat match goal with H : _ /\ _ |- _ => let a := fresh "J" in let b := fresh "J" in destruct H as [a b] end; auto.
  - split; [auto|]. rewrite forallb_forall in *. rewrite Forall_forall in IHs. intros e He.
    apply IHs; auto. by apply elem_of_list_In.
  - repeat split; auto; [by destruct e1|by destruct e3].
  - repeat split; auto; [by destruct e1|by destruct e2].
Qed.

