(** Proofs about the expression parser. *)
From stdpp Require Import numbers list.
From Coq Require Import Lia ZifyBool ZifyNat.
From Verif Require Import ParseModel ParseSpec.

Scheme DPrim_mut := Minimality for DPrim Sort Prop
  with DMore_mut := Minimality for DMore Sort Prop
  with DArgs_mut := Minimality for DArgs Sort Prop
  with DOper_mut := Minimality for DOper Sort Prop
  with DPrefix_mut := Minimality for DPrefix Sort Prop
  with DBin_mut := Minimality for DBin Sort Prop
  with DAssign_mut := Minimality for DAssign Sort Prop
  with DTern_mut := Minimality for DTern Sort Prop.
Combined Scheme D_mutind from DPrim_mut, DMore_mut, DArgs_mut, DOper_mut, DPrefix_mut, DBin_mut, DAssign_mut, DTern_mut.

(** ** Fuel *)
Lemma parse_mono n : forall n' m ts r, n <= n' -> parse n m ts = Some r -> parse n' m ts = Some r.
Proof.
  induction n as [|n IH]; intros n' m ts r Hn; [done|].
  destruct n' as [|k]; [lia|]. apply le_S_n in Hn. specialize (fun m ts r => IH k m ts r Hn). clear Hn.
  cbn [parse].
  destruct m;
  repeat (cbn [bind];
    match goal with
    | |- parse n _ _ = Some _ -> parse k _ _ = Some _ => apply IH
    | |- ?a = Some _ -> ?a = Some _ => intros ?; assumption
    | |- bind (parse n ?m ?t) _ = _ -> _ =>
        let E := fresh in destruct (parse n m t) as [[[? ?]|]|] eqn:E;
        [rewrite (IH _ _ _ E)|rewrite (IH _ _ _ E)|discriminate]
    | |- (match ?x with _ => _ end) = _ -> _ => destruct x
    | |- (if ?x then _ else _) = _ -> _ => destruct x
    end).
Qed.
Lemma parse_det n n' m ts r r' : parse n m ts = Some r -> parse n' m ts = Some r' -> r = r'.
Proof.
  intros H H'. apply (parse_mono n (max n n')) in H; [|lia]. apply (parse_mono n' (max n n')) in H'; [|lia]. congruence.
Qed.

Definition strict (m : mode) : nat :=
  match m with MLoop _ _ | MPost _ => 0 | _ => 1 end.
Lemma parse_len n : forall m ts e rest,
  parse n m ts = ok e rest -> strict m + length rest <= length ts.
Proof.
  induction n as [|n IH]; intros m ts e rest; [done|].
  cbn [parse]. unfold ok, err in *.
  destruct m;
  repeat (cbn [bind];
    match goal with
    | |- parse n ?m ?t = _ -> _ => let E := fresh in intros E; apply IH in E
    | |- Some None = _ -> _ => discriminate
    | |- Some (Some _) = Some (Some _) -> _ => intros [= <- <-]
    | |- bind (parse n ?m ?t) _ = _ -> _ =>
        let E := fresh in destruct (parse n m t) as [[[? ?]|]|] eqn:E;
        [apply IH in E|discriminate|discriminate]
    | |- (match ?x with _ => _ end) = _ -> _ => destruct x
    | |- (if ?x then _ else _) = _ -> _ => destruct x
    end); cbn [strict length] in *;
  repeat match goal with H : context [length (tail ?l)] |- _ => destruct l; cbn [tail length] in * end; lia.
Qed.

Definition rank (m : mode) : nat :=
  match m with MPrefix => 1 | MAssign | MBin _ => 2 | MTern => 3 | MArgs _ => 4 | _ => 0 end.
Lemma parse_total n : forall m ts, 5 * length ts + rank m < n -> parse n m ts <> None.
Proof.
  induction n as [|n IH]; intros m ts Hn; [lia|].
  cbn [parse]. unfold ok, err.
  destruct m; cbn [rank] in Hn;
  repeat (cbn [bind];
    match goal with
    | |- parse n ?m ?t <> _ => apply IH; cbn [rank]
    | |- Some _ <> None => discriminate
    | |- bind (parse n ?m ?t) _ <> _ =>
        let E := fresh in destruct (parse n m t) as [[[? ?]|]|] eqn:E;
        [apply parse_len in E|discriminate|exfalso; apply (IH m t) in E; [exact E|cbn [rank]]]
    | |- (match ?x with _ => _ end) <> _ => destruct x
    | |- (if ?x then _ else _) <> _ => destruct x
    end); cbn [strict length] in *;
  repeat match goal with |- context [length (tail ?l)] => destruct l; cbn [tail length] in * end; lia.
Qed.
Lemma parse_expr_ok ts e : parse_expr ts = Some e <-> exists n, parse n MTern ts = ok e [].
Proof.
  unfold parse_expr.
  assert (parse (9 * length ts + 9) MTern ts <> None) as Ht by (apply parse_total; cbn; lia).
  destruct (parse _ MTern ts) as [[[e' [|t rest]]|]|] eqn:E; [| | |done]; split.
  - intros [= ->]. by eexists.
  - intros [n Hn]. pose proof (parse_det _ _ _ _ _ _ E Hn) as [= ->]. done.
  - done.
  - intros [n Hn]. by pose proof (parse_det _ _ _ _ _ _ E Hn).
  - done.
  - intros [n Hn]. by pose proof (parse_det _ _ _ _ _ _ E Hn).
Qed.

(** ** Every tree the parser returns is derived by the grammar *)
Definition next_op (ts : list tok) : option op :=
  match ts with
  | [] => None
  | t :: ts' => if bool_decide (t = TMinus /\ head ts' = Some TFunc) then None else binop_of t
  end.
Definition stopb (p : nat) (ts : list tok) : Prop := forall o, next_op ts = Some o -> p <= prec o.
Lemma DBin_mono p q e ts : p <= q -> DBin p e ts -> DBin q e ts.
Proof. intros Hq H. inversion H; subst; [by constructor|]. eapply D_bin; eauto; lia. Qed.

Definition sound (m : mode) (ts : list tok) (e : expr) (rest : list tok) : Prop :=
  plain e = true ->
  match m with
  | MTern => exists us, ts = us ++ rest /\ DTern e us
  | MAssign => exists us, ts = us ++ rest /\ DAssign e us
  | MBin p => exists us, ts = us ++ rest /\ DBin p e us /\ stopb p rest
  | MLoop p l => plain l = true /\ exists us, ts = us ++ rest /\ stopb p rest /\
      forall q ls, DBin q l ls -> q <= p -> (forall o, next_op ts = Some o -> q <= S (prec o)) -> DBin p e (ls ++ us)
  | MPrefix => exists us, ts = us ++ rest /\ DPrefix e us
  | MPost e0 => plain e0 = true /\ exists us, ts = us ++ rest /\ forall ls, DOper e0 ls -> DPrefix e (ls ++ us)
  | MPrimary => exists us, ts = us ++ rest /\ DPrim e us
  | MMore es => exists es' us, e = ETuple (es ++ es') /\ ts = us ++ TRParen :: rest /\ DMore es' us
  | MArgs es => exists es' us, e = ETuple (es ++ es') /\ ts = us ++ TRParen :: rest /\ DArgs es' us
  end.

Lemma bind_ok r f e rest : bind r f = ok e rest -> exists e1 ts1, r = ok e1 ts1 /\ f e1 ts1 = ok e rest.
Proof. destruct r as [[[e1 ts1]|]|]; cbn; [|done|done]. intros. by exists e1, ts1. Qed.
Lemma head_app_len {A} (us rest ts : list A) : ts = us ++ rest -> length rest < length ts -> head us = head ts.
Proof. intros ->. destruct us; [cbn; lia|done]. Qed.
Lemma head_not_app {A} (us rest ts : list A) a : ts = us ++ rest -> head ts <> Some a -> head us <> Some a.
Proof. intros ->. by destruct us. Qed.

Section sound_step.
  Context (n : nat) (IH : forall m ts e rest, parse n m ts = ok e rest -> sound m ts e rest).
  Lemma sound_tern ts e rest : parse (S n) MTern ts = ok e rest -> sound MTern ts e rest.
  Proof.
    cbn [parse]. intros (c & ts1 & Hc & H)%bind_ok Hp. apply IH in Hc.
    assert (forall x, ok c ts1 = ok x rest -> plain x = true -> exists us, ts = us ++ rest /\ DTern x us) as Hdone.
    { intros x [= -> ->] Hx. destruct (Hc Hx) as (us & -> & Hd). exists us. split; [done|]. by constructor. }
    destruct ts1 as [|t ts1]; [by apply Hdone|].
    destruct (decide (t = TQuestion)) as [->|Ht]; [|destruct t; try (by apply Hdone); done].
    destruct (decide (head ts1 = Some TColon)) as [Hh|Hh].
    - destruct ts1 as [|t ts1]; [done|]. injection Hh as ->.
      apply bind_ok in H as (b & ts2 & Hb & [= <- <-]). apply IH in Hb. cbn in Hp. apply andb_prop in Hp as [Hpc Hpb].
      destruct (Hc Hpc) as (us & -> & Hd). destruct (Hb Hpb) as (vs & -> & Hdb).
      exists (us ++ TQuestion :: TColon :: vs). split; [by rewrite <- app_assoc|]. by apply D_elvis.
    - assert (bind (parse n MTern ts1) (fun a ts =>
            match ts with
            | TColon :: ts => bind (parse n MTern ts) (fun b ts => ok (ETern c a b) ts)
            | _ => err
            end) = ok e rest) as H'.
      { destruct ts1 as [|[] ts1]; done. }
      apply bind_ok in H' as (a & ts2 & Ha & H2).
      destruct ts2 as [|t2 ts2]; [done|]. destruct (decide (t2 = TColon)) as [->|]; [|destruct t2; done].
      apply bind_ok in H2 as (b & ts3 & Hb & [= <- <-]).
      apply IH in Ha, Hb. cbn in Hp. apply andb_prop in Hp as [Hp Hpb]. apply andb_prop in Hp as [Hpc Hpa].
      destruct (Hc Hpc) as (us & -> & Hd). destruct (Ha Hpa) as (vs & -> & Hda). destruct (Hb Hpb) as (ws & -> & Hdb).
      exists (us ++ TQuestion :: vs ++ TColon :: ws). split; [by rewrite <- !app_assoc; cbn; rewrite <- app_assoc|].
      apply D_tern; try done. eapply head_not_app; [reflexivity|exact Hh].
  Qed.
  Lemma sound_assign ts e rest : parse (S n) MAssign ts = ok e rest -> sound MAssign ts e rest.
  Proof.
    cbn [parse]. intros (l & ts1 & Hl & H)%bind_ok Hp. apply IH in Hl.
    assert (parse n (MLoop max_prec l) ts1 = ok e rest -> exists us, ts = us ++ rest /\ DAssign e us) as Hdone.
    { intros Hlo. apply IH in Hlo. destruct (Hlo Hp) as (Hpl & vs & -> & Hs & Hd). destruct (Hl Hpl) as (us & -> & Hdl).
      exists (us ++ vs). split; [by rewrite <- app_assoc|]. apply D_binary. apply (Hd 0); [by constructor|lia|lia]. }
    destruct ts1 as [|t ts1]; [by apply Hdone|].
    destruct t; try (by apply Hdone).
    apply bind_ok in H as (r & ts2 & Hr & [= <- <-]). apply IH in Hr. cbn in Hp. apply andb_prop in Hp as [Hpl Hpr].
    destruct (Hl Hpl) as (us & -> & Hd). destruct (Hr Hpr) as (vs & -> & Hdr).
    exists (us ++ TAssign o :: vs). split; [by rewrite <- app_assoc|]. by apply D_assign.
  Qed.
  Lemma sound_bin p ts e rest : parse (S n) (MBin p) ts = ok e rest -> sound (MBin p) ts e rest.
  Proof.
    cbn [parse]. intros (l & ts1 & Hl & Hlo)%bind_ok Hp. apply IH in Hl, Hlo.
    destruct (Hlo Hp) as (Hpl & vs & -> & Hs & Hd). destruct (Hl Hpl) as (us & -> & Hdl).
    exists (us ++ vs). split; [by rewrite <- app_assoc|]. split; [|done]. apply (Hd 0); [by constructor|lia|lia].
  Qed.
  Lemma sound_loop p l ts e rest : parse (S n) (MLoop p l) ts = ok e rest -> sound (MLoop p l) ts e rest.
  Proof.
    cbn [parse]. intros H Hp.
    assert (stopb p ts -> ok l ts = ok e rest ->
      plain l = true /\ exists us, ts = us ++ rest /\ stopb p rest /\
      forall q ls, DBin q l ls -> q <= p -> (forall o, next_op ts = Some o -> q <= S (prec o)) -> DBin p e (ls ++ us)) as Hdone.
    { intros Hs [= -> ->]. split; [done|]. exists []. split_and!; [done|done|]. intros q ls Hd Hq _.
      rewrite app_nil_r. by apply (DBin_mono q). }
    destruct ts as [|t ts']; [by apply Hdone|].
    case_bool_decide as Hf; [apply Hdone; [|done]; intros o; cbn [next_op]; by rewrite bool_decide_eq_true_2|].
    destruct (binop_of t) as [o|] eqn:Ho; [|apply Hdone; [|done]; intros o; cbn [next_op]; by rewrite bool_decide_eq_false_2, Ho].
    destruct (p <=? prec o) eqn:Hpo;
      [apply Hdone; [|done]; intros o'; cbn [next_op]; rewrite bool_decide_eq_false_2, Ho by done; intros [= <-]; lia|].
    case_bool_decide as Hc.
    { apply IH in H. destruct (H Hp) as [Hb _]. cbn in Hb. by rewrite andb_false_r in Hb. }
    apply bind_ok in H as (r & ts2 & Hr & Hlo). apply IH in Hr, Hlo.
    destruct (Hlo Hp) as (Hb & vs & -> & Hs & Hd). cbn in Hb. apply andb_prop in Hb as [Hpl Hpr].
    destruct (Hr Hpr) as (us & -> & Hdr & Hsr). split; [done|].
    exists (t :: us ++ vs). split; [cbn; by rewrite <- app_assoc|]. split; [done|].
    intros q ls Hdl Hq Hnext.
    replace (ls ++ t :: us ++ vs) with ((ls ++ t :: us) ++ vs) by (by rewrite <- app_assoc).
    apply (Hd (S (prec o))); [|lia|].
    - eapply D_bin; [done|lia| |done]. apply (DBin_mono q); [|done]. apply Hnext. cbn [next_op].
      by rewrite bool_decide_eq_false_2, Ho.
    - intros o' Ho'. specialize (Hsr _ Ho'). lia.
  Qed.
  Lemma sound_prefix ts e rest : parse (S n) MPrefix ts = ok e rest -> sound MPrefix ts e rest.
  Proof.
    cbn [parse]. intros H Hp.
    destruct ts as [|t ts]; [done|].
    assert (forall u, prefix_of t = Some u -> ~ ((t = TMinus \/ t = TPlus) /\ exists k, head ts = Some (TInt k)) ->
      bind (parse n MPrefix ts) (fun e ts => ok (EUn u e) ts) = ok e rest ->
      exists us, t :: ts = us ++ rest /\ DPrefix e us) as Hun.
    { intros u Hu Hint (a & ts1 & Ha & [= <- <-])%bind_ok. pose proof (parse_len _ _ _ _ _ Ha) as Hlen. apply IH in Ha.
      destruct (Ha Hp) as (us & -> & Hd). exists (t :: us). split; [done|]. apply D_un; try done.
      intros [? [k Hk]]. apply Hint. split; [done|]. exists k. destruct us; done. }
    assert (bind (parse n MPrimary (t :: ts)) (fun e ts => parse n (MPost e) ts) = ok e rest ->
      exists us, t :: ts = us ++ rest /\ DPrefix e us) as Hpost.
    { intros (a & ts1 & Ha & Hb)%bind_ok. apply IH in Ha, Hb. destruct (Hb Hp) as (Hpa & us & -> & Hd).
      destruct (Ha Hpa) as (vs & -> & Hda). exists (vs ++ us). split; [by rewrite <- app_assoc|]. apply Hd. by constructor. }
    destruct t; try (by apply Hpost); try (eapply Hun; [done| |exact H]; naive_solver).
    - destruct ts as [|t ts]; [eapply Hun; [done| |exact H]; naive_solver|].
      destruct t; try (eapply Hun; [done| |exact H]; naive_solver).
      injection H as <- <-. exists [TPlus; TInt k]. split; [done|]. apply D_pos.
    - destruct ts as [|t ts]; [eapply Hun; [done| |exact H]; naive_solver|].
      destruct t; try (eapply Hun; [done| |exact H]; naive_solver).
      injection H as <- <-. exists [TMinus; TInt k]. split; [done|]. apply D_neg.
    - destruct ts as [|t ts]; [done|]. destruct t; try done. injection H as <- <-.
      exists [TColon; TId x]. split; [done|]. apply D_sym.
  Qed.
  Lemma sound_post e0 ts e rest : parse (S n) (MPost e0) ts = ok e rest -> sound (MPost e0) ts e rest.
  Proof.
    cbn [parse]. intros H Hp.
    assert (ok e0 ts = ok e rest ->
      plain e0 = true /\ exists us, ts = us ++ rest /\ forall ls, DOper e0 ls -> DPrefix e (ls ++ us)) as Hdone.
    { intros [= -> ->]. split; [done|]. exists []. split; [done|]. intros. rewrite app_nil_r. by apply D_oper. }
    destruct ts as [|t ts]; [by apply Hdone|]. destruct t; try (by apply Hdone); try done.
    - injection H as <- <-. split; [done|]. exists [TPlusPlus]. split; [done|]. intros. by apply D_inc.
    - injection H as <- <-. split; [done|]. exists [TMinusMinus]. split; [done|]. intros. by apply D_dec.
    - apply bind_ok in H as (a & ts1 & Ha & Hb). destruct a; try done. apply IH in Ha, Hb.
      destruct (Hb Hp) as (Hpc & vs & -> & Hd). cbn in Hpc. apply andb_prop in Hpc as [Hp0 Hpa].
      destruct (Ha Hpa) as (es' & us & [= ->] & -> & Hda). split; [done|].
      exists (TLParen :: us ++ TRParen :: vs). split; [cbn; by rewrite <- app_assoc|]. intros ls Hl.
      replace (ls ++ TLParen :: us ++ TRParen :: vs) with ((ls ++ TLParen :: us ++ [TRParen]) ++ vs)
        by (rewrite <- !app_assoc; cbn; by rewrite <- app_assoc).
      apply Hd. by apply D_call.
    - apply bind_ok in H as (i & ts1 & Hi & Hb). destruct ts1 as [|[] ts1]; try done. apply IH in Hi, Hb.
      destruct (Hb Hp) as (Hpc & vs & -> & Hd). cbn in Hpc. apply andb_prop in Hpc as [Hp0 Hpi].
      destruct (Hi Hpi) as (us & -> & Hdi). split; [done|].
      exists (TIndex :: us ++ TRBracket :: vs). split; [cbn; by rewrite <- app_assoc|]. intros ls Hl.
      replace (ls ++ TIndex :: us ++ TRBracket :: vs) with ((ls ++ TIndex :: us ++ [TRBracket]) ++ vs)
        by (rewrite <- !app_assoc; cbn; by rewrite <- app_assoc).
      apply Hd. by apply D_index.
  Qed.
  Lemma sound_primary ts e rest : parse (S n) MPrimary ts = ok e rest -> sound MPrimary ts e rest.
  Proof.
    cbn [parse]. intros H Hp.
    destruct ts as [|[] ts]; try done.
    - injection H as <- <-. exists [TId x]. split; [done|]. constructor.
    - injection H as <- <-. exists [TInt k]. split; [done|]. constructor.
    - destruct ts as [|[] [|[] ts]]; try done. apply bind_ok in H as (a & ts1 & Ha & [= <- <-]). done.
    - apply bind_ok in H as (a & ts1 & Ha & H). apply IH in Ha. destruct ts1 as [|[] ts1]; try done.
      + injection H as <- <-. destruct (Ha Hp) as (us & -> & Hd). exists (TLParen :: us ++ [TRParen]).
        split; [cbn; by rewrite <- app_assoc|]. by constructor.
      + apply IH in H. destruct (H Hp) as (es & us & -> & Hts & Hd). cbn in Hp. apply andb_prop in Hp as [Hpa _].
        destruct (Ha Hpa) as (vs & -> & Hda). exists (TLParen :: vs ++ us ++ [TRParen]). rewrite Hts.
        split; [cbn; by rewrite <- !app_assoc|]. apply D_tuple; try done. intros ->. by inversion Hd; subst.
  Qed.
  Lemma sound_more es ts e rest : parse (S n) (MMore es) ts = ok e rest -> sound (MMore es) ts e rest.
  Proof.
    cbn [parse]. intros H Hp. destruct ts as [|[] ts]; try done.
    - injection H as <- <-. exists [], []. rewrite app_nil_r. split; [done|]. split; [done|]. constructor.
    - apply bind_ok in H as (a & ts1 & Ha & H). apply IH in Ha, H. destruct (H Hp) as (es' & us & -> & -> & Hd).
      cbn in Hp. rewrite !forallb_app in Hp. cbn in Hp.
        assert (plain a = true) as Hpa by (destruct (plain a); [done|]; by rewrite !andb_false_r in Hp). destruct (Ha Hpa) as (vs & -> & Hda).
      exists (a :: es'), (TComma :: vs ++ us). rewrite <- !app_assoc. split; [done|]. split; [cbn; by rewrite <- app_assoc|].
      by constructor.
  Qed.
  Lemma sound_args es ts e rest : parse (S n) (MArgs es) ts = ok e rest -> sound (MArgs es) ts e rest.
  Proof.
    cbn [parse]. intros H Hp.
    assert (bind (parse n MTern ts) (fun e ts =>
          match ts with
          | TComma :: ts => parse n (MArgs (es ++ [e])) ts
          | TRParen :: _ => parse n (MArgs (es ++ [e])) ts
          | _ => err
          end) = ok e rest -> exists es' us, e = ETuple (es ++ es') /\ ts = us ++ TRParen :: rest /\ DArgs es' us) as Hs.
    { clear H. intros (a & ts1 & Ha & H)%bind_ok. apply IH in Ha. destruct ts1 as [|[] ts1]; try done.
      - destruct n as [|n']; [done|]. injection H as <- <-.
        cbn in Hp. rewrite !forallb_app in Hp. cbn in Hp.
        assert (plain a = true) as Hpa by (destruct (plain a); [done|]; by rewrite !andb_false_r in Hp). destruct (Ha Hpa) as (vs & -> & Hda).
        exists [a], vs. split_and!; try done. by apply D_args_one.
      - apply IH in H. destruct (H Hp) as (es' & us & -> & -> & Hd).
        cbn in Hp. rewrite !forallb_app in Hp. cbn in Hp.
        assert (plain a = true) as Hpa by (destruct (plain a); [done|]; by rewrite !andb_false_r in Hp). destruct (Ha Hpa) as (vs & -> & Hda).
        exists (a :: es'), (vs ++ TComma :: us). rewrite <- !app_assoc. split; [done|]. split; [cbn; done|].
        by apply D_args_cons. }
    destruct ts as [|t ts]; [done|]. destruct t; try (by apply Hs).
    injection H as <- <-. exists [], []. rewrite app_nil_r. split; [done|]. split; [done|]. constructor.
  Qed.
End sound_step.
Lemma parse_sound n : forall m ts e rest, parse n m ts = ok e rest -> sound m ts e rest.
Proof.
  induction n as [|n IH]; [done|]. intros [].
  - by apply sound_tern.
  - by apply sound_assign.
  - by apply sound_bin.
  - by apply sound_loop.
  - by apply sound_prefix.
  - by apply sound_post.
  - by apply sound_primary.
  - by apply sound_more.
  - by apply sound_args.
Qed.

(** ** Every derived tree is returned *)
Definition starts_oper (t : tok) : bool := match t with TId _ | TInt _ | TLParen => true | _ => false end.
Definition starts (t : tok) : bool :=
  starts_oper t || bool_decide (t = TColon) || match prefix_of t with Some _ => true | None => false end.
Definition begins (f : tok -> bool) (ts : list tok) : Prop := exists t ts', ts = t :: ts' /\ f t = true.
Lemma begins_app f ts us : begins f ts -> begins f (ts ++ us).
Proof. intros (t & ts' & -> & Ht). by exists t, (ts' ++ us). Qed.
Lemma begins_starts ts : begins starts_oper ts -> begins starts ts.
Proof. intros (t & ts' & -> & Ht). exists t, ts'. split; [done|]. unfold starts. by rewrite Ht. Qed.
Lemma D_begins :
  (forall e ts, DPrim e ts -> begins starts_oper ts) /\
  (forall es ts, DMore es ts -> True) /\
  (forall es ts, DArgs es ts -> True) /\
  (forall e ts, DOper e ts -> begins starts_oper ts) /\
  (forall e ts, DPrefix e ts -> begins starts ts) /\
  (forall p e ts, DBin p e ts -> begins starts ts) /\
  (forall e ts, DAssign e ts -> begins starts ts) /\
  (forall e ts, DTern e ts -> begins starts ts).
Proof.
  apply D_mutind; intros; auto using begins_app, begins_starts; try (by eexists _, _).
  exists t, ts. split; [done|]. unfold starts. rewrite H. by rewrite orb_true_r.
Qed.

Definition stop_post (ts : list tok) : Prop :=
  match ts with [] => True | t :: _ => t <> TPlusPlus /\ t <> TMinusMinus /\ t <> TIndex /\ t <> TLParen /\ t <> TLNot end.
Definition no_assign (ts : list tok) : Prop := forall o, head ts <> Some (TAssign o).
Definition stop_ass (ts : list tok) : Prop := stop_post ts /\ no_assign ts /\ next_op ts = None.
Definition stop_tern (ts : list tok) : Prop := stop_ass ts /\ head ts <> Some TQuestion.

Lemma post_stop n e ts : stop_post ts -> parse (S n) (MPost e) ts = ok e ts.
Proof. destruct ts as [|[] ts]; cbn; try done; naive_solver. Qed.
Lemma loop_stop n p e ts : stopb p ts -> parse (S n) (MLoop p e) ts = ok e ts.
Proof.
  intros Hs. cbn [parse]. destruct ts as [|t ts]; [done|]. unfold stopb in Hs. cbn [next_op] in Hs.
  case_bool_decide; [done|]. destruct (binop_of t) as [o|]; [|done]. specialize (Hs o eq_refl).
  by destruct (Nat.leb_spec p (prec o)); [|lia].
Qed.
Lemma loop_op n p l t o ts : next_op (t :: ts) = Some o -> prec o < p -> head ts <> Some TDiscard ->
  parse (S n) (MLoop p l) (t :: ts) = bind (parse n (MBin (prec o)) ts) (fun r ts => parse n (MLoop p (EBin o l r)) ts).
Proof.
  cbn [next_op parse]. intros Ho Hp Hd. case_bool_decide; [done|]. rewrite Ho.
  destruct (Nat.leb_spec p (prec o)); [lia|]. by rewrite bool_decide_eq_false_2 by naive_solver.
Qed.
Lemma prefix_oper n ts : begins starts_oper ts ->
  parse (S n) MPrefix ts = bind (parse n MPrimary ts) (fun e ts => parse n (MPost e) ts).
Proof. intros (t & ts' & -> & Ht). by destruct t. Qed.
Lemma tern_stop n ts c ts1 : parse n MAssign ts = ok c ts1 -> head ts1 <> Some TQuestion ->
  parse (S n) MTern ts = ok c ts1.
Proof. cbn [parse]. intros -> H. cbn [bind ok]. by destruct ts1 as [|[] ts1]. Qed.
Lemma tern_elvis n ts c ts1 : parse n MAssign ts = ok c (TQuestion :: TColon :: ts1) ->
  parse (S n) MTern ts = bind (parse n MTern ts1) (fun b ts => ok (EElvis c b) ts).
Proof. cbn [parse]. intros ->. done. Qed.
Lemma tern_full n ts c ts1 a ts2 : parse n MAssign ts = ok c (TQuestion :: ts1) -> head ts1 <> Some TColon ->
  parse n MTern ts1 = ok a (TColon :: ts2) ->
  parse (S n) MTern ts = bind (parse n MTern ts2) (fun b ts => ok (ETern c a b) ts).
Proof. cbn [parse]. intros -> H Ha. cbn [bind ok]. destruct ts1 as [|[] ts1]; try (by rewrite Ha); done. Qed.
Lemma assign_loop n ts l ts1 : parse n MPrefix ts = ok l ts1 -> no_assign ts1 ->
  parse (S n) MAssign ts = parse n (MLoop 14 l) ts1.
Proof. cbn [parse]. intros -> H. cbn [bind ok]. destruct ts1 as [|[] ts1]; try done. by destruct (H o). Qed.
Lemma args_step n es ts : begins starts ts ->
  parse (S n) (MArgs es) ts = bind (parse n MTern ts) (fun e ts =>
          match ts with
          | TComma :: ts => parse n (MArgs (es ++ [e])) ts
          | TRParen :: _ => parse n (MArgs (es ++ [e])) ts
          | _ => err
          end).
Proof. intros (t & ts' & -> & Ht). by destruct t. Qed.
Lemma binop_next t o ts : binop_of t = Some o -> begins starts ts -> next_op (t :: ts) = Some o.
Proof.
  intros Ho (t' & ts' & -> & Ht). cbn [next_op]. rewrite bool_decide_eq_false_2; [done|]. intros [_ [= ->]]. done.
Qed.
Lemma binop_post t o ts : binop_of t = Some o -> stop_post (t :: ts) /\ no_assign (t :: ts).
Proof. intros Ho. destruct t; try done; split; try done; repeat split; done. Qed.
Ltac mono H n := apply (parse_mono _ n) in H; [|lia].

Lemma D_complete :
  (forall e ts, DPrim e ts -> forall rest, exists n, parse n MPrimary (ts ++ rest) = ok e rest) /\
  (forall es us, DMore es us -> forall acc rest, exists n, parse n (MMore acc) (us ++ TRParen :: rest) = ok (ETuple (acc ++ es)) rest) /\
  (forall es us, DArgs es us -> forall acc rest, exists n, parse n (MArgs acc) (us ++ TRParen :: rest) = ok (ETuple (acc ++ es)) rest) /\
  (forall e ts, DOper e ts -> forall rest r n, parse n (MPost e) rest = Some r ->
     exists n', parse n' MPrefix (ts ++ rest) = Some r) /\
  (forall e ts, DPrefix e ts -> forall rest, stop_post rest -> exists n, parse n MPrefix (ts ++ rest) = ok e rest) /\
  (forall p e ts, DBin p e ts -> forall q rest r n, p <= q -> stop_post rest -> no_assign rest ->
     (forall o, next_op rest = Some o -> p <= S (prec o)) -> parse n (MLoop q e) rest = Some r ->
     exists n' l0 rest0, parse n' MPrefix (ts ++ rest) = ok l0 rest0 /\ no_assign rest0 /\ parse n' (MLoop q l0) rest0 = Some r) /\
  (forall e ts, DAssign e ts -> forall rest, stop_ass rest -> exists n, parse n MAssign (ts ++ rest) = ok e rest) /\
  (forall e ts, DTern e ts -> forall rest, stop_tern rest -> exists n, parse n MTern (ts ++ rest) = ok e rest).
Proof.
  destruct D_begins as (B1 & _ & _ & B4 & B5 & B6 & B7 & B8).
  apply D_mutind.
  - intros x rest. by exists 1.
  - intros k rest. by exists 1.
  - intros e ts _ IH rest. destruct (IH (TRParen :: rest)) as [n Hn]; [done|].
    exists (S n). cbn [parse app]. rewrite <- app_assoc. cbn [app]. by rewrite Hn.
  - intros e ts es us _ IH Hne Hm IHm rest.
    destruct (IHm [e] rest) as [n2 Hn2].
    assert (exists vs, us = TComma :: vs) as [vs ->] by (inversion Hm; subst; [done|by eexists]).
    destruct (IH ((TComma :: vs) ++ TRParen :: rest)) as [n Hn]; [done|].
    exists (S (n + n2)). mono Hn (n + n2). mono Hn2 (n + n2).
    replace ((TLParen :: ts ++ (TComma :: vs) ++ [TRParen]) ++ rest)
      with (TLParen :: ts ++ (TComma :: vs) ++ TRParen :: rest) by (cbn; rewrite <- !app_assoc; cbn; by rewrite <- app_assoc).
    cbn [parse]. rewrite Hn. exact Hn2.
  - intros acc rest. exists 1. cbn. by rewrite app_nil_r.
  - intros e ts es us _ IH Hm IHm acc rest. destruct (IHm (acc ++ [e]) rest) as [n2 Hn2].
    destruct (IH (us ++ TRParen :: rest)) as [n Hn]; [by inversion Hm|].
    exists (S (n + n2)). mono Hn (n + n2). mono Hn2 (n + n2). cbn [parse app]. rewrite <- app_assoc, Hn. cbn [bind ok].
    by rewrite Hn2, <- app_assoc.
  - intros acc rest. exists 1. cbn. by rewrite app_nil_r.
  - intros e ts He IH acc rest. destruct (IH (TRParen :: rest)) as [n Hn]; [done|].
    exists (S (S n)). rewrite args_step by (apply begins_app; eauto). mono Hn (S n). by rewrite Hn.
  - intros e ts es us He IH _ IHa acc rest. destruct (IHa (acc ++ [e]) rest) as [n2 Hn2].
    destruct (IH (TComma :: us ++ TRParen :: rest)) as [n Hn]; [done|].
    exists (S (n + n2)). mono Hn (n + n2). mono Hn2 (n + n2). rewrite <- app_assoc. cbn [app].
    rewrite args_step by (apply begins_app; eauto). rewrite Hn. cbn [bind ok]. by rewrite Hn2, <- app_assoc.
  - intros e ts He IH rest r n Hn. destruct (IH rest) as [n1 H1]. exists (S (n + n1)).
    mono Hn (n + n1). mono H1 (n + n1).
    rewrite prefix_oper by (apply begins_app; eauto). by rewrite H1.
  - intros e ts i us _ IH _ IHi rest r n Hn. destruct (IHi (TRBracket :: rest)) as [n1 H1]; [done|].
    rewrite <- app_assoc. cbn [app]. rewrite <- app_assoc. cbn [app].
    mono Hn (n + n1). mono H1 (n + n1). apply (IH _ _ (S (n + n1))). cbn [parse]. by rewrite H1.
  - intros e ts es us _ IH _ IHa rest r n Hn. destruct (IHa [] rest) as [n1 H1].
    rewrite <- app_assoc. cbn [app]. rewrite <- app_assoc. cbn [app].
    mono Hn (n + n1). mono H1 (n + n1). apply (IH _ _ (S (n + n1))). cbn [parse]. by rewrite H1.
  - intros e ts _ IH rest Hs. by apply (IH rest _ 1), post_stop.
  - intros e ts _ IH rest Hs. rewrite <- app_assoc. by apply (IH _ _ 1).
  - intros e ts _ IH rest Hs. rewrite <- app_assoc. by apply (IH _ _ 1).
  - intros k rest _. by exists 1.
  - intros k rest _. by exists 1.
  - intros x rest _. by exists 1.
  - intros t u e ts Ht He IH Hint rest Hs. destruct (IH rest Hs) as [n Hn]. exists (S n).
    destruct (B5 _ _ He) as (t' & ts' & -> & _).
    cbn [app] in *. cbn [parse].
    destruct t; try discriminate Ht; injection Ht as <-; try (by rewrite Hn).
    + destruct t'; try (by rewrite Hn). destruct Hint. split; [by right|by eexists].
    + destruct t'; try (by rewrite Hn). destruct Hint. split; [by left|by eexists].
  - intros p e ts _ IH q rest r n Hq Hs Ha _ Hn. destruct (IH rest Hs) as [n1 H1].
    exists (n + n1), e, rest. mono Hn (n + n1). by mono H1 (n + n1).
  - intros p t o l ts r us Ht Ho Hl IHl Hr IHr q rest res n Hq Hs Ha Hnext Hn.
    assert (begins starts (us ++ rest)) as Hb by (apply begins_app; eauto).
    destruct (IHr (prec o) rest (Some (r, rest)) 1) as (n1 & l0 & rest0 & H1 & _ & H2); [lia|done|done| |apply loop_stop|].
    { intros o' Ho'. specialize (Hnext _ Ho'). lia. }
    { intros o' Ho'. specialize (Hnext _ Ho'). lia. }
    rewrite <- app_assoc. cbn [app]. destruct (binop_post _ _ (us ++ rest) Ht) as [Hs1 Ha1].
    apply (IHl q _ _ (S (S (n + n1)))); [lia|done|done| |].
    { intros o'. rewrite (binop_next _ o) by done. by intros [= <-]. }
    rewrite (loop_op _ _ _ _ o); [|by apply binop_next|lia|].
    2: { destruct Hb as (t' & ts' & -> & Hst). intros [= ->]. done. }
    mono H1 (n + n1). mono H2 (n + n1). mono Hn (S (n + n1)).
    assert (parse (S (n + n1)) (MBin (prec o)) (us ++ rest) = ok r rest) as -> by (cbn [parse]; rewrite H1; done).
    done.
  - intros e ts _ IH rest (Hs & Ha & Hno). destruct (IH 14 rest (Some (e, rest)) 1) as (n1 & l0 & rest0 & H1 & H2 & H3); [lia|done|done| | |].
    { by rewrite Hno. }
    { apply loop_stop. intros o. by rewrite Hno. }
    exists (S n1). by rewrite (assign_loop _ _ _ _ H1 H2).
  - intros o l ts r us _ IHl _ IHr rest Hs. destruct (IHr rest Hs) as [n2 H2].
    destruct (IHl (TAssign o :: us ++ rest)) as [n1 H1]; [done|].
    exists (S (n1 + n2)). mono H1 (n1 + n2). mono H2 (n1 + n2). rewrite <- app_assoc. cbn [app parse]. rewrite H1.
    cbn [bind ok]. by rewrite H2.
  - intros e ts _ IH rest [Hs Hq]. destruct (IH rest Hs) as [n Hn]. exists (S n). by apply tern_stop.
  - intros c ts b us _ IHc _ IHb rest Hs. destruct (IHb rest Hs) as [n2 H2].
    destruct (IHc (TQuestion :: TColon :: us ++ rest)) as [n1 H1]; [done|].
    exists (S (n1 + n2)). mono H1 (n1 + n2). mono H2 (n1 + n2). rewrite <- app_assoc. cbn [app].
    rewrite (tern_elvis _ _ _ _ H1), H2. done.
  - intros c ts a us b vs _ IHc Ha IHa Hhd _ IHb rest Hs. destruct (IHb rest Hs) as [n2 H2].
    destruct (IHa (TColon :: vs ++ rest)) as [n3 H3]; [done|].
    destruct (IHc (TQuestion :: us ++ TColon :: vs ++ rest)) as [n1 H1]; [done|].
    exists (S (n1 + n2 + n3)). mono H1 (n1 + n2 + n3). mono H2 (n1 + n2 + n3). mono H3 (n1 + n2 + n3).
    rewrite <- app_assoc. cbn [app]. rewrite <- app_assoc. cbn [app].
    assert (head (us ++ TColon :: vs ++ rest) <> Some TColon) as Hhd'
      by (destruct (B8 _ _ Ha) as (t' & ts' & -> & _); done).
    rewrite (tern_full _ _ _ _ _ _ H1 Hhd' H3). by rewrite H2.
Qed.

(** ** Printing *)
Section expr_ind.
  Context (P : expr -> Prop).
  Context (Hid : forall x, P (EId x)) (Hint : forall b k, P (EInt b k)) (Hsym : forall x, P (ESym x))
    (Hgroup : forall e, P e -> P (EGroup e)) (Htuple : forall es, Forall P es -> P (ETuple es))
    (Hcast : forall t e, P e -> P (ECast t e)) (Hindex : forall a i, P a -> P i -> P (EIndex a i))
    (Hcall : forall f es, P f -> Forall P es -> P (ECall f es)) (Hpost : forall b e, P e -> P (EPost b e))
    (Hun : forall u e, P e -> P (EUn u e)) (Hbin : forall o l r, P l -> P r -> P (EBin o l r)) (Hdiscard : P EDiscard)
    (Hassign : forall o l r, P l -> P r -> P (EAssign o l r)) (Htern : forall a b c, P a -> P b -> P c -> P (ETern a b c))
    (Helvis : forall a b, P a -> P b -> P (EElvis a b)).
  Fixpoint expr_ind' (e : expr) : P e :=
    let go := fix go (es : list expr) : Forall P es :=
      match es with [] => Forall_nil_2 _ | e :: es => Forall_cons_2 _ _ _ (expr_ind' e) (go es) end in
    match e with
    | EId x => Hid x | EInt b k => Hint b k | ESym x => Hsym x
    | EGroup e => Hgroup e (expr_ind' e) | ETuple es => Htuple es (go es)
    | ECast t e => Hcast t e (expr_ind' e) | EIndex a i => Hindex a i (expr_ind' a) (expr_ind' i)
    | ECall f es => Hcall f es (expr_ind' f) (go es) | EPost b e => Hpost b e (expr_ind' e)
    | EUn u e => Hun u e (expr_ind' e) | EBin o l r => Hbin o l r (expr_ind' l) (expr_ind' r)
    | EDiscard => Hdiscard
    | EAssign o l r => Hassign o l r (expr_ind' l) (expr_ind' r)
    | ETern a b c => Htern a b c (expr_ind' a) (expr_ind' b) (expr_ind' c)
    | EElvis a b => Helvis a b (expr_ind' a) (expr_ind' b)
    end.
End expr_ind.

Lemma strip_par k e : strip (par k e) = strip e.
Proof. unfold par. by destruct (_ <=? _). Qed.
Lemma strip_par_if b e : strip (par_if b e) = strip e.
Proof. by destruct b. Qed.
Lemma strip_addp e : strip (addp e) = strip e.
Proof.
  induction e using expr_ind'; cbn [addp strip]; try done; cbv zeta;
    rewrite ?strip_par, ?strip_par_if, ?strip_par, ?strip_par_if; try congruence.
  - f_equal. rewrite map_map. apply map_ext_Forall. done.
  - f_equal; [done|]. rewrite map_map. apply map_ext_Forall. done.
Qed.

Lemma flat_ne e : flat e <> [].
Proof. destruct e; cbn; try done; try (by destruct neg); intros H%(f_equal length); rewrite app_length in H; cbn in H; lia. Qed.
Lemma head_flat_app e (l : list tok) : head (flat e ++ l) = head (flat e).
Proof. pose proof (flat_ne e). by destruct (flat e). Qed.
Lemma head_int_flat e k : head (flat e) = Some (TInt k) -> head_int e = true.
Proof.
  induction e using expr_ind'; cbn [flat head_int]; rewrite ?head_flat_app; try done.
  - by destruct b.
  - by destruct u.
Qed.
Lemma head_sym_flat e : head (flat e) = Some TColon -> head_sym e = true.
Proof.
  induction e using expr_ind'; cbn [flat head_sym]; rewrite ?head_flat_app; try done.
  - by destruct b.
  - by destruct u.
Qed.

Record derives (a : expr) : Prop := {
  d_tern : DTern a (flat a);
  d_ass : lev a <= 15 -> DAssign a (flat a);
  d_bin : forall p, lev a < p -> lev a < 14 -> DBin p a (flat a);
  d_pre : lev a <= 1 -> DPrefix a (flat a);
  d_oper : lev a = 0 -> DOper a (flat a) }.
Lemma derives_pre_all a : DPrefix a (flat a) -> (lev a = 0 -> DOper a (flat a)) -> derives a.
Proof.
  intros. constructor; intros; auto.
  - by apply D_ass, D_binary, D_prefix.
  - by apply D_binary, D_prefix.
  - by apply D_prefix.
Qed.
Lemma derives_oper a : DOper a (flat a) -> derives a.
Proof. intros. apply derives_pre_all; [by apply D_oper|done]. Qed.
Lemma derives_pre a : 1 <= lev a -> DPrefix a (flat a) -> derives a.
Proof. intros Hl ?. apply derives_pre_all; [done|lia]. Qed.
Lemma derives_group a : derives a -> derives (EGroup a).
Proof. intros [? _ _ _ _]. apply derives_oper. cbn. by apply D_prim, D_group. Qed.
Lemma derives_par k a : derives a -> derives (par k a) /\ lev (par k a) <= k.
Proof. intros. unfold par. destruct (Nat.leb_spec (lev a) k); [done|]. split; [by apply derives_group|]. cbn. lia. Qed.
Lemma derives_par_if b k a : derives a -> lev a <= k -> derives (par_if b a) /\ lev (par_if b a) <= k.
Proof. intros. destruct b; cbn; [|done]. split; [by apply derives_group|lia]. Qed.
Lemma prec_bound o : 2 <= prec o <= 13.
Proof. destruct o; cbn; lia. Qed.
Lemma binop_tok o : binop_of (tok_of o) = Some o.
Proof. by destruct o. Qed.
Lemma prefix_tok u : prefix_of (tok_of_un u) = Some u.
Proof. by destruct u. Qed.
Lemma derives_more es : Forall derives es -> DMore es (concat (map (cons TComma) (map flat es))).
Proof. induction 1 as [|e es [] _ IH]; cbn; [constructor|]. by constructor. Qed.
Lemma derives_args es : Forall derives es -> DArgs es (commas (map flat es)).
Proof.
  induction 1 as [|e es [] H IH]; cbn; [constructor|].
  destruct es as [|e' es]; cbn; [rewrite app_nil_r; by apply D_args_one|]. by apply D_args_cons.
Qed.
Lemma forall_wf es : forallb wf es = true -> Forall (fun e => wf e = true -> derives (addp e)) es -> Forall derives (map addp es).
Proof.
  intros Hw H. induction H as [|e es He H IH]; cbn in *; constructor.
  - apply He. by apply andb_prop in Hw as [-> _].
  - apply IH. by apply andb_prop in Hw as [_ ->].
Qed.
Lemma addp_derives e : wf e = true -> derives (addp e).
Proof.
  induction e using expr_ind'; cbn [wf addp]; intros Hw; try done.
  - apply derives_oper. apply D_prim, D_id.
  - destruct b; [apply derives_pre; [cbn; lia|]; apply D_neg|apply derives_oper; apply D_prim, D_int].
  - apply derives_pre; [cbn; lia|]. apply D_sym.
  - apply derives_group. auto.
  - apply andb_prop in Hw as [Hw Hl]. pose proof (forall_wf _ Hw H) as Hes.
    destruct es as [|e1 [|e2 es]]; [done|done|]. apply derives_oper. apply D_prim. cbn [map flat commas].
    cbn [map] in Hes. apply Forall_cons_1 in Hes as [[] Hes].
    rewrite <- app_assoc. apply D_tuple; [done|done|]. apply (derives_more (addp e2 :: map addp es)). done.
  - apply andb_prop in Hw as [Ha Hi]. destruct (derives_par 0 (addp e1)) as [D L]; [auto|].
    apply derives_oper. cbn. apply D_index; [apply D; lia|]. apply IHe2. done.
  - apply andb_prop in Hw as [Ha Hi]. destruct (derives_par 0 (addp e)) as [D L]; [auto|].
    apply derives_oper. cbn [flat]. apply D_call; [apply D; lia|]. apply derives_args. by apply forall_wf.
  - destruct (derives_par 0 (addp e)) as [D L]; [auto|]. apply derives_pre; [cbn; lia|]. cbn [flat].
    destruct b; [apply D_inc|apply D_dec]; apply D; lia.
  - cbv zeta. set (a := par 1 (addp e)). destruct (derives_par 1 (addp e)) as [D L]; [auto|]. fold a in D, L.
    destruct (derives_par_if (is_sign u && head_int a) 1 a) as [D' L']; [done..|].
    apply derives_pre; [cbn; lia|]. cbn [flat]. apply D_un; [apply prefix_tok|by apply D'|].
    intros [Hs [k Hk]]. apply head_int_flat in Hk.
    assert (is_sign u = true) as Hu by (destruct u, Hs; done). rewrite Hu in Hk. cbn in Hk.
    destruct (head_int a) eqn:E; cbn in Hk; congruence.
  - apply andb_prop in Hw as [Hl Hr]. pose proof (prec_bound o) as Hp.
    destruct (derives_par (prec o) (addp e1)) as [D1 L1]; [auto|].
    destruct (derives_par (pred (prec o)) (addp e2)) as [D2 L2]; [auto|].
    set (a := par (prec o) (addp e1)) in *. set (b := par (pred (prec o)) (addp e2)) in *.
    assert (forall p, prec o < p -> DBin p (EBin o a b) (flat (EBin o a b))) as Hd.
    { intros p Hlt. cbn [flat]. apply D_bin; [apply binop_tok|done|apply D1; lia|apply D2; lia]. }
    constructor; cbn [lev]; intros; try lia.
    + apply D_ass, D_binary, Hd. lia.
    + apply D_binary, Hd. lia.
    + by apply Hd.
  - apply andb_prop in Hw as [Hl Hr].
    destruct (derives_par 1 (addp e1)) as [D1 L1]; [auto|]. destruct (derives_par 15 (addp e2)) as [D2 L2]; [auto|].
    constructor; cbn [lev]; intros; try lia; cbn [flat].
    + apply D_ass, D_assign; [by apply D1|by apply D2].
    + apply D_assign; [by apply D1|by apply D2].
  - apply andb_prop in Hw as [Hw Hb]. apply andb_prop in Hw as [Hc Ha].
    destruct (derives_par 15 (addp e1)) as [D1 L1]; [auto|].
    assert (derives (par_if (head_sym (addp e2)) (addp e2))) as D2.
    { destruct (head_sym (addp e2)); cbn; [apply derives_group|]; auto. }
    constructor; cbn [lev]; intros; try lia; cbn [flat]; cbv zeta.
    apply D_tern; [by apply D1|apply D2| |by apply IHe3].
    intros Hh%head_sym_flat. destruct (head_sym (addp e2)) eqn:E; cbn in Hh; congruence.
  - apply andb_prop in Hw as [Hc Hb]. destruct (derives_par 15 (addp e1)) as [D1 L1]; [auto|].
    constructor; cbn [lev]; intros; try lia; cbn [flat]. apply D_elvis; [by apply D1|by apply IHe2].
Qed.
Lemma ends_stop ts : ends ts -> stop_tern ts.
Proof.
  destruct ts as [|t ts]; cbn; [done|]. intros (Hb & H1 & H2 & H3 & H4 & H5 & H6 & H7).
  repeat split; try done.
  - intros o [= Ho]. by apply (H7 o).
  - cbn. by case_bool_decide.
  - by intros [= ->].
Qed.

Lemma clean_app l r : clean (l ++ r) -> clean r.
Proof.
  intros [H1 H2]. split.
  - intros a b ->. apply (H1 (l ++ a) b). by rewrite app_assoc.
  - intros a x b ->. apply (H2 (l ++ a) x b). by rewrite app_assoc.
Qed.
Lemma clean_cons t r : clean (t :: r) -> clean r.
Proof. apply (clean_app [t]). Qed.
Definition mode_plain (m : mode) : bool :=
  match m with MLoop _ e | MPost e => plain e | MMore es | MArgs es => forallb plain es | _ => true end.
Lemma clean_discard t ts : clean (t :: ts) -> head ts = Some TDiscard -> False.
Proof. intros [H _]. destruct ts as [|t' ts]; [done|]. intros [= ->]. by apply (H [t] ts). Qed.
Lemma clean_cast x ts : clean (TLess :: TId x :: TGreater :: ts) -> False.
Proof. intros [_ H]. by apply (H [] x ts). Qed.
Lemma forallb_snoc es e : forallb plain es = true -> plain e = true -> forallb plain (es ++ [e]) = true.
Proof. intros H1 H2. rewrite forallb_app. cbn. by rewrite H1, H2. Qed.
Ltac pl :=
  match goal with
  | |- clean _ => first [assumption|eapply clean_cons; eassumption|eapply clean_cons, clean_cons; eassumption]
  | |- true = true => reflexivity
  | |- _ => cbn [mode_plain plain forallb] in *;
      first [assumption|reflexivity|apply forallb_snoc; assumption|
        repeat match goal with H : ?a && ?b = true |- _ => apply andb_prop in H as [? ?] end;
        repeat match goal with H : plain _ = true |- _ => rewrite H; clear H | H : forallb plain _ = true |- _ => rewrite H; clear H end;
        reflexivity]
  end.
Lemma args_cases n es ts e rest : parse (S n) (MArgs es) ts = ok e rest ->
  (ts = TRParen :: rest /\ e = ETuple es) \/
  bind (parse n MTern ts) (fun e ts =>
          match ts with
          | TComma :: ts => parse n (MArgs (es ++ [e])) ts
          | TRParen :: _ => parse n (MArgs (es ++ [e])) ts
          | _ => err
          end) = ok e rest.
Proof.
  cbn [parse]. destruct ts as [|t ts]; [discriminate|].
  destruct t; try (intros H; right; exact H). intros [= <- <-]. by left.
Qed.
Lemma parse_clean n : forall m ts e rest, clean ts -> mode_plain m = true ->
  parse n m ts = ok e rest -> plain e = true /\ clean rest.
Proof.
  induction n as [|n IH]; intros m ts e rest Hcl Hmp; [done|].
  assert (m = MArgs (match m with MArgs es => es | _ => [] end) \/ forall es, m <> MArgs es) as [Hm|Hm]
    by (destruct m; auto; right; discriminate).
  { rewrite Hm. rewrite Hm in Hmp. cbn [mode_plain] in Hmp. set (es := match m with MArgs es => es | _ => [] end) in *.
    clearbody es. intros [[-> ->]|H]%args_cases.
    - split; [done|]. by apply clean_cons in Hcl.
    - apply bind_ok in H as (a & ts1 & Ha & H). apply IH in Ha as [Hp Hc]; [|done|done].
      destruct ts1 as [|[] ts1]; try discriminate H; apply IH in H; try done; try pl. }
  cbn [parse]. unfold ok, err in *.
  destruct m; [| | | | | | | |by destruct (Hm es)]; clear Hm;
  repeat (cbn [bind];
    match goal with
    | H : clean (TLess :: TId _ :: TGreater :: _) |- _ => destruct (clean_cast _ _ H)
    | |- parse n ?m ?t = _ -> _ => apply IH; pl
    | |- Some None = _ -> _ => discriminate
    | |- Some (Some _) = Some (Some _) -> _ => intros [= <- <-]; split; pl
    | |- bind (parse n ?m ?t) _ = _ -> _ =>
        let E := fresh in destruct (parse n m t) as [[[? ?]|]|] eqn:E;
        [apply IH in E as [? ?]; [|pl|pl]|discriminate|discriminate]
    | |- (if bool_decide (_ = Catch /\ _) then _ else _) = _ -> _ =>
        let H := fresh in case_bool_decide as H; [destruct H as [_ H]; by destruct (clean_discard _ _ Hcl H)|]
    | |- (match ?x with _ => _ end) = _ -> _ => destruct x
    | |- (if ?x then _ else _) = _ -> _ => destruct x
    end).
Qed.
