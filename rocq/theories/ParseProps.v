(** C41: operators are parsed by precedence, left to right. *)
From stdpp Require Import numbers list.
From Coq Require Import Lia ZifyBool ZifyNat.
From Verif Require Import ParseModel ParseSpec ParseProofs.

(** The parser always comes to an end (the fuel suffices, on whatever input). *)
Theorem C41_total ts m : exists r, forall n, 9 * length ts + 9 <= n -> parse n m ts = Some r.
Proof.
  destruct (parse (9 * length ts + 9) m ts) as [r|] eqn:E.
  - exists r. intros n Hn. by apply (parse_mono (9 * length ts + 9)).
  - apply parse_total in E; [done|]. destruct m; cbn; lia.
Qed.
(** The trees it returns are exactly those of the layered grammar. *)
Theorem C41_grammar ts e : clean ts -> (parse_expr ts = Some e <-> DTern e ts).
Proof.
  intros Hc. rewrite parse_expr_ok. split.
  - intros [n Hn]. destruct (parse_clean n MTern ts e [] Hc eq_refl Hn) as [Hp _].
    destruct (parse_sound _ _ _ _ _ Hn Hp) as (us & -> & Hd). by rewrite app_nil_r.
  - intros Hd. destruct D_complete as (_ & _ & _ & _ & _ & _ & _ & H).
    destruct (H _ _ Hd []) as [n Hn]; [done|]. exists n. by rewrite app_nil_r in Hn.
Qed.
(** An expression of the grammar is accepted also where it is followed by something that
    cannot continue it. *)
Theorem C41_prefix ts e rest : DTern e ts -> ends rest -> exists n, parse n MTern (ts ++ rest) = ok e rest.
Proof. intros Hd He. destruct D_complete as (_ & _ & _ & _ & _ & _ & _ & H). by apply H; [|apply ends_stop]. Qed.
(** No text has two trees. *)
Theorem C41_unique ts e e' : DTern e ts -> DTern e' ts -> e = e'.
Proof.
  assert (forall x, DTern x ts -> parse_expr ts = Some x) as H.
  { intros x Hd. apply parse_expr_ok. destruct (C41_prefix ts x [] Hd I) as [n Hn].
    exists n. by rewrite app_nil_r in Hn. }
  intros H1%H H2%H. congruence.
Qed.
(** Writing any tree with the parentheses it needs and parsing the result gives the tree. *)
Theorem C41_print e : wf e = true -> parse_expr (flat (addp e)) = Some (addp e) /\ strip (addp e) = strip e.
Proof.
  intros Hw. split; [|apply strip_addp]. apply parse_expr_ok.
  destruct (C41_prefix _ _ [] (d_tern _ (addp_derives _ Hw)) I) as [n Hn]. exists n. by rewrite app_nil_r in Hn.
Qed.
(** Two operators between three operands: the one that binds tighter first, from the left
    among equals. *)
Theorem C41_two_operators o1 o2 a b c :
  parse_expr [TId a; tok_of o1; TId b; tok_of o2; TId c] =
  Some (if prec o1 <=? prec o2 then EBin o2 (EBin o1 (EId a) (EId b)) (EId c)
        else EBin o1 (EId a) (EBin o2 (EId b) (EId c))).
Proof. by destruct o1, o2. Qed.
(** The same with the levels of the language written out. *)
Theorem C41_levels i j os1 os2 o1 o2 a b c :
  levels !! i = Some os1 -> levels !! j = Some os2 -> o1 ∈ os1 -> o2 ∈ os2 ->
  parse_expr [TId a; tok_of o1; TId b; tok_of o2; TId c] =
  Some (if i <=? j then EBin o2 (EBin o1 (EId a) (EId b)) (EId c)
        else EBin o1 (EId a) (EBin o2 (EId b) (EId c))).
Proof.
  intros H1 H2 E1 E2. rewrite C41_two_operators.
  assert (G : forall k os o, levels !! k = Some os -> o ∈ os -> prec o = (k + 2)%nat).
  { clear. intros k os o H E. do 12 (destruct k as [|k]; [injection H as <-; repeat (apply elem_of_cons in E as [->|E]; [done|]);
      by apply elem_of_nil in E|]). done. }
  rewrite (G i os1 o1 H1 E1), (G j os2 o2 H2 E2).
  destruct (Nat.leb_spec i j), (Nat.leb_spec (i + 2) (j + 2)); done || lia.
Qed.
(** A chain of any length of operators of one precedence is grouped from the left. *)
Theorem C41_left_associative p a (l : list (op * nat)) : Forall (fun x => prec (fst x) = p) l ->
  parse_expr (TId a :: concat (map (fun x => [tok_of (fst x); TId (snd x)]) l)) =
  Some (fold_left (fun e x => EBin (fst x) e (EId (snd x))) l (EId a)).
Proof.
  intros H. apply parse_expr_ok.
  assert (forall l e us, Forall (fun x => prec (fst x) = p) l -> DBin (S p) e us ->
    DBin (S p) (fold_left (fun e x => EBin (fst x) e (EId (snd x))) l e)
      (us ++ concat (map (fun x => [tok_of (fst x); TId (snd x)]) l))) as G.
  { clear. induction l as [|[o x] l IH]; intros e us Hl He; cbn; [by rewrite app_nil_r|].
    apply Forall_cons_1 in Hl as [Ho Hl]. cbn in Ho. subst p.
    replace (us ++ tok_of o :: TId x :: _) with ((us ++ [tok_of o; TId x]) ++ concat (map (fun x => [tok_of (fst x); TId (snd x)]) l))
      by (by rewrite <- app_assoc). apply IH; [done|].
    apply D_bin; [apply binop_tok|lia|done|]. apply D_prefix, D_oper, D_prim, D_id. }
  assert (DTern (fold_left (fun e x => EBin (fst x) e (EId (snd x))) l (EId a))
    ([TId a] ++ concat (map (fun x => [tok_of (fst x); TId (snd x)]) l))) as Hd.
  { apply D_ass, D_binary. destruct l as [|[o x] l'].
    - apply D_prefix, D_oper, D_prim, D_id.
    - apply (DBin_mono (S p)); [|apply G; [done|]; apply D_prefix, D_oper, D_prim, D_id].
      apply Forall_cons_1 in H as [Ho _]. cbn in Ho. pose proof (prec_bound o). lia. }
  destruct (C41_prefix _ _ [] Hd I) as [n Hn]. exists n. by rewrite app_nil_r in Hn.
Qed.

Print Assumptions C41_total.
Print Assumptions C41_grammar.
Print Assumptions C41_prefix.
Print Assumptions C41_unique.
Print Assumptions C41_print.
Print Assumptions C41_two_operators.
Print Assumptions C41_levels.
Print Assumptions C41_left_associative.

(** a ? :b : c (a symbol between ? and :) is no expression: ?: is read. *)
Theorem C41_symbol_refuted : parse_expr [TId 0; TQuestion; TColon; TId 1; TColon; TId 2] = None /\
  parse_expr [TId 0; TQuestion; TLParen; TColon; TId 1; TRParen; TColon; TId 2] = Some (ETern (EId 0) (EGroup (ESym 1)) (EId 2)).
Proof. by vm_compute. Qed.
Print Assumptions C41_symbol_refuted.

(** a + b * -2 - d == e && !f *)
Example C41_ex :
  parse_expr [TId 0; TPlus; TId 1; TMult; TMinus; TInt 2; TMinus; TId 3; TEqual; TId 4; TLAnd; TLNot; TId 5] =
  Some (EBin LAnd (EBin Eq (EBin Sub (EBin Add (EId 0) (EBin Mul (EId 1) (EInt true 2))) (EId 3)) (EId 4)) (EUn Not (EId 5))).
Proof. by vm_compute. Qed.
(** a = b ? c : d assigns first. *)
Example C41_assign_ex :
  parse_expr [TId 0; TAssign None; TId 1; TQuestion; TId 2; TColon; TId 3] =
  Some (ETern (EAssign None (EId 0) (EId 1)) (EId 2) (EId 3)).
Proof. by vm_compute. Qed.
Example C41_print_ex :
  let e := EBin Mul (EBin Add (EId 0) (EId 1)) (EBin Mul (EUn Minus (EInt false 2)) (ECall (EBin Sub (EId 3) (EId 4)) [EId 5; EAssign None (EId 6) (EId 7)])) in
  wf e = true /\
  flat (addp e) = [TLParen; TId 0; TPlus; TId 1; TRParen; TMult; TLParen; TMinus; TLParen; TInt 2; TRParen; TMult;
    TLParen; TId 3; TMinus; TId 4; TRParen; TLParen; TId 5; TComma; TId 6; TAssign None; TId 7; TRParen; TRParen].
Proof. by vm_compute. Qed.
(** The two forms outside the grammar: a cast takes everything behind it, and after
    [catch discard] looser operands are still attached to it. *)
Example C41_cast_ex : parse_expr [TLess; TId 9; TGreater; TId 0; TPlus; TId 1] = Some (ECast 9 (EBin Add (EId 0) (EId 1))).
Proof. by vm_compute. Qed.
Example C41_discard_ex :
  parse_expr [TId 0; TCatch; TDiscard; TPlus; TId 1] = Some (EBin Add (EBin Catch (EId 0) EDiscard) (EId 1)) /\
  parse_expr [TId 0; TCatch; TId 2; TPlus; TId 1] = Some (EBin Catch (EId 0) (EBin Add (EId 2) (EId 1))).
Proof. by vm_compute. Qed.
Example C41_clean_ex : clean [TId 0; TLess; TId 1; TGreaterEqual; TId 2].
Proof.
  split.
  - intros l r H. assert (TDiscard ∈ [TId 0; TLess; TId 1; TGreaterEqual; TId 2]) as Hin
      by (rewrite H; apply elem_of_app; right; left). by rewrite !elem_of_cons, elem_of_nil in Hin; naive_solver.
  - intros l x r H. assert (TGreater ∈ [TId 0; TLess; TId 1; TGreaterEqual; TId 2]) as Hin
      by (rewrite H; apply elem_of_app; right; right; right; left). by rewrite !elem_of_cons, elem_of_nil in Hin; naive_solver.
Qed.
