(** A C compiler reads the text of an expression as the tree the parser of Cxy built. *)
From stdpp Require Import numbers list.
From Coq Require Import Lia.
From Verif Require Import ParseModel ParseSpec ParseProofs ParseProps CPrModel CPrSpec CPrProofs.

(** Text has one reading at most. *)
Theorem C87_one_reading ps e e' : c_reads ps e -> c_reads ps e' -> e = e'.
Proof. apply c_reads_det. Qed.
Print Assumptions C87_one_reading.

(** * Any tree, whichever pass built it: exactly those whose operands bind tightly enough for C are read back. *)
Theorem C87_tree_partial e : in_c e = true -> no_glue e = true ->
  (c_reads (print e) (cform e) <-> fits e = true).
Proof.
  intros Hi Hg. split; [apply c_reads_fits|]. intros Hf. unfold c_reads. rewrite lex_text by done.
  destruct (r_exp e (reads_all e (conj Hi Hf)) [] eq_refl) as [n Hn]. exists n. by rewrite app_nil_r in Hn.
Qed.
Print Assumptions C87_tree_partial.

(** * Trees of the parser: exactly those without an assignment as condition or last operand of [?:] *)
Theorem C87_source_partial ts e : clean ts -> parse_expr ts = Some e -> in_c e = true -> no_glue e = true ->
  (c_reads (print e) (cform e) <-> tern_ok e = true).
Proof.
  intros Hc Hp Hi Hg. rewrite C87_tree_partial by done. split; [by apply fits_tern|]. intros Ht.
  apply (C41_grammar _ _ Hc) in Hp. destruct D_fits as (_ & _ & _ & _ & _ & _ & _ & H).
  apply (H _ _ Hp). unfold ok_tree. by rewrite Hi, Ht.
Qed.
Print Assumptions C87_source_partial.

(** In particular binary operators never regroup although none is written with parentheses: the table of Cxy and that
    of C agree on the operators both have. *)
Theorem C87_tables_agree o o' : c_op o = true -> c_op o' = true -> (prec o <= prec o' <-> cprec o <= cprec o').
Proof. destruct o; try done; intros _; destruct o'; try done; intros _; cbn; lia. Qed.
Print Assumptions C87_tables_agree.

(** * Refutations *)
(** [a = b ? c : d] is [(a = b) ? c : d] in Cxy, and [a = (b ? c : d)] in C. *)
Theorem C87_assign_condition_refuted : exists ts e,
  clean ts /\ parse_expr ts = Some e /\ in_c e = true /\ no_glue e = true /\
  e = ETern (EAssign None (EId 0) (EId 1)) (EId 2) (EId 3) /\
  c_reads (print e) (EAssign None (EId 0) (ETern (EId 1) (EId 2) (EId 3))).
Proof.
  exists [TId 0; TAssign None; TId 1; TQuestion; TId 2; TColon; TId 3]. eexists. split; [|split; [reflexivity|]].
  - split.
    + intros l r E. do 7 (destruct l as [|? l]; [discriminate|apply (f_equal tail) in E; cbn in E]); destruct l; discriminate.
    + intros l x r E. do 7 (destruct l as [|? l]; [discriminate|apply (f_equal tail) in E; cbn in E]); destruct l; discriminate.
  - repeat split; try reflexivity. exists 30. reflexivity.
Qed.
Print Assumptions C87_assign_condition_refuted.

(** [a ? b : c = d] assigns in the last operand; C does not read it at all. *)
Definition last_assign : expr := ETern (EId 0) (EId 1) (EAssign None (EId 2) (EId 3)).
Theorem C87_last_assign_refuted :
  parse_expr [TId 0; TQuestion; TId 1; TColon; TId 2; TAssign None; TId 3] = Some last_assign /\
  forall e, ~ c_reads (print last_assign) e.
Proof.
  split; [reflexivity|]. intros e [n H].
  assert (cparse 30 CExp (lex (print last_assign)) = Some None) as K by reflexivity.
  apply (cparse_mono n (max n 30)) in H; [|lia]. apply (cparse_mono 30 (max n 30)) in K; [|lia]. congruence.
Qed.
Print Assumptions C87_last_assign_refuted.

(** [<T> a + b] casts the sum in Cxy, and [a] in C. *)
Theorem C87_cast_refuted : exists e,
  parse_expr [TLess; TId 9; TGreater; TId 0; TPlus; TId 1] = Some e /\ e = ECast 9 (EBin Add (EId 0) (EId 1)) /\
  c_reads (print e) (EBin Add (ECast 9 (EId 0)) (EId 1)).
Proof. eexists. repeat split; try reflexivity. exists 30. reflexivity. Qed.
Print Assumptions C87_cast_refuted.

(** [- -x] is written [--x], which decrements [x]; [- --x] is written [---x] and read as [--(-x)]. *)
Theorem C87_glue_refuted :
  parse_expr [TMinus; TMinus; TId 0] = Some (EUn Minus (EUn Minus (EId 0))) /\
  c_reads (print (EUn Minus (EUn Minus (EId 0)))) (EUn PreDec (EId 0)) /\
  parse_expr [TMinus; TMinusMinus; TId 0] = Some (EUn Minus (EUn PreDec (EId 0))) /\
  c_reads (print (EUn Minus (EUn PreDec (EId 0)))) (EUn PreDec (EUn Minus (EId 0))).
Proof. repeat split; try reflexivity; exists 30; reflexivity. Qed.
Print Assumptions C87_glue_refuted.

(** [a - -x]: the spaces around binary operators keep them apart, and so do parentheses. *)
Example C87_spaces_ex :
  c_reads (print (EBin Sub (EId 0) (EUn Minus (EId 1)))) (EBin Sub (EId 0) (EUn Minus (EId 1))) /\
  c_reads (print (EUn Minus (EGroup (EUn Minus (EId 1))))) (EUn Minus (EGroup (EUn Minus (EId 1)))).
Proof. split; exists 30; reflexivity. Qed.

(** [a[i]++ + f(-2, (b | c) << 3) * *p == &q && !d ? e : g ?: h] *)
Definition big : expr :=
  ETern (EBin LAnd (EBin Eq (EBin Add (EPost true (EIndex (EId 0) (EId 1)))
     (EBin Mul (ECall (EId 2) [EInt true 2; EBin Shl (EGroup (EBin BOr (EId 3) (EId 4))) (EInt false 3)]) (EUn Deref (EId 5))))
    (EUn Refof (EId 6))) (EUn Not (EId 7))) (EId 8) (EElvis (EId 9) (EId 10)).
Example C87_ex : in_c big = true /\ no_glue big = true /\ tern_ok big = true /\ fits big = true /\
  parse_expr (flat big) = Some big /\ c_reads (print big) (cform big) /\ length (lex (print big)) = 35.
Proof.
  repeat split; try (vm_compute; reflexivity). exists 60. vm_compute. reflexivity.
Qed.

(** A tree of another pass: a sum below a product without parentheses is read otherwise. *)
Example C87_tree_ex : let e := EBin Mul (EBin Add (EId 0) (EId 1)) (EId 2) in
  fits e = false /\ c_reads (print e) (EBin Add (EId 0) (EBin Mul (EId 1) (EId 2))).
Proof. split; [reflexivity|]. exists 30. reflexivity. Qed.
