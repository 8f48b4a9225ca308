(** Property C51: name lookup through the scopes of the binder
    (lang/middle/bind/scope.c).  Property C78: break and continue. *)
From stdpp Require Import list numbers.
From Verif Require Import HTableModel KTableModel KTableProofs ScopeModel ScopeSpec ScopeProofs.

(** C51, full statement: every history of pushes, pops, definitions and
    lookups, whatever the hashes of the names, answers as the stack of frames
    does; it stops with a failed assertion exactly when there is no scope left
    to pop or to define in. *)
Definition scopes_are_frames_statement : Prop :=
  ∀ (P : program) (hashp : N → N) (root : N) (ops : list sop),
    forwards_completable P →
    match frun P [empty_frame root] ops with
    | Some (_, outs) => ∃ e, srun P hashp (env_init root) ops = SOk (e, outs)
    | None => srun P hashp (env_init root) ops = SAssert
    end.

(** A program of four functions (10 and above), the rest variables. *)
Definition ex_prog : program :=
  Program (λ n, if (n <? 10)%N then TgOther else TgFunc) (λ _, false) (λ _, true)
          (λ x, if (x =? 99)%N then Some 9%N else None) (λ x, (x =? 0)%N).

(** It is false: a module that imports function 10 under the name 1
    (discover.c:70-79 enters it with [defineSymbol], which leaves [last] NULL)
    and then declares an overload of the same name writes through NULL. *)
Theorem C51_import_refuted : ¬ scopes_are_frames_statement.
Proof.
  intros H. specialize (H ex_prog (λ x, x) 0%N [ODefine 1 10; OFunction 1 11]%N).
  cbn in H. destruct H as [e E]; [done|]. vm_compute in E. discriminate E.
Qed.
Print Assumptions C51_import_refuted.
Example C51_import_crash :
  srun ex_prog (λ x, x) (env_init 0) [ODefine 1 10; OFunction 1 11]%N = SNull.
Proof. vm_compute. reflexivity. Qed.

(** C51 when functions, and only they, are entered with
    [defineFunctionDecl] (so: no functions imported by name). *)
Theorem C51_scopes_partial :
  ∀ (P : program) (hashp : N → N) (root : N) (ops : list sop),
    forwards_completable P → Forall (functions_as_functions P) ops →
    match frun P [empty_frame root] ops with
    | Some (_, outs) => ∃ e, srun P hashp (env_init root) ops = SOk (e, outs)
    | None => srun P hashp (env_init root) ops = SAssert
    end.
Proof.
  intros P hashp root ops FC G.
  pose proof (run_R P hashp ops _ _ FC (init_R P hashp root) G) as H.
  destruct (frun P _ ops) as [[fs outs]|]; [|done]. destruct H as (e & E & _). by exists e.
Qed.
Print Assumptions C51_scopes_partial.

(** Closing a scope restores the outer meaning of every name and the enclosing
    constructs, whatever was declared inside. *)
Theorem C51_restores :
  ∀ (P : program) (hashp : N → N) (root : N) (ops body : list sop) (n : N) e1 o1 e2 o2,
    forwards_completable P →
    Forall (functions_as_functions P) ops → Forall (functions_as_functions P) body →
    inside body →
    srun P hashp (env_init root) ops = SOk (e1, o1) →
    srun P hashp (env_init root) (ops ++ OPush n :: body ++ [OPop]) = SOk (e2, o2) →
    (∀ x, find_symbol P hashp e2 x = find_symbol P hashp e1 x) ∧
    (∀ a b c, find_enclosing P e2 a b c = find_enclosing P e1 a b c).
Proof.
  intros P hashp root ops body n e1 o1 e2 o2 FC G1 G2 In E1 E2.
  pose proof (run_R P hashp ops _ _ FC (init_R P hashp root) G1) as H1.
  assert (G3 : Forall (functions_as_functions P) (ops ++ OPush n :: body ++ [OPop])).
  { apply Forall_app. split; [done|]. constructor; [done|]. apply Forall_app. split; [done|].
    by repeat constructor. }
  pose proof (run_R P hashp _ _ _ FC (init_R P hashp root) G3) as H2.
  rewrite frun_app in H2.
  destruct (frun P [empty_frame root] ops) as [[fs1 outs1]|]; [|by rewrite E1 in H1].
  cbn [frun fstep] in H2. rewrite frun_app in H2.
  destruct (frun P (empty_frame n :: fs1) body) as [[fs2 outs2]|] eqn:EB; [|by rewrite E2 in H2].
  destruct (inside_frun P body In _ _ _ _ EB) as [fr' ->]. cbn [frun fstep] in H2.
  destruct H1 as (e1' & E1' & R1). destruct H2 as (e2' & E2' & R2).
  rewrite E1 in E1'. rewrite E2 in E2'. simplify_eq. split.
  - intros x. unfold find_symbol, open_scopes.
    pose proof (R_len P hashp _ _ R1). pose proof (R_len P hashp _ _ R2).
    destruct R1 as (D1 & _ & _ & F1), R2 as (D2 & _ & _ & F2).
    rewrite D1, D2. by rewrite !(find_in_R P hashp).
  - intros a b c. unfold find_enclosing, open_scopes.
    pose proof (R_len P hashp _ _ R1). pose proof (R_len P hashp _ _ R2).
    destruct R1 as (D1 & _ & _ & F1), R2 as (D2 & _ & _ & F2). rewrite D1, D2.
    rewrite !(enclosing_R P hashp _ fs1 (λ t, tag_eqb t a || tag_eqb t b || tag_eqb t c)); done.
Qed.
Print Assumptions C51_restores.

(** The overloads a call considers, whatever declaration of the name it starts
    from, are the declarations of that name in that scope, in order, numbered
    from 0 — full statement. *)
Definition overloads_statement (once : list sop → Prop) : Prop :=
  ∀ (P : program) (hashp : N → N) (root : N) (ops : list sop) fs outs e,
    forwards_completable P → Forall (functions_as_functions P) ops → once ops →
    frun P [empty_frame root] ops = Some (fs, outs) →
    srun P hashp (env_init root) ops = SOk (e, outs) →
    ∀ fr x l, fr ∈ fs → snd fr x = Some l → (∀ h, head l = Some h → tag_of P h = TgFunc) →
    ∀ i n, l !! i = Some n →
      overloads (length l) e n = Some l ∧ f_index (e_fields e) n = (N.of_nat i mod 2 ^ 16)%N.

(** It is false: an extern function with an alias (bind.c:36-43) is entered
    under both names with one [link] field, so that names get each other's
    overloads.  Here 1 names [10; 11], 2 names [12] and, as alias, 10. *)
Definition alias_ops : list sop := [OFunction 2 12; OFunction 1 10; OFunction 2 10; OFunction 1 11]%N.
Definition run_env (P : program) (ops : list sop) : env :=
  match srun P (λ x, x) (env_init 0) ops with SOk (e, _) => e | _ => env_init 0 end.
Definition run_frames (P : program) (ops : list sop) : list frame :=
  match frun P [empty_frame 0] ops with Some (fs, _) => fs | _ => [] end.
Theorem C51_alias_refuted : ¬ overloads_statement (λ _, True).
Proof.
  intros H.
  assert (Ef : frun ex_prog [empty_frame 0] alias_ops
     = Some (run_frames ex_prog alias_ops, [RBool true; RBool true; RBool true; RBool true]))
    by (vm_compute; reflexivity).
  assert (Es : srun ex_prog (λ x, x) (env_init 0) alias_ops
     = SOk (run_env ex_prog alias_ops, [RBool true; RBool true; RBool true; RBool true]))
    by (vm_compute; reflexivity).
  destruct (H ex_prog (λ x, x) 0%N alias_ops _ _ _ (λ n (X : false = true), False_ind _ (diff_false_true X))
     ltac:(by repeat constructor) I Ef Es (hd (empty_frame 0) (run_frames ex_prog alias_ops)) 2%N [12; 10]%N)
     with (i := 0%nat) (n := 12%N) as [E _].
  - by left.
  - vm_compute. reflexivity.
  - by intros h [= <-].
  - reflexivity.
  - vm_compute in E. discriminate E.
Qed.
Print Assumptions C51_alias_refuted.
Example C51_alias_overloads :
  match srun ex_prog (λ x, x) (env_init 0)
    [OFunction 2 12; OFunction 1 10; OFunction 2 10; OFunction 1 11]%N with
  | SOk (e, _) => overloads 9 e 12%N | _ => None end = Some [12; 10; 11]%N.
Proof. vm_compute. reflexivity. Qed.

(** True when no function is entered twice. *)
Theorem C51_overloads_partial : overloads_statement (λ ops, NoDup (functions_of ops)).
Proof.
  intros P hashp root ops fs outs e FC G ND Ef Es fr x l Hfr Hl Hh i n Hi.
  assert (F0 : FI P (e_fields (env_init root)) [] [empty_frame root]).
  { split; [|done]. exists (λ _, None). split; [|done]. done. }
  destruct (run_F P hashp ops _ _ [] e fs outs FC (init_R P hashp root) G F0 Ef Es ND) as (U & [own F] & _).
  { intros m _ Hm. by apply elem_of_nil in Hm. }
  destruct l as [|h l']; [done|]. specialize (Hh h eq_refl).
  assert (Hn : ∃ lev, node_ok (e_fields e) own U lev x (h :: l') h).
  { clear Ef Es G F0. induction fs as [|g fs IH]; [by apply elem_of_nil in Hfr|].
    destruct F as [F1 F2]. apply elem_of_cons in Hfr as [->|Hfr]; [|by apply IH].
    eexists. by apply F1. }
  destruct Hn as (lev & _ & Hn). destruct (Hn i n Hi) as (_ & _ & HF & _ & HI). split; [|done].
  unfold overloads. rewrite HF.
  rewrite (along_ok hashp _ (h :: l') (length (h :: l')) (λ i n H, proj1 (proj2 (proj2 (proj2 (Hn i n H)))))
             (le_n _) 0%nat h eq_refl) by lia.
  done.
Qed.
Print Assumptions C51_overloads_partial.

(** Shadowing, a redefinition, a forward declaration, overloads, a builtin. *)
Definition ex_prog2 : program :=
  Program (λ n, if (n =? 3)%N then TgType else if (n <? 10)%N then TgOther else TgFunc)
          (λ n, (n =? 3)%N) (λ _, true)
          (λ x, if (x =? 99)%N then Some 9%N else None) (λ x, (x =? 0)%N).
Definition ex_ops : list sop :=
  [ODefine 5 1; OFunction 6 10; OFunction 6 11; OForward 7 3; OForward 7 4; OForward 7 8;
   OPush 2; ODefine 5 2; ODefine 5 7; OFind 5; OFind 6; OFind 99; OFind 98; OFunction 5 12;
   OPop; OFind 5; OFind 7]%N.
Example C51_ex1 :
  frun ex_prog2 [empty_frame 0] ex_ops ≠ None ∧
  forwards_completable ex_prog2 ∧ Forall (functions_as_functions ex_prog2) ex_ops ∧
  NoDup (functions_of ex_ops) ∧ inside [ODefine 5 2; ODefine 5 7; OFind 5]%N ∧
  match srun ex_prog2 (λ _, 7%N) (env_init 0) ex_ops with
  | SOk (e, outs) => (outs, overloads 5 e 11%N) | _ => ([], None) end
  = ([RBool true; RBool true; RBool true; RBool true; RBool true; RBool false;
      RDone; RBool true; RBool false; RNode (Some 2); RNode (Some 10); RNode (Some 9); RNode None;
      RBool false; RDone; RNode (Some 1); RNode (Some 4)]%N, Some [10; 11]%N).
Proof.
  split; [vm_compute; discriminate|].
  split. { intros n. cbn. destruct (N.eqb_spec n 3) as [->|]; [|done]. intros _. by right; right. }
  split; [by repeat constructor|].
  split. { apply (bool_decide_unpack _). by vm_compute. }
  split; [|vm_compute; reflexivity].
  repeat (apply inside_op; [done|done|]). apply inside_nil.
Qed.

(** * C78: break and continue
    [break] and [continue] are bound by [findEnclosingLoop]
    (resolve.c:617-626): the loop found is the innermost of all open loops. *)
Theorem C78_innermost_loop :
  ∀ (P : program) (hashp : N → N) (root : N) (ops : list sop) fs outs e,
    forwards_completable P → Forall (functions_as_functions P) ops →
    frun P [empty_frame root] ops = Some (fs, outs) →
    srun P hashp (env_init root) ops = SOk (e, outs) →
    enclosing_loop P e = innermost P (λ t, match t with TgWhile | TgFor | TgError => true | _ => false end) fs ∧
    enclosing_function_or_closure P e
      = innermost P (λ t, match t with TgClosure | TgFunc | TgException => true | _ => false end) fs.
Proof.
  intros P hashp root ops fs outs e FC G Ef Es.
  pose proof (run_R P hashp ops _ _ FC (init_R P hashp root) G) as H. rewrite Ef in H.
  destruct H as (e' & Es' & HR). rewrite Es in Es'. injection Es' as <-.
  pose proof (R_len P hashp _ _ HR) as L. destruct HR as (D & _ & _ & F).
  unfold enclosing_loop, enclosing_function_or_closure, find_enclosing, open_scopes. rewrite D.
  rewrite !(enclosing_R P hashp _ fs (λ t, tag_eqb t _ || tag_eqb t _ || tag_eqb t _)) by done.
  split.
  - clear. induction fs as [|fr fs IH]; [done|]. cbn. rewrite IH. by destruct (tag_of P (fst fr)).
  - clear. induction fs as [|fr fs IH]; [done|]. cbn. rewrite IH. by destruct (tag_of P (fst fr)).
Qed.
Print Assumptions C78_innermost_loop.

(** The loop should belong to the function in which the statement stands: it
    is opened inside the innermost function or closure.  In terms of the
    frames: the innermost frame that is a loop, a function or a closure is the
    loop. *)
Definition break_in_own_function_statement : Prop :=
  ∀ (P : program) (hashp : N → N) (root : N) (ops : list sop) fs outs e l,
    forwards_completable P → Forall (functions_as_functions P) ops →
    frun P [empty_frame root] ops = Some (fs, outs) →
    srun P hashp (env_init root) ops = SOk (e, outs) →
    enclosing_loop P e = Some l →
    innermost P (λ t, match t with TgWhile | TgFor | TgClosure | TgFunc => true | _ => false end) fs
      = Some l.
(** False: in [while (c) { f(() => { break; }); }] the statement inside the
    closure is bound to the loop outside, without an error. *)
Definition ex_prog3 : program :=
  Program (λ n, if (n =? 1)%N then TgFunc else if (n =? 2)%N then TgWhile else
                if (n =? 3)%N then TgClosure else if (n =? 4)%N then TgBlock else TgOther)
          (λ _, false) (λ _, true) (λ _, None) (λ _, false).
Definition break_ops : list sop := [OPush 1; OPush 2; OPush 3; OPush 4]%N.
Theorem C78_break_refuted : ¬ break_in_own_function_statement.
Proof.
  intros H.
  assert (Ef : frun ex_prog3 [empty_frame 0] break_ops
     = Some (run_frames ex_prog3 break_ops, [RDone; RDone; RDone; RDone])) by (vm_compute; reflexivity).
  assert (Es : srun ex_prog3 (λ x, x) (env_init 0) break_ops
     = SOk (run_env ex_prog3 break_ops, [RDone; RDone; RDone; RDone])) by (vm_compute; reflexivity).
  assert (X := H ex_prog3 (λ x, x) 0%N break_ops _ _ _ 2%N
     (λ n (X : false = true), False_ind _ (diff_false_true X)) ltac:(by repeat constructor) Ef Es).
  assert (Y : enclosing_loop ex_prog3 (run_env ex_prog3 break_ops) = Some 2%N) by (vm_compute; reflexivity).
  specialize (X Y). vm_compute in X. discriminate X.
Qed.
Print Assumptions C78_break_refuted.

(** True where no function or closure stands inside a loop. *)
Theorem C78_break_partial :
  ∀ (P : program) (hashp : N → N) (root : N) (ops : list sop) fs outs e l,
    forwards_completable P → Forall (functions_as_functions P) ops →
    (∀ n, tag_of P n ≠ TgError) →
    frun P [empty_frame root] ops = Some (fs, outs) →
    srun P hashp (env_init root) ops = SOk (e, outs) →
    enclosing_loop P e = Some l →
    (∀ inner g outer, fs = inner ++ g :: outer → tag_of P (fst g) = TgClosure ∨ tag_of P (fst g) = TgFunc →
       ∀ g', g' ∈ outer → tag_of P (fst g') ≠ TgWhile ∧ tag_of P (fst g') ≠ TgFor) →
    innermost P (λ t, match t with TgWhile | TgFor | TgClosure | TgFunc => true | _ => false end) fs
      = Some l.
Proof.
  intros P hashp root ops fs outs e l FC G NE Ef Es EL Hn.
  destruct (C78_innermost_loop P hashp root ops fs outs e FC G Ef Es) as [E _]. rewrite EL in E.
  clear - E Hn NE. symmetry in E.
  assert (No : ∀ outer, (∀ g', g' ∈ outer → tag_of P (fst g') ≠ TgWhile ∧ tag_of P (fst g') ≠ TgFor) →
     innermost P (λ t, match t with TgWhile | TgFor | TgError => true | _ => false end) outer = None).
  { induction outer as [|g outer IH]; [done|]. intros H. cbn. destruct (H g) as [H1 H2]; [by left|].
    pose proof (NE (fst g)).
    destruct (tag_of P (fst g)); try done; apply IH; intros g' Hg; apply H; by right. }
  induction fs as [|fr fs IH]; [done|]. cbn in E |- *.
  assert (IH' := IH (λ inner g outer Q, Hn (fr :: inner) g outer (f_equal (cons fr) Q))).
  destruct (tag_of P (fst fr)) eqn:T; try done; try (by apply IH'); try (by destruct (NE (fst fr)));
    rewrite No in E; try done; apply (Hn [] fr fs eq_refl); rewrite T; [by left|by right].
Qed.
Print Assumptions C78_break_partial.
Example C78_ex1 :
  match srun ex_prog3 (λ x, x) (env_init 0) [OPush 1; OPush 2; OPush 4]%N with
  | SOk (e, _) => enclosing_loop ex_prog3 e | _ => None end = Some 2%N ∧
  match srun ex_prog3 (λ x, x) (env_init 0) [OPush 1; OPush 2; OPush 3; OPush 4]%N with
  | SOk (e, _) => enclosing_loop ex_prog3 e | _ => None end = Some 2%N.
Proof. split; vm_compute; reflexivity. Qed.
