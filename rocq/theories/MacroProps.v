(** Property C56: the preprocessor's table of macros (lang/frontend/defines.c). *)
From stdpp Require Import list numbers.
From Verif Require Import HTableModel KTableModel KTableProofs MacroModel MacroSpec MacroProofs.

(** Every history of definitions and lookups, whatever the hashes of the
    names: a lookup gives the latest definition of that very name, a definition
    reports whether the name was new and what it replaces; no assertion fails
    and every probe ends. *)
Theorem C56_last_definition :
  ∀ (hashs : N → N) (ops : list mop),
    ∃ t, mrun hashs kt_new ops = TOk (t, answers [] ops).
Proof.
  intros hashs ops. destruct (mrun_ok hashs ops _ [] (new_ok hashs)) as (t & E & _). by exists t.
Qed.
Print Assumptions C56_last_definition.

(** [preprocessorFindMacro] does not tell a macro without a value from an
    undefined one, but is otherwise the lookup. *)
Theorem C56_find :
  ∀ (hashs : N → N) (ops : list mop) t outs x,
    mrun hashs kt_new ops = TOk (t, outs) →
    find_macro hashs t x
      = TOk (match in_force (flat_map (λ o, match o with MDefine y v => [(y, v)] | MHas _ => [] end) ops) x
             with Some v => v | None => None end).
Proof.
  intros hashs ops t outs x E. destruct (mrun_ok hashs ops _ [] (new_ok hashs)) as (t' & E' & R).
  rewrite E in E'. simplify_eq. unfold find_macro. by rewrite (has_ok hashs _ _ x R).
Qed.
Print Assumptions C56_find.

(** The table the compiler starts with: the last -D of a name wins over the
    names the compiler defines itself, except __DEBUG (with --debug) and the
    backend function ids, which win over -D. *)
Theorem C56_command_line :
  ∀ (hashs : N → N) (S : mnames) (i : minit),
    ∃ t trace, init_preprocessor hashs S i = TOk (t, trace) ∧
      (∀ x, has_macro hashs t x = TOk
        (match in_force (map (λ d, (fst d, Some (snd d))) (s_bfi S)) x with
         | Some w => Some w
         | None =>
           if m_debug i && (x =? s_debug S)%N then Some None else
           match in_force (m_defines i) x with
           | Some w => Some w
           | None =>
             if m_test i && (x =? s_cxy_test S)%N || m_opt i && (x =? s_disable_assert S)%N
             then Some None else None
           end
         end)) ∧
      (trace = true → m_debug i = true) ∧
      (m_debug i = true → s_trace S ≠ s_cxy_test S → s_trace S ≠ s_disable_assert S →
       s_trace S ≠ s_debug S →
       trace = match in_force (m_defines i) (s_trace S) with Some _ => true | None => false end).
Proof.
  intros hashs S i. unfold init_preprocessor.
  destruct (mrun_ok hashs (init_ops1 S i) _ [] (new_ok hashs)) as (t1 & -> & R1).
  cbn [tbind fst snd app] in *.
  assert (E1 : ∀ x, in_force (defs (init_ops1 S i)) x =
      if m_debug i && (x =? s_debug S)%N then Some None else
      match in_force (m_defines i) x with
      | Some w => Some w
      | None =>
        if m_test i && (x =? s_cxy_test S)%N || m_opt i && (x =? s_disable_assert S)%N
        then Some None else None
      end).
  { intros x. unfold init_ops1, defs. rewrite !flat_map_app, !in_force_app.
    replace (flat_map _ (map (λ d : N * option N, MDefine d.1 d.2) (m_defines i))) with (m_defines i).
    2: { induction (m_defines i) as [|[y v] l IH]; [done|]. cbn. by rewrite <- IH. }
    rewrite (N.eqb_sym x (s_debug S)), (N.eqb_sym x (s_cxy_test S)), (N.eqb_sym x (s_disable_assert S)).
    destruct (m_debug i), (m_test i), (m_opt i); cbn;
      repeat (match goal with |- context [(?a =? x)%N] => destruct (a =? x)%N end; cbn);
      by destruct (in_force (m_defines i) x). }
  assert (Eb : defs (map (λ d : N * N, MDefine d.1 (Some d.2)) (s_bfi S))
                 = map (λ d, (fst d, Some (snd d))) (s_bfi S)).
  { unfold defs. induction (s_bfi S) as [|[y v] l IH]; [done|]. cbn. by rewrite IH. }
  destruct (mrun_ok hashs (map (λ d, MDefine (fst d) (Some (snd d))) (s_bfi S)) t1 _ R1) as (t2 & E2 & R2).
  rewrite Eb in R2. clear Eb.
  destruct (m_debug i) eqn:Dbg.
  - rewrite (has_ok hashs _ _ (s_trace S) R1). cbn [tbind]. rewrite E2. cbn [tbind fst snd].
    eexists _, _. split; [done|]. split; [|split; [done|]].
    + intros x. rewrite (has_ok hashs _ _ x R2), in_force_app, E1. done.
    + intros _ N1 N2 N3. rewrite E1. apply N.eqb_neq in N1, N2, N3. rewrite N1, N2, N3.
      rewrite !andb_false_r. cbn. by destruct (in_force (m_defines i) (s_trace S)).
  - cbn [tbind]. rewrite E2. cbn [tbind fst snd]. eexists _, _. split; [done|]. split; [|split; done].
    intros x. rewrite (has_ok hashs _ _ x R2), in_force_app, E1. done.
Qed.
Print Assumptions C56_command_line.

Example C56_ex1 :
  match mrun (λ _, 3%N) kt_new
    [MDefine 1 (Some 10); MDefine 2 None; MHas 1; MDefine 1 (Some 11); MHas 1; MHas 2; MHas 3]%N with
  | TOk (_, outs) => outs | _ => [] end
  = [MDefined true None; MDefined true None; MFound (Some (Some 10)); MDefined false (Some (Some 10));
     MFound (Some (Some 11)); MFound (Some None); MFound None]%N.
Proof. vm_compute. reflexivity. Qed.
Example C56_ex2 :
  match init_preprocessor (λ x, x) (MNames 1 2 3 4 [(5, 50); (6, 60)])%N
    (MInit true false [(1, Some 7); (4, None); (5, Some 8); (9, None); (9, Some 2)]%N true) with
  | TOk (t, trace) =>
    (map (λ x, has_macro (λ x, x) t x) [1; 2; 3; 5; 9; 10]%N, trace)
  | _ => ([], false) end
  = ([TOk (Some (Some 7)); TOk None; TOk (Some None); TOk (Some (Some 50)); TOk (Some (Some 2)); TOk None]%N,
     true).
Proof. vm_compute. reflexivity. Qed.
