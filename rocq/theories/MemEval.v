(** * Running compiled programs

    An evaluator for [MemSpec.execs] that follows a list of choices, used to
    exhibit executions. *)
From stdpp Require Import numbers list gmap.
From Verif Require Import MemModel MemSpec.

Lemma exec_if a b d o d' : exec (TIf a b) d o d' ↔ execs a d o d' ∨ execs b d o d'.
Proof. reflexivity. Qed.
Lemma exec_loop b : exec (TLoop b) = loop (execs b).
Proof. reflexivity. Qed.
Lemma exec_block b : exec (TBlock b) = execs b.
Proof. reflexivity. Qed.
Lemma exec_switch cs d o d' :
  exec (TSwitch cs) d o d' ↔
  ∃ c o', c ∈ cs ∧ execs c d o' d' ∧ o = match o' with Broke => Fell | _ => o' end.
Proof.
  simpl. split.
  - intros (o' & H & ->). induction cs as [|c cs IH]; [done|].
    destruct H as [H|H]; [exists c, o'; split_and!; [left|exact H|done]|].
    destruct (IH H) as (c1 & o1 & H1 & H2 & H3).
    exists c1, o1. split_and!; [by right|done|done].
  - intros (c & o' & Hc & H & ->). exists o'. split; [|done].
    clear -Hc H. induction cs as [|c1 cs IH]; [by apply elem_of_nil in Hc|].
    apply elem_of_cons in Hc as [->|Hc]; [by left|right; by apply IH].
Qed.

Local Instance outcome_eq_dec : EqDecision outcome.
Proof. solve_decision. Defined.

Fixpoint evals (fuel : nat) (l : list tstmt) (orc : list nat) (d : dst)
    : option (outcome * dst * list nat) :=
  match fuel, l with
  | 0, _ => None
  | S f, [] => Some (Fell, d, orc)
  | S f, s :: l =>
      r ← match s with
          | TIf a b =>
              match orc with
              | [] => None
              | 0 :: orc => evals f a orc d
              | _ :: orc => evals f b orc d
              end
          | TLoop b =>
              match evals f b orc d with
              | Some (Fell, d1, orc) | Some (Continued, d1, orc) =>
                  evals f [TLoop b] orc d1
              | Some (Broke, d1, orc) => Some (Fell, d1, orc)
              | r => r
              end
          | TBlock b => evals f b orc d
          | TSwitch cs =>
              match orc with
              | [] => None
              | k :: orc =>
                  match cs !! k with
                  | None => None
                  | Some c =>
                      match evals f c orc d with
                      | Some (Broke, d1, orc) => Some (Fell, d1, orc)
                      | r => r
                      end
                  end
              end
          | TBreak => Some (Broke, d, orc)
          | TContinue => Some (Continued, d, orc)
          | TReturn => Some (Returned, d, orc)
          | s => match prim s d with
                 | Some d1 => Some (Fell, d1, orc)
                 | None => Some (Bad, d, orc)
                 end
          end;
      match r with
      | (Fell, d1, orc) => evals f l orc d1
      | r => Some r
      end
  end.

Lemma loop_nil (R : rel) d o d' : seqr (loop R) (ends Fell) d o d' → loop R d o d'.
Proof. intros [[? ?]|(d1 & H & -> & ->)]; done. Qed.

Lemma evals_sound f l orc d o d' orc' :
  evals f l orc d = Some (o, d', orc') → execs l d o d'.
Proof.
  revert l orc d o d' orc'. induction f as [|f IH]; [done|].
  intros [|s l] orc d o d' orc' H; simpl in H; [by simplify_eq|].
  match type of H with (?e ≫= _) = _ => destruct e as [[[o1 d1] orc1]|] eqn:E end;
    [|done].
  assert (exec s d o1 d1) as H1.
  { clear H. destruct s.
    all: try (simpl; unfold primr; destruct (prim _ d) eqn:P in E |- *;
              simpl in P; simplify_eq; try rewrite P; done).
    all: try (simplify_eq; done).
    - destruct orc as [|[|k] orc]; [done| |]; apply IH in E; [by left|by right].
    - rewrite exec_loop.
      destruct (evals f b orc d) as [[[o2 d2] orc2]|] eqn:E2; [|done].
      apply IH in E2. destruct o2.
      + eapply loop_again; [exact E2|by left|]. apply IH in E. by apply loop_nil.
      + simplify_eq. by apply loop_break.
      + eapply loop_again; [exact E2|by right|]. apply IH in E. by apply loop_nil.
      + simplify_eq. apply loop_out; auto.
      + simplify_eq. apply loop_out; auto.
    - apply IH in E. done.
    - destruct orc as [|k orc]; [done|]. destruct (cs !! k) as [c|] eqn:K; [|done].
      destruct (evals f c orc d) as [[[o2 d2] orc2]|] eqn:E2; [|done].
      apply IH in E2. apply exec_switch. exists c, o2.
      assert (c ∈ cs) by (by eapply elem_of_list_lookup_2).
      destruct o2; simplify_eq; done. }
  destruct (decide (o1 = Fell)) as [->|Ho].
  - right. exists d1. split; [done|]. by eapply IH.
  - left. assert (o1 = o ∧ d1 = d') as [-> ->] by (destruct o1; simpl in H; try (by destruct Ho); by inversion H).
    done.
Qed.

(** ** Witnesses *)

Definition clean (o : outcome) (d : dst) : bool :=
  match o with
  | Fell => bool_decide (d_live d = ∅)
  | Returned => bool_decide
      (d_live d = match d_ret d with Some i => {[i]} | None => ∅ end)
  | _ => false
  end.

Definition same_outcome (a b : outcome) : bool := bool_decide (a = b).

Definition checks (fuel : nat) (orc : list nat) (strict : bool) (params : list nat)
    (body : block) (o0 : outcome) (ok : bool) : bool :=
  match compile strict params body with
  | Some code =>
      match evals fuel code orc (call params) with
      | Some (o, d, _) => same_outcome o o0 && Bool.eqb (clean o d) ok
      | None => false
      end
  | None => false
  end.

Lemma clean_spec o d : clean o d = true ↔ released_once o d.
Proof. destruct o; simpl; rewrite ?bool_decide_eq_true; done. Qed.

Lemma wrong_by fuel orc strict params body o0 :
  checks fuel orc strict params body o0 false = true →
  goes_wrong strict params body o0.
Proof.
  unfold checks. intros H.
  destruct (compile strict params body) as [code|] eqn:Ec; [|done].
  destruct (evals fuel code orc (call params)) as [[[o d] orc']|] eqn:Ee; [|done].
  apply andb_true_iff in H as [H1 H2]. apply bool_decide_eq_true in H1 as ->.
  apply Bool.eqb_prop in H2. exists code, d. split; [done|].
  split; [by eapply evals_sound|]. intros Hr. apply clean_spec in Hr. congruence.
Qed.

Lemma right_by fuel orc strict params body o0 :
  checks fuel orc strict params body o0 true = true →
  ∃ code d', compile strict params body = Some code ∧
    execs code (call params) o0 d' ∧ released_once o0 d'.
Proof.
  unfold checks. intros H.
  destruct (compile strict params body) as [code|] eqn:Ec; [|done].
  destruct (evals fuel code orc (call params)) as [[[o d] orc']|] eqn:Ee; [|done].
  apply andb_true_iff in H as [H1 H2]. apply bool_decide_eq_true in H1 as ->.
  apply Bool.eqb_prop in H2. exists code, d. split; [done|].
  split; [by eapply evals_sound|]. by apply clean_spec.
Qed.
