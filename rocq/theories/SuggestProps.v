(** Property C77: the suggestion made for an undefined name
    (lang/middle/bind/scope.c:44-101). *)
From stdpp Require Import list numbers.
From Verif Require Import HTableModel KTableModel ScopeModel ScopeSpec ScopeProofs
  SuggestModel SuggestSpec SuggestProofs.

(** The pruned recursion computes the edit distance, as far as it matters: it
    tells for every bound up to the budget whether the distance is within it. *)
Theorem C77_distance : ∀ (l r : list N) (budget d : nat),
  (d ≤ budget)%nat → (lev l r budget ≤ d)%nat ↔ within d l r.
Proof. exact lev_within. Qed.
Print Assumptions C77_distance.

(** The name suggested is declared in an open scope and at most one edit away;
    for a name of three characters or more, one is suggested whenever there is
    such a name. *)
Theorem C77_suggestion :
  ∀ (P : program) (hashp : N → N) (chars : N → list N) (root : N) (ops : list sop) fs outs e name,
    forwards_completable P → Forall (functions_as_functions P) ops →
    frun P [empty_frame root] ops = Some (fs, outs) →
    srun P hashp (env_init root) ops = SOk (e, outs) →
    match suggest chars e name with
    | Some s => declared fs s ∧ within 1 (chars name) (chars s)
    | None => (3 ≤ length (chars name))%nat →
              ∀ s, declared fs s → ¬ within 1 (chars name) (chars s)
    end.
Proof.
  intros P hashp chars root ops fs outs e name FC G Ef Es.
  pose proof (run_R P hashp ops _ _ FC (init_R P hashp root) G) as H. rewrite Ef in H.
  destruct H as (e' & Es' & HR). rewrite Es in Es'. injection Es' as <-.
  unfold suggest. destruct (Nat.leb_spec (length (chars name)) 2) as [L|L]; [intros; lia|].
  pose proof (consider_fold chars name (visible_symbols e) 2 None eq_refl) as C. cbv zeta in C.
  destruct (snd (fold_left _ _ _)) as [s|].
  - destruct C as [[Hs|?] W]; [|done]. split; [|done]. by apply (visible_R P hashp e).
  - destruct C as [_ Hno]. intros _ s Hs. apply Hno. by apply (visible_R P hashp e fs).
Qed.
Print Assumptions C77_suggestion.

(** count / conut are two edits apart; count / cout one. *)
Definition ex_chars (x : N) : list N :=
  if (x =? 1)%N then [99; 111; 117; 110; 116]%N         (* count *)
  else if (x =? 2)%N then [99; 111; 117; 116]%N         (* cout *)
  else if (x =? 3)%N then [99; 111; 110; 117; 116]%N    (* conut *)
  else [120; 121]%N.                                     (* xy *)
Definition ex_prog : program := Program (λ _, TgOther) (λ _, false) (λ _, true) (λ _, None) (λ _, false).
Example C77_ex1 :
  lev (ex_chars 1) (ex_chars 2) 2 = 1%nat ∧ lev (ex_chars 1) (ex_chars 3) 2 = 2%nat ∧
  match srun ex_prog (λ x, x) (env_init 0) [ODefine 1 5; OPush 7; ODefine 4 6]%N with
  | SOk (e, _) => (suggest ex_chars e 2, suggest ex_chars e 3, suggest ex_chars e 4)
  | _ => (None, None, None) end = (Some 1%N, None, None).
Proof. split; [|split]; vm_compute; reflexivity. Qed.
