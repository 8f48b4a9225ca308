(** Property C79: choice of an overload (lang/middle/sema/function.c). *)
From stdpp Require Import list numbers.
From Coq Require Import ZifyBool ZifyNat ZifyN.
From Verif Require Import OverloadModel OverloadSpec OverloadProofs.

(** Every chain of overloads in which a variadic function with fewer fixed
    parameters than there are arguments stands last (in particular every chain
    without variadic functions), every list of arguments and every conversion
    relation: the overload chosen accepts the arguments with the fewest
    conversions, and none is found only if none accepts them. *)
Theorem C79_choice_partial :
  ∀ (resolve : N → N) (assignable constructable : N → N → bool) (perfect : bool)
    (decls : list decl) (args : list N),
    Forall wf decls → (N.of_nat (length args) < 2 ^ 62)%N →
    (∀ j d, decls !! j = Some d → j + 1 < length decls → d_variadic d = true →
       length args ≤ length (fixed d)) →
    match match_overload resolve assignable constructable perfect decls args with
    | Some i => ∃ d c, decls !! i = Some d ∧
        accepts resolve assignable constructable perfect d args c ∧
        ∀ j d' c', decls !! j = Some d' →
          accepts resolve assignable constructable perfect d' args c' → c ≤ c'
    | None => ∀ j d c, decls !! j = Some d →
        ¬ accepts resolve assignable constructable perfect d args c
    end.
Proof.
  intros rs asg con perf decls args W Hn K.
  pose proof (loop_ok rs asg con perf decls args _ [] eq_refl Hn None 0%N W) as L.
  cbn [app length] in L. unfold match_overload. cbv zeta.
  unfold best in L. apply L; [|by intros j d c X; rewrite lookup_nil in X|done].
  intros j d Hj Hlt _ _ Hv. specialize (K j d Hj Hlt Hv). unfold fixed in K. rewrite Hv, take_length in K. lia.
Qed.
Print Assumptions C79_choice_partial.

(** After a variadic overload the later ones are compared with too few
    arguments: an overload that takes exactly the arguments given is missed,
    and one that takes fewer arguments than given is chosen.  The types here
    are 1, 2, 3; there are no conversions. *)
Theorem C79_choice_refuted :
  ∃ (v two one : decl) (args : list N),
    Forall wf [v; two; one] ∧
    accepts (λ t, t) (λ _ _, false) (λ _ _, false) false two args 0 ∧
    (∀ c, ¬ accepts (λ t, t) (λ _ _, false) (λ _ _, false) false one args c) ∧
    match_overload (λ t, t) (λ _ _, false) (λ _ _, false) false [v; two] args = None ∧
    match_overload (λ t, t) (λ _ _, false) (λ _ _, false) false [two; v] args = Some 0 ∧
    match_overload (λ t, t) (λ _ _, false) (λ _ _, false) false [v; one] args = Some 1.
Proof.
  exists (Decl true false true [1; 9]%N 0), (Decl true false false [2; 3]%N 0), (Decl true false false [2]%N 0), [2; 3]%N.
  split; [repeat constructor; cbn; done || lia|]. split.
  { split; [done|]. split; [done|]. split; [cbn; lia|]. split; [left; cbn; lia|]. cbn.
    apply (pass_cons _ _ _ _ 2%N 2%N [3%N] [3%N] 0 0); [by constructor|].
    apply (pass_cons _ _ _ _ 3%N 3%N [] [] 0 0); [by constructor|]. constructor. }
  split; [|split; [|split]; vm_compute; reflexivity].
  intros c (_ & _ & _ & [X|X] & _); [cbn in X; lia|done].
Qed.
Print Assumptions C79_choice_refuted.

(** f(1, 1), f(2, 1), f(2, 3 = default) called with (2, 3): two conversions,
    one conversion, none. *)
Example C79_ex1 :
  let f := [Decl true false false [1; 1] 0; Decl true false false [2; 1] 0; Decl true false false [2; 3] 1]%N in
  match_overload (λ t, t) (λ _ _, true) (λ _ _, false) false f [2; 3]%N = Some 2 ∧
  match_overload (λ t, t) (λ _ _, true) (λ _ _, false) false (take 2 f) [2; 3]%N = Some 1 ∧
  match_overload (λ t, t) (λ _ _, true) (λ _ _, false) true (take 2 f) [2; 3]%N = None ∧
  match_overload (λ t, t) (λ _ _, true) (λ _ _, false) false f [2]%N = Some 2 ∧
  match_overload (λ t, t) (λ _ _, true) (λ _ _, false) false f [2; 3; 4]%N = None.
Proof. vm_compute. repeat split. Qed.
