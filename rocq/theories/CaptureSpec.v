(** What closures should capture: the variables used inside that are declared
    outside, in order of first use. *)
From stdpp Require Import list numbers.
From Verif Require Import CaptureModel.

(** A list without repetitions, in order of first occurrence. *)
Fixpoint nub {A} (eqb : A → A → bool) (l : list A) : list A :=
  match l with
  | [] => []
  | a :: rest => a :: filter (λ b, eqb a b = false) (nub eqb rest)
  end.
Definition same_var (a b : N * N) : bool := (fst a =? fst b)%N && (snd a =? snd b)%N.
Definition same_sym (a b : sym) : bool := (s_name a =? s_name b)%N && (s_id a =? s_id b)%N.
(** The variable a declaration stands for: its name and the number of the
    declaration, counted in the order of the text. *)
Definition var (s : sym) : N * N := (s_name s, s_id s).

(** Lexical scoping.  [ρ] maps the names in scope to the numbers of their
    declarations, [n] is the number of declarations so far; [sem] gives the new
    [ρ] and [n], the variables used in the term, and for each closure in it (in
    the order in which they end) the variables to be captured: used inside,
    declared before the closure, not at the top level (the first [ntop]). *)
Section sem.
Context (ntop : N).
Definition bound (ρ : N → option N) (x i : N) : N → option N := λ y, if (x =? y)%N then Some i else ρ y.
Fixpoint bound_all (ρ : N → option N) (n : N) (xs : list N) : (N → option N) * N :=
  match xs with [] => (ρ, n) | x :: rest => bound_all (bound ρ x n) (n + 1) rest end.
Fixpoint sem (t : term) (ρ : N → option N) (n : N)
    : (N → option N) * N * list (N * N) * list (list (N * N)) :=
  match t with
  | TSkip => (ρ, n, [], [])
  | TUse x => (ρ, n, match ρ x with Some i => [(x, i)] | None => [] end, [])
  | TLet x e => let '(ρ1, n1, u, c) := sem e ρ n in (bound ρ1 x n1, (n1 + 1)%N, u, c)
  | TSeq a b =>
    let '(ρ1, n1, u1, c1) := sem a ρ n in
    let '(ρ2, n2, u2, c2) := sem b ρ1 n1 in (ρ2, n2, u1 ++ u2, c1 ++ c2)
  | TScope t => let '(_, n1, u, c) := sem t ρ n in (ρ, n1, u, c)
  | TCase x t => let '(_, n1, u, c) := sem t (bound ρ x n) (n + 1)%N in (ρ, n1, u, c)
  | TClosure ps t =>
    let '(ρ1, n1) := bound_all ρ n ps in
    let '(_, n2, u, c) := sem t ρ1 n1 in
    (ρ, n2, u, c ++ [nub same_var (filter (λ v, (ntop <=? snd v)%N && (snd v <? n)%N = true) u)])
  end.
End sem.

(** A function: [tops] are the names of the top level, [params] its
    parameters; the variables used and the captures of its closures. *)
Fixpoint top_env (i : N) (tops : list N) (x : N) : option N :=
  match tops with [] => None | y :: rest => if (y =? x)%N then Some i else top_env (i + 1) rest x end.
Definition sem_function (tops params : list N) (body : term) : list (N * N) * list (list (N * N)) :=
  let ntop := N.of_nat (length tops) in
  let '(ρ, n) := bound_all (top_env 0 tops) ntop params in
  let '(_, _, u, c) := sem ntop body ρ n in (u, c).

Fixpoint uses (t : term) : N :=
  match t with
  | TSkip => 0 | TUse _ => 1 | TLet _ e => uses e | TSeq a b => uses a + uses b
  | TScope t => uses t | TCase _ t => uses t | TClosure _ t => uses t
  end%N.
Fixpoint no_case (t : term) : bool :=
  match t with
  | TSkip | TUse _ => true | TLet _ e => no_case e | TSeq a b => no_case a && no_case b
  | TScope t => no_case t | TCase _ _ => false | TClosure _ t => no_case t
  end.
