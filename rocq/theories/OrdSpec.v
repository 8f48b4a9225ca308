(** Which programs keep their order of evaluation.  The meaning of a program is that of [exec] with operands from
    left to right. *)
From Coq Require Import ZArith List Bool Arith.
From Verif Require Import OrdModel.
Import ListNotations.

Definition left_to_right : expr -> bool := fun _ => false.
Definition left_to_right_args : args -> bool := fun _ => false.

(** What an evaluation may do: the variables it reads or sets, those it sets, whether the rest of the world is read
    or changed, whether it may fail *)
Record effects := Effects { uses : list nat; sets : list nat; reads_world : bool; changes_world : bool; fails : bool }.

Definition nothing := Effects [] [] false false false.
Definition plus (f g : effects) :=
  Effects (uses f ++ uses g) (sets f ++ sets g) (reads_world f || reads_world g)
    (changes_world f || changes_world g) (fails f || fails g).
Definition may_fail := Effects [] [] false false true.
Definition outside_read := Effects [] [] true false false.
Definition outside_change := Effects [] [] true true true.

Definition disjoint (l m : list nat) : bool := forallb (fun x => negb (existsb (Nat.eqb x) m)) l.

(** Two evaluations that may be swapped *)
Definition apart (f g : effects) : bool :=
  disjoint (sets f) (uses g) && disjoint (sets g) (uses f) &&
  negb (changes_world f && reads_world g) && negb (changes_world g && reads_world f).

(** An evaluation that may be made although it should not *)
Definition harmless (f : effects) : bool :=
  match sets f with [] => true | _ => false end && negb (changes_world f) && negb (fails f).

(** An evaluation that may be made twice *)
Definition repeatable (f : effects) : bool :=
  match sets f with [] => true | _ => false end && negb (changes_world f).

(** Places and literals *)
Fixpoint place (e : expr) : bool :=
  match e with Var _ | Glob _ | Elem _ _ => true | Cast _ e => place e | _ => false end.
Fixpoint constant (e : expr) : bool :=
  match e with Num _ => true | Neg e | Cast _ e => constant e | _ => false end.
(** An argument that is evaluated by the call; the others are evaluated before the statement. *)
Definition stays (e : expr) : bool :=
  place e || constant e || match e with Neg _ | Inc _ => true | _ => false end.

(** What of an expression is evaluated in its place, and what before its statement *)
Fixpoint late (e : expr) : effects :=
  match e with
  | Num _ => nothing
  | Var x => Effects [x] [] false false false
  | Glob _ => outside_read
  | Inc x => Effects [x] [x] false false false
  | Elem _ i => plus (if stays i then late i else nothing) (plus outside_read may_fail)
  | Neg e => late e
  | Bin o a b => plus (late a) (plus (late b) (match o with Div => may_fail | _ => nothing end))
  | And a b => plus (late a) (late b)
  | Cond c a b => plus (late c) (plus (late a) (late b))
  | Cast _ e => late e
  | Call _ a => plus (late_args a) outside_change
  end
with late_args (a : args) : effects :=
  match a with
  | ANil => nothing
  | ACons e r => plus (if stays e then late e else nothing) (late_args r)
  end.

Fixpoint early (e : expr) : effects :=
  match e with
  | Num _ | Var _ | Glob _ | Inc _ => nothing
  | Elem _ i => plus (early i) (if stays i then nothing else late i)
  | Neg e => early e
  | Bin _ a b | And a b => plus (early a) (early b)
  | Cond c a b => plus (early c) (plus (early a) (early b))
  | Cast _ e => plus (early e) (plus (late e) may_fail)
  | Call _ a => plus (early_moved a) (early_staying a)
  end
with early_moved (a : args) : effects :=
  match a with
  | ANil => nothing
  | ACons e r => plus (if stays e then nothing else plus (early e) (late e)) (early_moved r)
  end
with early_staying (a : args) : effects :=
  match a with
  | ANil => nothing
  | ACons e r => plus (if stays e then early e else nothing) (early_staying r)
  end.

Section Ordered.
(** [strict]: the order of operands that stay must not matter either. *)
Variable strict : bool.
Definition free (f g : effects) : bool := negb strict || apart f g.

Fixpoint ordered (e : expr) : bool :=
  match e with
  | Num _ | Var _ | Glob _ | Inc _ => true
  | Elem _ i => ordered i
  | Neg e => ordered e
  | Bin _ a b => ordered a && ordered b && apart (late a) (early b) && free (late a) (late b)
  | And a b => ordered a && ordered b && apart (late a) (early b) && harmless (early b)
  | Cond c a b =>
      ordered c && ordered a && ordered b && apart (late c) (early a) && apart (late c) (early b) &&
      harmless (early a) && harmless (early b)
  | Cast _ e => ordered e && repeatable (late e)
  | Call _ a => ordered_args a
  end
with ordered_args (a : args) : bool :=
  match a with
  | ANil => true
  | ACons e r =>
      ordered e && ordered_args r &&
      (if stays e then
         apart (early e) (early_moved r) && apart (late e) (early_moved r) &&
         apart (late e) (early_staying r) && free (late e) (late_args r)
       else true)
  end.

(** What an [if] after [else] evaluates before the first [if] *)
Fixpoint else_early (s : stmt) : effects :=
  match s with If c _ q => plus (early c) (else_early q) | _ => nothing end.

Fixpoint ordered_stmt (s : stmt) : bool :=
  match s with
  | Skip | Break | Continue => true
  | Do e | Assign _ e | Return e | Assert _ e => ordered e
  | Store _ i e =>
      ordered i && ordered e &&
      (if stays i then apart (late i) (early e) && free (late i) (late e) else true)
  | If c p q =>
      ordered c && ordered_stmt p && ordered_stmt q && harmless (else_early q) && apart (late c) (else_early q)
  | While c p => ordered c && (negb (constant c) || negb (fails (early c))) && ordered_stmt p
  | Block b => ordered_block b
  end
with ordered_block (b : block) : bool :=
  match b with BNil => true | BCons s b => ordered_stmt s && ordered_block b end.
End Ordered.

(** Variables *)
Fixpoint vars (e : expr) : list nat :=
  match e with
  | Num _ | Glob _ => []
  | Var x | Inc x => [x]
  | Elem _ e | Neg e | Cast _ e => vars e
  | Bin _ a b | And a b => vars a ++ vars b
  | Cond c a b => vars c ++ vars a ++ vars b
  | Call _ a => vars_args a
  end
with vars_args (a : args) : list nat :=
  match a with ANil => [] | ACons e r => vars e ++ vars_args r end.

Fixpoint vars_stmt (s : stmt) : list nat :=
  match s with
  | Skip | Break | Continue => []
  | Do e | Return e | Assert _ e => vars e
  | Assign x e => x :: vars e
  | Store _ i e => vars i ++ vars e
  | If c p q => vars c ++ vars_stmt p ++ vars_stmt q
  | While c p => vars c ++ vars_stmt p
  | Block b => vars_block b
  end
with vars_block (b : block) : list nat :=
  match b with BNil => [] | BCons s b => vars_stmt s ++ vars_block b end.

(** Results that are the same but for variables from [n] on *)
Definition agree {h} (n : nat) (s t : state h) : Prop :=
  (forall x, (x < n)%nat -> loc s x = loc t x) /\ wd s = wd t.
Definition same_result {h} (n : nat) (r q : res h) : Prop :=
  match r, q with
  | Undef, Undef | More, More => True
  | Done g s, Done k t => g = k /\ agree n s t
  | _, _ => False
  end.
