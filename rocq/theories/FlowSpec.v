(** What statements do, apart from the checker: the set of outcomes a piece of code can end with, and the atoms run till
    then. Conditions may come out either way. [OStop]: the code was only watched for a while (so code that runs forever is covered
    by all its beginnings). *)
From Coq Require Import Bool List.
Import ListNotations.
From Verif Require Import FlowModel.

Inductive outcome := ONormal | ORet (k : kind) | OBreak | OContinue | OStop.
Definition D := outcome -> list nat -> Prop.

Definition nop : D := fun o t => t = [] /\ (o = ONormal \/ o = OStop).
Definition emit (n : nat) : D := fun o t => (o = ONormal /\ t = [n]) \/ (o = OStop /\ (t = [] \/ t = [n])).
Definition goes (o' : outcome) : D := fun o t => t = [] /\ (o = o' \/ o = OStop).
Definition seq (A B : D) : D := fun o t =>
  (o <> ONormal /\ A o t) \/ exists t1 t2, A ONormal t1 /\ B o t2 /\ t = t1 ++ t2.
Definition choice (A B : D) : D := fun o t => A o t \/ B o t.

(** Loops: condition [C], body [B] *)
Inductive loop (C B : D) : D :=
| loop_cond o t : o <> ONormal -> C o t -> loop C B o t
| loop_exit t : C ONormal t -> loop C B ONormal t
| loop_break t1 t2 : C ONormal t1 -> B OBreak t2 -> loop C B ONormal (t1 ++ t2)
| loop_again o t1 t2 o3 t3 : C ONormal t1 -> B o t2 -> o = ONormal \/ o = OContinue ->
    loop C B o3 t3 -> loop C B o3 (t1 ++ t2 ++ t3)
| loop_leave o t1 t2 : C ONormal t1 -> B o t2 -> (exists k, o = ORet k) \/ o = OStop -> loop C B o (t1 ++ t2).

(** [E] runs after the rest [R] of the block, however that ends *)
Definition deferred (E R : D) : D := fun o t =>
  (o = OStop /\ R OStop t) \/
  exists o1 t1 o2 t2, R o1 t1 /\ o1 <> OStop /\ E o2 t2 /\ t = t1 ++ t2 /\
    o = match o2 with ONormal => o1 | _ => o2 end.

(** Cases of switch and match: any of them, or none *)
Fixpoint den_e (e : expr) : D :=
  match e with
  | EConst => nop
  | EAtom n => emit n
  | EBoth a b => seq (den_e a) (den_e b)
  | ELogic a b => seq (den_e a) (choice nop (den_e b))
  | ETern c a b => seq (den_e c) (choice (den_e a) (den_e b))
  | ECatch a h => seq (den_e a) (choice nop (den_e h))
  | EBlock l => den_l l
  end
with den_s (s : stmt) : D :=
  match s with
  | SExpr e | SVar e => den_e e
  | SReturn e k => seq (den_e e) (goes (ORet k))
  | SIf c a => seq (den_e c) (choice nop (den_l a))
  | SIfElse c a b => seq (den_e c) (choice (den_l a) (den_l b))
  | SWhile c b => loop (den_e c) (den_l b)
  | SFor r b => seq (den_e r) (loop nop (den_l b))
  | SSwitch e cs | SMatch e cs => seq (den_e e) (choice nop (den_c cs))
  | SBlock l => den_l l
  | SBreak => goes OBreak
  | SContinue => goes OContinue
  | SDefer e => den_e e
  end
with den_l (l : stmts) : D :=
  match l with
  | SNil => nop
  | SCons s r =>
      match s with
      | SDefer e => deferred (den_e e) (den_l r)
      | _ => seq (den_s s) (den_l r)
      end
  end
with den_c (cs : cases) : D :=
  match cs with
  | CNil => fun _ _ => False
  | CCons l r => choice (den_l l) (den_c r)
  end.

(** Code that cannot be left but by a return statement, as seen by its form alone *)
Fixpoint returns_e (e : expr) : bool :=
  match e with
  | EConst | EAtom _ => false
  | EBoth a b => returns_e a || returns_e b
  | ELogic a _ => returns_e a
  | ETern c a b => returns_e c || (returns_e a && returns_e b)
  | ECatch a _ => returns_e a
  | EBlock l => returns_l l
  end
with returns_s (s : stmt) : bool :=
  match s with
  | SExpr e | SVar e => returns_e e
  | SReturn e k => returns_e e || match k with KReturn => true | _ => false end
  | SIf c _ | SWhile c _ => returns_e c
  | SIfElse c a b => returns_e c || (returns_l a && returns_l b)
  | SFor e _ | SSwitch e _ | SMatch e _ => returns_e e
  | SBlock l => returns_l l
  | SBreak | SContinue | SDefer _ => false
  end
with returns_l (l : stmts) : bool :=
  match l with SNil => false | SCons s r => returns_s s || returns_l r end.

(** No operand that may be skipped, and nothing deferred, is code that always returns. *)
Fixpoint tame_e (e : expr) : Prop :=
  match e with
  | EConst | EAtom _ => True
  | EBoth a b | ECatch a b => tame_e a /\ tame_e b
  | ELogic a b => tame_e a /\ tame_e b /\ returns_e b = false
  | ETern c a b => tame_e c /\ tame_e a /\ tame_e b /\ returns_e a = false /\ returns_e b = false
  | EBlock l => tame_l l
  end
with tame_s (s : stmt) : Prop :=
  match s with
  | SExpr e | SVar e | SReturn e _ => tame_e e
  | SIf c a | SWhile c a | SFor c a => tame_e c /\ tame_l a
  | SIfElse c a b => tame_e c /\ tame_l a /\ tame_l b
  | SSwitch e cs | SMatch e cs => tame_e e /\ tame_c cs
  | SBlock l => tame_l l
  | SBreak | SContinue => True
  | SDefer e => tame_e e /\ returns_e e = false
  end
with tame_l (l : stmts) : Prop :=
  match l with SNil => True | SCons s r => tame_s s /\ tame_l r end
with tame_c (cs : cases) : Prop :=
  match cs with CNil => True | CCons l r => tame_l l /\ tame_c r end.

Definition same (A B : D) : Prop := forall o t, A o t <-> B o t.
(** The code cannot be left at its end. *)
Definition never_ends (A : D) : Prop := forall t, ~ A ONormal t.
