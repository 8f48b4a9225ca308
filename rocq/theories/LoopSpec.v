(** What loops mean. *)
From Coq Require Import ZArith List Bool.
From Verif Require Import LoopModel.
Import ListNotations.
Open Scope Z_scope.

(** The values of [range(a, b, c)]: those from [a] on, in steps of [c], before [b] is reached or passed; a
    step of zero means nothing. *)
Definition count (a b c : Z) : nat :=
  if 0 <? c then Z.to_nat ((b - a + c - 1) / c) else Z.to_nat ((a - b - c - 1) / - c).
Definition values (a b c : Z) : list Z := map (fun k => a + Z.of_nat k * c) (seq 0 (count a b c)).

(** The steps lead from [a] to [b] exactly. *)
Definition meets (a b c : Z) : bool :=
  negb (c =? 0) && ((b - a) mod c =? 0) && (0 <=? (b - a) / c).

Section means.
(** Which ranges have a meaning: [fun _ _ _ => true], or only some *)
Context (ok : Z -> Z -> Z -> bool).

(** One round after the other *)
Fixpoint each (f : Z -> state -> res) (l : list Z) (s : state) : res :=
  match l with
  | [] => End Next s
  | z :: l => match f z s with
              | End Next s | End Cont s => each f l s
              | End Brk s => End Next s
              | r => r
              end
  end.

(** The bounds are evaluated once; each round has a variable of its own; [break] and [continue] belong to
    the loop around them. *)
Fixpoint exec (fuel : nat) (p : stmt) (s : state) : res :=
  match fuel with
  | O => More
  | S f =>
    match p with
    | Skip => End Next s
    | Expr e => with_value (eval e s) (fun _ s => End Next s)
    | Assign v e => assign v (eval e s)
    | Store a i e => store a i e s
    | Seq p q => match exec f p s with End Next s => exec f q s | r => r end
    | If e p q => with_value (eval e s) (fun z s => if z =? 0 then exec f q s else exec f p s)
    | While e p => with_value (eval e s) (fun z s =>
        if z =? 0 then End Next s
        else match exec f p s with
             | End Next s | End Cont s => exec f (While e p) s
             | End Brk s => End Next s
             | r => r
             end)
    | Switch e z p q => with_value (eval e s) (fun x s => if x =? z then exec f p s else exec f q s)
    | Break => End Brk s
    | Continue => End Cont s
    | Return => End Ret s
    | For t v start stop step body =>
        with_value (eval start s) (fun a s => with_value (eval stop s) (fun b s =>
        with_value (eval (match step with Some e => e | None => Num 1 end) s) (fun c s =>
          if fits t a && fits t b && negb (c =? 0) && ok a b c then
            each (fun x s => unlet v (s_var s v) (exec f body (set_var v x s))) (values a b c) s
          else Undef)))
    | ForArr v i a len body =>
        each (fun k s => match nth_z (s_arr s a) k with
          | Some x => unlet v (s_var s v) (unlet i (s_var s i) (exec f body (set_var i k (set_var v x s))))
          | None => Undef end) (map Z.of_nat (seq 0 len)) s
    | ForStr v i l body =>
        each (fun k s => match nth_z l k with
          | Some x => unlet v (s_var s v) (unlet i (s_var s i) (exec f body (set_var i k (set_var v x s))))
          | None => Undef end) (map Z.of_nat (seq 0 (length l))) s
    end
  end.
End means.

(** Programs the theorem speaks about. *)
Fixpoint keeps_var (v : nat) (p : stmt) : bool :=
  match p with
  | Assign x _ => negb (Nat.eqb x v)
  | Seq p q | If _ p q | Switch _ _ p q => keeps_var v p && keeps_var v q
  | While _ p => keeps_var v p
  | For _ x _ _ _ p => Nat.eqb x v || keeps_var v p
  | ForArr x i _ _ p | ForStr x i _ p => Nat.eqb x v || Nat.eqb i v || keeps_var v p
  | _ => true
  end.
Fixpoint keeps_arr (a : nat) (p : stmt) : bool :=
  match p with
  | Store x _ _ => negb (Nat.eqb x a)
  | Seq p q | If _ p q | Switch _ _ p q => keeps_arr a p && keeps_arr a q
  | While _ p => keeps_arr a p
  | For _ _ _ _ _ p => keeps_arr a p
  | ForArr _ _ _ _ p | ForStr _ _ _ p => keeps_arr a p
  | _ => true
  end.
(** The value of [e] does not change while [p] runs, and nothing is to be seen of its evaluation; it
    does not mention [v]. *)
Fixpoint steady (v : nat) (p : stmt) (e : expr) : bool :=
  match e with
  | Num _ => true
  | Var x => negb (Nat.eqb x v) && keeps_var x p
  | Add a b | Ne a b | Lt a b => steady v p a && steady v p b
  | Elem a i => keeps_arr a p && steady v p i
  | Emit _ => false
  end.
(** No [break] that a switch would take *)
Fixpoint no_break (p : stmt) : bool :=
  match p with
  | Break => false
  | Seq p q | If _ p q | Switch _ _ p q => no_break p && no_break q
  | _ => true
  end.
Fixpoint steady_loops (p : stmt) : bool :=
  match p with
  | Seq p q | If _ p q => steady_loops p && steady_loops q
  | Switch _ _ p q => steady_loops p && steady_loops q && no_break p && no_break q
  | While _ p => steady_loops p
  | For _ v _ stop step p =>
      keeps_var v p && steady v p stop && match step with Some e => steady v p e | None => true end &&
      steady_loops p
  | ForArr v i _ len p => negb (Nat.eqb v i) && keeps_var i p && (Z.of_nat len + 1 <? 2 ^ 64) && steady_loops p
  | ForStr _ _ _ _ => false
  | _ => true
  end.

Definition good (t : ity) (a b c : Z) : Prop := fits t a = true /\ fits t b = true /\ fits t c = true.
