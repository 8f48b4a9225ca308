(** What a program with defer statements is to do, and what one without them does.  Both are
    run with a list of choices (the outcome of every test, 0 for false; the number of the case)
    and a bound on the rounds of each loop; when one of them is used up the run is cut.  So the
    runs are the finite executions and the beginnings of the others. *)
From Coq Require Import List Bool Arith.
From Verif Require Import DeferModel.
Import ListNotations.

Inductive event := A (n : nat) | T (c k : nat).
Inductive outcome := Norm | Ret (n : nat) | Brk | Cont | Cut.
Definition norm (o : outcome) : bool := match o with Norm => true | _ => false end.
Definition cut (o : outcome) : bool := match o with Cut => true | _ => false end.


(** ** With defer.  [p] are the statements deferred in the innermost block so far, the last
    one first; a block runs its own when it is left.  The body of a conditional, a loop or a
    case is a block. *)
Definition leave (o : outcome) (p : list nat) : list event := if cut o then [] else map A p.
Fixpoint src (N : nat) (s : stmt) (p : list nat) (ch : list nat) : list event * outcome * list nat * list nat :=
  let body := fun (s : stmt) (ch : list nat) => let '(t, o, q, ch) := src N s [] ch in (t ++ leave o q, o, ch) in
  match s with
  | Act n => ([A n], Norm, p, ch)
  | Defer n => ([], Norm, n :: p, ch)
  | Return n => ([], Ret n, p, ch)
  | Break => ([], Brk, p, ch)
  | Continue => ([], Cont, p, ch)
  | Noop => ([], Norm, p, ch)
  | Block l =>
    let go := fix go (l : list stmt) (p : list nat) (ch : list nat) : list event * outcome * list nat * list nat :=
      match l with
      | [] => ([], Norm, p, ch)
      | s :: l =>
        let '(t, o, p, ch) := src N s p ch in
        if norm o then let '(t', o', p', ch') := go l p ch in (t ++ t', o', p', ch') else (t, o, p, ch)
      end in
    let '(t, o, q, ch) := go l [] ch in (t ++ leave o q, o, p, ch)
  | If c a b =>
    match ch with
    | [] => ([], Cut, p, [])
    | k :: ch => let '(t, o, ch) := body (if k =? 0 then b else a) ch in (T c k :: t, o, p, ch)
    end
  | While None s =>
    let fix loop k ch :=
      match k with
      | 0 => ([], Cut, ch)
      | S k => let '(t, o, ch) := body s ch in
               match o with
               | Norm | Cont => let '(t', o', ch') := loop k ch in (t ++ t', o', ch')
               | Brk => (t, Norm, ch)
               | _ => (t, o, ch)
               end
      end in
    let '(t, o, ch) := loop N ch in (t, o, p, ch)
  | While (Some c) s | For c s =>
    let fix loop k ch :=
      match k with
      | 0 => ([], Cut, ch)
      | S k =>
        match ch with
        | [] => ([], Cut, [])
        | b :: ch =>
          if b =? 0 then ([T c b], Norm, ch)
          else let '(t, o, ch) := body s ch in
               match o with
               | Norm | Cont => let '(t', o', ch') := loop k ch in (T c b :: t ++ t', o', ch')
               | Brk => (T c b :: t, Norm, ch)
               | _ => (T c b :: t, o, ch)
               end
        end
      end in
    let '(t, o, ch) := loop N ch in (t, o, p, ch)
  | Switch c cases =>
    match ch with
    | [] => ([], Cut, p, [])
    | k :: ch =>
      let fix pick i l {struct l} := match l with
                          | [] => ([], Norm, ch)
                          | s :: l => match i with 0 => body s ch | S i => pick i l end
                          end in
      let '(t, o, ch) := pick k cases in (T c k :: t, o, p, ch)
    end
  end.
(** A function with this body. *)
Definition run_src (N : nat) (l : list stmt) (ch : list nat) : list event * outcome * list nat :=
  let '(t, o, _, ch) := src N (Block l) [] ch in (t, o, ch).

(** ** Without.  A defer statement that is left over does nothing. *)
Fixpoint tgt (N : nat) (s : stmt) (ch : list nat) : list event * outcome * list nat :=
  match s with
  | Act n => ([A n], Norm, ch)
  | Defer _ | Noop => ([], Norm, ch)
  | Return n => ([], Ret n, ch)
  | Break => ([], Brk, ch)
  | Continue => ([], Cont, ch)
  | Block l =>
    (fix go (l : list stmt) (ch : list nat) : list event * outcome * list nat :=
      match l with
      | [] => ([], Norm, ch)
      | s :: l =>
        let '(t, o, ch) := tgt N s ch in
        if norm o then let '(t', o', ch') := go l ch in (t ++ t', o', ch') else (t, o, ch)
      end) l ch
  | If c a b =>
    match ch with
    | [] => ([], Cut, [])
    | k :: ch => let '(t, o, ch) := (if k =? 0 then tgt N b ch else tgt N a ch) in (T c k :: t, o, ch)
    end
  | While None s =>
    (fix loop k ch :=
      match k with
      | 0 => ([], Cut, ch)
      | S k => let '(t, o, ch) := tgt N s ch in
               match o with
               | Norm | Cont => let '(t', o', ch') := loop k ch in (t ++ t', o', ch')
               | Brk => (t, Norm, ch)
               | _ => (t, o, ch)
               end
      end) N ch
  | While (Some c) s | For c s =>
    (fix loop k ch :=
      match k with
      | 0 => ([], Cut, ch)
      | S k =>
        match ch with
        | [] => ([], Cut, [])
        | b :: ch =>
          if b =? 0 then ([T c b], Norm, ch)
          else let '(t, o, ch) := tgt N s ch in
               match o with
               | Norm | Cont => let '(t', o', ch') := loop k ch in (T c b :: t ++ t', o', ch')
               | Brk => (T c b :: t, Norm, ch)
               | _ => (T c b :: t, o, ch)
               end
        end
      end) N ch
  | Switch c cases =>
    match ch with
    | [] => ([], Cut, [])
    | k :: ch =>
      let '(t, o, ch) :=
        (fix pick i l {struct l} := match l with
                         | [] => ([], Norm, ch)
                         | s :: l => match i with 0 => tgt N s ch | S i => pick i l end
                         end) k cases in (T c k :: t, o, ch)
    end
  end.

(** The cases whose body is a jump or a defer itself, not one in a block. *)
Definition bare (s : stmt) : bool :=
  match s with Defer _ | Return _ | Break | Continue => true | _ => false end.
Fixpoint no_bare_case (s : stmt) : bool :=
  match s with
  | Block l => forallb no_bare_case l
  | If _ a b => no_bare_case a && no_bare_case b
  | While _ s | For _ s => no_bare_case s
  | Switch _ l => forallb (fun s => negb (bare s) && no_bare_case s) l
  | _ => true
  end.
