(** * What it means to release owned variables exactly once

    The code the pass hands to the C backend is given a meaning in which
    values that own memory are resources with identities. A variable holds
    the identity of a resource or null; nothing erases it when the variable
    is moved from or released. A resource is live from the moment it is made
    until it is released or handed over (to a callee or the caller). Releasing,
    copying or handing over one that is not live is [Bad]. *)
From stdpp Require Import numbers list gmap.
From Verif Require Import MemModel.

Record dst := Dst {
  d_store : gmap nat nat;      (* variable -> resource; absent: null *)
  d_live : gset nat;
  d_next : nat;                (* never used identities are the ones from here *)
  d_flags : gmap nat bool;
  d_ret : option nat;          (* the value about to be returned *)
}.

Inductive outcome := Fell | Broke | Continued | Returned | Bad.

Definition with_store (s : gmap nat nat) (d : dst) : dst :=
  Dst s (d_live d) (d_next d) (d_flags d) (d_ret d).
Definition with_live (l : gset nat) (d : dst) : dst :=
  Dst (d_store d) l (d_next d) (d_flags d) (d_ret d).
Definition with_ret (r : option nat) (d : dst) : dst :=
  Dst (d_store d) (d_live d) (d_next d) (d_flags d) r.

Definition put (x : nat) (v : option nat) (d : dst) : dst :=
  with_store (match v with Some i => <[x := i]> (d_store d)
                         | None => delete x (d_store d) end) d.

(** A new resource (generate.c: a call or an allocation). *)
Definition acquire (d : dst) : dst :=
  Dst (d_store d) ({[d_next d]} ∪ d_live d) (S (d_next d)) (d_flags d) (d_ret d).

(** The value of [y], if it may be looked at. *)
Definition read (y : nat) (d : dst) : option (option nat) :=
  match d_store d !! y with
  | None => Some None
  | Some i => if decide (i ∈ d_live d) then Some (Some i) else None
  end.

Definition make (x : nat) (d : dst) : dst := put x (Some (d_next d)) (acquire d).

(** Releasing null does nothing (builtins.cxy:149-175). *)
Definition release (x : nat) (d : dst) : option dst :=
  match d_store d !! x with
  | None => Some d
  | Some i => if decide (i ∈ d_live d)
              then Some (with_live (d_live d ∖ {[i]}) d) else None
  end.

(** Statements that are not control flow; [None] is [Bad].
    A variable without initialiser starts as null (generate.c:1639-1670); a
    move is just the operand (generate.c:909); a copy is a resource of its
    own; a guarded release is [if (flag) release] (generate.c:1243-1292). *)
Definition prim (s : tstmt) (d : dst) : option dst :=
  match s with
  | TDecl x None => Some (put x None d)
  | TDecl x (Some DFresh) | TSet x AFresh => Some (make x d)
  | TDecl x (Some (DCopy y)) =>
      v ← read y d; Some (match v with Some _ => make x d | None => put x None d end)
  | TDecl x (Some (DMove y)) | TSet x (AMove y) | TSet x (AName y) =>
      v ← read y d; Some (put x v d)
  | TSet x (AUsing y) => _ ← read y d; Some (make x d)
  | TGive x =>
      v ← read x d;
      Some (match v with Some i => with_live (d_live d ∖ {[i]}) d | None => d end)
  | TUse x => _ ← read x d; Some d
  | TDrop x => release x d
  | TDropIf x =>
      match d_flags d !! x with Some true => release x d | _ => Some d end
  | TFlag x b =>
      Some (Dst (d_store d) (d_live d) (d_next d) (<[x := b]> (d_flags d)) (d_ret d))
  | TKeep x => v ← read x d; Some (with_ret v d)
  | TKeepNew => Some (with_ret (Some (d_next d)) (acquire d))
  | _ => Some d
  end.

(** Executions: either branch may be taken, a loop may go round any number of
    times, any case may be chosen. A [break] of C inside a [switch] leaves
    the [switch] (generate.c:1550-1614, 1631). *)
Definition rel := dst → outcome → dst → Prop.
Definition seqr (R S : rel) : rel := λ d o d',
  (o ≠ Fell ∧ R d o d') ∨ ∃ d1, R d Fell d1 ∧ S d1 o d'.
Definition ends (o' : outcome) : rel := λ d o d', o = o' ∧ d' = d.

Inductive loop (R : rel) : rel :=
| loop_again d o1 d1 o d' :
    R d o1 d1 → o1 = Fell ∨ o1 = Continued → loop R d1 o d' → loop R d o d'
| loop_break d d' : R d Broke d' → loop R d Fell d'
| loop_out d o d' : R d o d' → o = Returned ∨ o = Bad → loop R d o d'.

Definition primr (s : tstmt) : rel := λ d o d',
  match prim s d with
  | Some d1 => o = Fell ∧ d' = d1
  | None => o = Bad ∧ d' = d
  end.

Fixpoint exec (s : tstmt) : rel :=
  let go := fix go l := match l with
    | [] => ends Fell | s :: l => seqr (exec s) (go l) end in
  match s with
  | TIf a b => λ d o d', go a d o d' ∨ go b d o d'
  | TLoop b => loop (go b)
  | TBlock b => go b
  | TSwitch cs => λ d o d', ∃ o',
      (fix any cs := match cs with
         | [] => False | c :: cs => go c d o' d' ∨ any cs end) cs ∧
      o = match o' with Broke => Fell | _ => o' end
  | TBreak => ends Broke
  | TContinue => ends Continued
  | TReturn => ends Returned
  | _ => primr s
  end.

Fixpoint execs (l : list tstmt) : rel :=
  match l with [] => ends Fell | s :: l => seqr (exec s) (execs l) end.

(** A call: every parameter owns a resource of its own. *)
Definition call (params : list nat) : dst :=
  Dst (list_to_map (zip params (seq 0 (length params))))
      (list_to_set (seq 0 (length params))) (length params) ∅ None.

(** At the end of a call every resource has been released or handed over
    once: none is live but the one returned. *)
Definition released_once (o : outcome) (d : dst) : Prop :=
  match o with
  | Fell => d_live d = ∅
  | Returned => d_live d = match d_ret d with Some i => {[i]} | None => ∅ end
  | _ => False
  end.

(** A program the compiler accepts, an execution of which ends in [o] without
    having released everything once. *)
Definition goes_wrong (strict : bool) (params : list nat) (body : block)
    (o : outcome) : Prop :=
  ∃ code d', compile strict params body = Some code ∧
    execs code (call params) o d' ∧ ¬ released_once o d'.

(** Blocks and cases from lists. *)
Fixpoint blk (l : list stmt) : block :=
  match l with [] => BNil | s :: l => BCons s (blk l) end.
Fixpoint alts (l : list block) : cases :=
  match l with [] => CNil | b :: l => CCons b (alts l) end.

(** ** A discipline under which the pass is right

    Every variable belongs to a class:
    - [Steady]: it has an initialiser (or is a parameter) and is never moved,
      set to null or returned by name; it may be assigned anywhere;
    - [Late]: declared without initialiser, otherwise like [Steady], but not
      assigned inside a [switch] that is inside its scope;
    - [Mobile]: it may be moved, set to null and returned by name, but a loop
      or [switch] inside its scope leaves it alone; a [return] is not inside
      a loop that is inside its scope; and if it is declared inside a loop,
      jumps, assignments to it and [x = null] are in the block that declares
      it, not in inner blocks. A parameter of this class is left alone in
      inner blocks. *)
Inductive class := Steady | Late | Mobile.

Global Instance class_eq_dec : EqDecision class.
Proof. solve_decision. Defined.

Record ctx := Ctx {
  c_loop : bool;             (* inside a loop *)
  c_switch : bool;           (* a [break] would leave a [switch] *)
  c_here : list nat;         (* mobile variables of this block *)
  c_above : list nat;        (* mobile variables of blocks around, in the loop *)
  c_outer : list nat;        (* mobile variables outside the loop *)
  c_lates : list nat;
  c_frozen : list nat;       (* variables to be left alone *)
  c_pins : list nat;         (* mobile parameters *)
}.

Definition nest (c : ctx) : ctx :=
  Ctx (c_loop c) (c_switch c) [] (c_here c ++ c_above c) (c_outer c)
      (c_lates c) (c_pins c ++ c_frozen c) (c_pins c).
Definition into_loop (c : ctx) : ctx :=
  let mob := c_here c ++ c_above c ++ c_outer c in
  Ctx true false [] [] mob (c_lates c) (mob ++ c_pins c ++ c_frozen c) (c_pins c).
Definition into_switch (c : ctx) : ctx :=
  Ctx (c_loop c) true [] (c_here c ++ c_above c) (c_outer c) (c_lates c)
      (c_here c ++ c_above c ++ c_outer c ++ c_lates c ++ c_pins c ++ c_frozen c)
      (c_pins c).

Section discipline.
  Context (cls : nat → class).

  Definition in_list (x : nat) (l : list nat) : bool := bool_decide (x ∈ l).
  Definition mobile (x : nat) : bool := bool_decide (cls x = Mobile).
  Definition may_move (c : ctx) (x : nat) : bool :=
    mobile x && negb (in_list x (c_frozen c)).
  Definition may_assign (c : ctx) (x : nat) : bool :=
    negb (in_list x (c_frozen c)) &&
    (negb (mobile x) || negb (c_loop c) || in_list x (c_here c)).
  Definition is_nil (l : list nat) : bool :=
    match l with [] => true | _ => false end.

  Definition after (c : ctx) (s : stmt) : ctx :=
    match s with
    | SDecl x _ =>
        match cls x with
        | Mobile => Ctx (c_loop c) (c_switch c) (x :: c_here c) (c_above c)
                      (c_outer c) (c_lates c) (c_frozen c) (c_pins c)
        | Late => Ctx (c_loop c) (c_switch c) (c_here c) (c_above c)
                      (c_outer c) (x :: c_lates c) (c_frozen c) (c_pins c)
        | Steady => c
        end
    | _ => c
    end.

  Fixpoint calm_stmt (c : ctx) (s : stmt) : bool :=
    match s with
    | SDecl x init =>
        match init with
        | None => bool_decide (cls x ≠ Steady)
        | Some src =>
            bool_decide (cls x ≠ Late) &&
            match src with
            | DFresh => true
            | DCopy y => bool_decide (y ≠ x)
            | DMove y => bool_decide (y ≠ x) && may_move c y
            end
        end
    | SAssign x src =>
        may_assign c x &&
        match src with
        | AFresh => true
        | AName _ => false
        | AMove y => bool_decide (y ≠ x) && may_move c y
        | AUsing y => bool_decide (y ≠ x)
        end
    | SNull x => may_move c x && may_assign c x
    | SMove x => may_move c x
    | SUse _ => true
    | SIf a b => calm_block (nest c) a && calm_block (nest c) b
    | SLoop b => calm_block (into_loop c) b
    | SBlock b => calm_block (nest c) b
    | SSwitch cs => calm_cases (into_switch c) cs
    | SBreak => c_loop c && negb (c_switch c) && is_nil (c_above c)
    | SContinue => c_loop c && is_nil (c_above c)
    | SReturn r =>
        (negb (c_loop c) || is_nil (c_above c) && is_nil (c_outer c)) &&
        match r with RVar x => may_move c x | _ => true end
    end
  with calm_block (c : ctx) (b : block) : bool :=
    match b with
    | BNil => true
    | BCons s b => calm_stmt c s && calm_block (after c s) b
    end
  with calm_cases (c : ctx) (cs : cases) : bool :=
    match cs with
    | CNil => true
    | CCons b cs => calm_block c b && calm_cases c cs
    end.

  Definition calm_fun (params : list nat) (body : block) : Prop :=
    let mob := filter (λ p, cls p = Mobile) params in
    Forall (λ p, cls p ≠ Late) params ∧
    calm_block (Ctx false false mob [] [] [] [] mob) body = true.
End discipline.
