(** Which members a list with compile-time conditions stands for. *)
From Coq Require Import Bool List Arith ZArith String.
Import ListNotations.
From Verif Require Import CtIfModel.

(** What counts as true, given the conditions that are decided later. *)
Definition holds (v : nat -> bool) (c : cond) : Prop :=
  match c with
  | CBool b => b = true | CNull => False | CChar n => n <> 0 | CInt z => z <> 0%Z
  | CFloat zero => zero = false | CStr s => s <> ""%string | CFree k => v k = true
  end.
(** [selects v l ns]: of [l] the members [ns] remain, in order. *)
Inductive selects (v : nat -> bool) : list item -> list nat -> Prop :=
| s_nil : selects v [] []
| s_mem n r ns : selects v r ns -> selects v (Mem n :: r) (n :: ns)
| s_noop r ns : selects v r ns -> selects v (Noop :: r) ns
| s_then c t k e r ms ns : holds v c -> selects v t ms -> selects v r ns -> selects v (If c t k e :: r) (ms ++ ns)
| s_else c t k e r ms ns : ~ holds v c -> k <> KNone -> selects v e ms -> selects v r ns -> selects v (If c t k e :: r) (ms ++ ns)
| s_none c t e r ns : ~ holds v c -> selects v r ns -> selects v (If c t KNone e :: r) ns.

Definition open (c : cond) : Prop := exists k, c = CFree k.
(** As the parser builds it: else with an [#if] has just that. *)
Fixpoint wf (i : item) : Prop :=
  let all := fix all l := match l with [] => True | x :: r => wf x /\ all r end in
  match i with
  | If c t k e => all t /\ all e /\ match k with KChain => exists c' t' k' e', e = [If c' t' k' e'] | KNone => e = [] | KBlock => True end
  | _ => True
  end.
(** No branch that is taken here is empty. *)
Fixpoint filled (i : item) : Prop :=
  let all := fix all l := match l with [] => True | x :: r => filled x /\ all r end in
  match i with
  | If c t k e =>
      (open c -> all t /\ all e) /\ (~ open c -> holds (fun _ => false) c -> t <> [] /\ all t) /\
      (~ open c -> ~ holds (fun _ => false) c -> k <> KNone -> e <> [] /\ all e)
  | _ => True
  end.
(** How many nodes come in the place of [i] *)
Inductive width : item -> nat -> Prop :=
| w_mem n : width (Mem n) 1
| w_noop : width Noop 1
| w_open c t k e : open c -> width (If c t k e) 1
| w_then c t k e n : ~ open c -> holds (fun _ => false) c -> widths t n -> width (If c t k e) n
| w_else c t k e n : ~ open c -> ~ holds (fun _ => false) c -> k <> KNone -> widths e n -> width (If c t k e) n
| w_none c t e : ~ open c -> ~ holds (fun _ => false) c -> width (If c t KNone e) 1
with widths : list item -> nat -> Prop :=
| ws_nil : widths [] 0
| ws_cons x r m n : width x m -> widths r n -> widths (x :: r) (m + n).
(** A branch that stays may begin with a decided [#if] only if that gives one node. *)
Definition safe_start (l : list item) : Prop := match l with [] => True | x :: _ => width x 1 end.
Fixpoint safe (i : item) : Prop :=
  let all := fix all l := match l with [] => True | x :: r => safe x /\ all r end in
  match i with
  | If c t k e =>
      (open c -> all t /\ safe_start t /\ all e /\ (k = KBlock -> safe_start e)) /\
      (~ open c -> holds (fun _ => false) c -> all t) /\
      (~ open c -> ~ holds (fun _ => false) c -> all e)
  | _ => True
  end.
(** No condition is left that could have been decided. *)
Inductive settled : item -> Prop :=
| st_mem n : settled (Mem n)
| st_noop : settled Noop
| st_if c t k e : open c -> Forall settled t -> Forall settled e -> settled (If c t k e).
(** All conditions can be decided at once. *)
Inductive closed : item -> Prop :=
| cl_mem n : closed (Mem n)
| cl_noop : closed Noop
| cl_if c t k e : ~ open c -> Forall closed t -> Forall closed e -> closed (If c t k e).
