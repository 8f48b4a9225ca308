(** What the timers of an event loop are to do: a table of armed timers. *)
From Coq Require Import ZArith NArith.
From stdpp Require Import numbers list.
From Verif Require Import TimerModel.
Local Open Scope Z_scope.

(** The armed timers with their deadlines, the newest first. *)
Record spec := Spec { armed : list (Z * (Z * Z)); s_next : Z; s_last : Z; s_tick : nat }.
Fixpoint deadline (id : Z) (l : list (Z * (Z * Z))) : option (Z * Z) :=
  match l with
  | [] => None
  | (i, w) :: l => if i =? id then Some w else deadline id l
  end.
Definition disarm (id : Z) (l : list (Z * (Z * Z))) : list (Z * (Z * Z)) :=
  filter (fun x => fst x <> id) l.
Definition rearm (id : Z) (w : Z * Z) (l : list (Z * (Z * Z))) : list (Z * (Z * Z)) :=
  map (fun x => if fst x =? id then (id, w) else x) l.

Section spec.
Context (clock : nat -> Z * Z) (cb : nat -> Z -> list act * Z).
Definition s_create (s : spec) (ms : Z) : spec * event :=
  let w := add_ms (clock (s_tick s)) ms in
  (Spec ((s_next s, w) :: armed s) (s_next s + 1) (s_last s) (S (s_tick s)), ECreate (s_next s) w).
Definition s_delete (s : spec) (id : Z) : spec := Spec (disarm id (armed s)) (s_next s) (s_last s) (s_tick s).
Fixpoint s_acts (s : spec) (acts : list act) : spec * list event :=
  match acts with
  | [] => (s, [])
  | ACreate ms :: acts => let '(s, e) := s_create s ms in let '(s, es) := s_acts s acts in (s, e :: es)
  | ADelete id :: acts => let '(s, es) := s_acts (s_delete s id) acts in (s, EDelete id :: es)
  end.
(** Each of the timers [ids] that is still armed is looked at once, and its callback
    called if it is due. *)
Fixpoint s_round (s : spec) (ids : list Z) : spec * list event :=
  match ids with
  | [] => (s, [])
  | id :: ids =>
    match deadline id (armed s) with
    | None => s_round s ids
    | Some w =>
      let now := clock (s_tick s) in
      let s := Spec (armed s) (s_next s) (s_last s) (S (s_tick s)) in
      if due now w then
        let '(acts, ret) := cb (s_tick s) id in
        let '(s, es) := s_acts s acts in
        let '(s, r) :=
          if ret =? -1 then (s_delete s id, None)
          else let w' := add_ms (clock (s_tick s)) ret in
               (Spec (rearm id w' (armed s)) (s_next s) (s_last s) (S (s_tick s)), Some w') in
        let '(s, es') := s_round s ids in
        (s, EFire id now w :: es ++ EDone id r :: es')
      else let '(s, es) := s_round s ids in (s, EIdle id now w :: es)
    end
  end.
(** A round looks at the timers armed at its start; when the system clock went back all
    seconds are cleared first. *)
Definition s_process (s : spec) (t : Z) : spec * list event :=
  let skew := t <? s_last s in
  let s := Spec (if skew then map (fun x => (fst x, (0, snd (snd x)))) (armed s) else armed s) (s_next s) t (s_tick s) in
  let '(s, es) := s_round s (map fst (armed s)) in
  (s, (if skew then [ESkew] else []) ++ es).
Definition s_step (s : spec) (o : top) : spec * list event :=
  match o with
  | OCreate ms => let '(s, e) := s_create s ms in (s, [e])
  | ODelete id => (s_delete s id, [EDelete id])
  | OProcess t => s_process s t
  | OWait _ _ | OReady _ => (s, [])
  end.
Fixpoint s_run (s : spec) (os : list top) : spec * list (list event) :=
  match os with
  | [] => (s, [])
  | o :: os => let '(s, e) := s_step s o in let '(s, es) := s_run s os in (s, e :: es)
  end.
Definition s_init (t : Z) : spec := Spec [] 0 t 0.
End spec.

(** No file event has a timeout; descriptors are below [n]. *)
Definition timers_only (n : nat) (o : top) : Prop :=
  match o with OWait _ t => t <= 0 | OReady fd => (fd < n)%nat | _ => True end.

(** The deadline of timer [id] after a sequence of events, read off the events alone;
    [EDone id (Some w)] arms again unless the timer was deleted meanwhile. *)
Definition tstate := option (Z * Z).
Definition after (id : Z) (st : tstate) (e : event) : tstate :=
  match e with
  | ECreate i w => if i =? id then Some w else st
  | EDelete i => if i =? id then None else st
  | EDone i r => if i =? id then match st, r with Some _, Some w => Some w | _, _ => None end else st
  | ESkew => match st with Some w => Some (0, snd w) | None => None end
  | EFire _ _ _ | EIdle _ _ _ => st
  end.
Definition after_all (id : Z) (st : tstate) (es : list event) : tstate := fold_left (after id) es st.
(** Every call is for an armed timer whose deadline has been reached, and a timer that is
    looked at and not called has a later deadline. *)
Definition looks_ok (st : Z -> tstate) (es : list event) : Prop :=
  forall es1 e es2, es = es1 ++ e :: es2 ->
    match e with
    | EFire id now w => after_all id (st id) es1 = Some w /\ due now w = true
    | EIdle id now w => after_all id (st id) es1 = Some w /\ due now w = false
    | _ => True
    end.
Definition looks_at (id : Z) (e : event) : bool :=
  match e with EFire i _ _ => i =? id | EIdle i _ _ => i =? id | _ => false end.
Definition looks (id : Z) (es : list event) : nat := length (filter (fun e => looks_at id e = true) es).
(** The ids given out. *)
Definition created (es : list event) : list Z := omap (fun e => match e with ECreate i _ => Some i | _ => None end) es.
