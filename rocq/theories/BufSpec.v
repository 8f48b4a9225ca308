(** Dynamic array and string builder as mathematical sequences. *)
From stdpp Require Import numbers list.
From Verif Require Import BufModel.

Section dynarray.
Context {V : Type}.
(** The contents are a sequence of cells, [None] standing for a cell whose value
    is unspecified.  [da_spec l o l' r]: on contents [l], [o] may lead to
    contents [l'] and return [r]. *)
Inductive da_spec : list (option V) -> da_op V -> list (option V) -> option (option V) -> Prop :=
  | spec_push l v : da_spec l (DPush v) (l ++ [Some v]) None
  | spec_pop l v : da_spec (l ++ [v]) DPop l (Some v)
  | spec_pop_empty : da_spec [] DPop [] None
  | spec_shrink l k n : length l = n -> da_spec (l ++ k) (DResize n) l None
  | spec_extend l k n : length (l ++ k) = n -> da_spec l (DResize n) (l ++ k) None.

(** A whole history with its results. *)
Inductive da_spec_run : list (option V) -> list (da_op V) -> list (option V) -> list (option (option V)) -> Prop :=
  | spec_run_nil l : da_spec_run l [] l []
  | spec_run_cons l o l' r ops l'' rs :
      da_spec l o l' r -> da_spec_run l' ops l'' rs ->
      da_spec_run l (o :: ops) l'' (r :: rs).
End dynarray.

(** The text a string builder should hold after a history, and what [release]
    should return: the NUL-terminated text, possibly followed by spare room. *)
Fixpoint sb_text (acc : list N) (ops : list sb_op) : list N :=
  match ops with
  | [] => acc
  | SAppend s :: ops' => sb_text (acc ++ s) ops'
  | (SRelease | SDeinit) :: ops' => sb_text [] ops'
  end.

(** What each call of the history should return: [release] the text, or nothing
    if nothing was appended since the builder was last emptied. *)
Fixpoint sb_returns (acc : option (list N)) (ops : list sb_op) : list (option (list N)) :=
  match ops with
  | [] => []
  | SAppend s :: ops' => None :: sb_returns (Some (default [] acc ++ s)) ops'
  | SRelease :: ops' => acc :: sb_returns None ops'
  | SDeinit :: ops' => None :: sb_returns None ops'
  end.
(** [mem] holds the C string [s]. *)
Definition holds_cstring (mem : list (option N)) (s : list N) : Prop :=
  exists rest, mem = map Some s ++ Some 0%N :: rest.
Definition returns_match (got : option (list (option N))) (want : option (list N)) : Prop :=
  match got, want with
  | None, None => True
  | Some mem, Some s => holds_cstring mem s
  | _, _ => False
  end.

(** The two misuses to avoid: releasing a new builder to which nothing was
    appended, and - after a release - appending the empty text first and more
    text later. *)
Inductive sb_phase := PhNew | PhNull | PhEmpty | PhText.
Fixpoint sb_guard (ph : sb_phase) (ops : list sb_op) : bool :=
  match ops with
  | [] => true
  | SAppend s :: ops' =>
    match ph with
    | PhNew | PhText => sb_guard PhText ops'
    | PhNull => sb_guard (match s with [] => PhEmpty | _ => PhText end) ops'
    | PhEmpty => match s with [] => sb_guard PhEmpty ops' | _ => false end
    end
  | SRelease :: ops' => match ph with PhNew => false | _ => sb_guard PhNull ops' end
  | SDeinit :: ops' => sb_guard PhNull ops'
  end.
