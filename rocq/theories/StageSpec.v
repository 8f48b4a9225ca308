(** What the stages are to do. *)
From Coq Require Import Strings.String.
From stdpp Require Import numbers list.
From Verif Require Import LexSpec StageModel.
Local Open Scope N_scope.

(** The stages as they are named, in the order of the pipeline. *)
Inductive is_stage : list N -> N -> Prop :=
  | S_parse : is_stage (codes "Parse") ccsParse
  | S_pre : is_stage (codes "Preprocess") ccsPreprocess
  | S_shake : is_stage (codes "Shake") ccsShake
  | S_bind : is_stage (codes "Bind") ccsBind
  | S_const : is_stage (codes "ConstCheck") 8
  | S_type : is_stage (codes "TypeCheck") ccsTypeCheck
  | S_simp : is_stage (codes "Simplify") ccsSimplify
  | S_mem : is_stage (codes "MemoryMgmt") ccsMemoryMgmt
  | S_low : is_stage (codes "Lower") ccsLower
  | S_fin : is_stage (codes "Finalize") 13
  | S_gen : is_stage (codes "Codegen") ccsCodegen
  | S_coll : is_stage (codes "Collect") 15
  | S_comp : is_stage (codes "Compile") ccsCompile.
(** What must have run before a stage may. *)
Definition requires (memory_manager : bool) (stage : N) : list N :=
  if stage =? ccsShake then [ccsPreprocess]
  else if stage =? ccsBind then [ccsPreprocess; ccsShake]
  else if stage =? ccsTypeCheck then [ccsPreprocess; ccsShake; ccsBind]
  else if stage =? ccsSimplify then [ccsPreprocess; ccsShake; ccsBind; ccsTypeCheck]
  else if stage =? ccsMemoryMgmt then [ccsPreprocess; ccsShake; ccsBind; ccsTypeCheck; ccsSimplify]
  else if stage =? ccsCodegen then
    [ccsPreprocess; ccsShake; ccsBind; ccsTypeCheck; ccsSimplify] ++ (if memory_manager then [ccsMemoryMgmt] else [])
  else if stage =? ccsCompile then
    [ccsPreprocess; ccsShake; ccsBind; ccsTypeCheck; ccsSimplify] ++ (if memory_manager then [ccsMemoryMgmt] else []) ++ [ccsCodegen]
  else if stage =? ccs_DumpIR then [ccsPreprocess; ccsShake; ccsBind; ccsTypeCheck; ccsSimplify; ccsCodegen]
  else [].
(** The bodies that are to run up to [last]. *)
Definition pipeline (mm main : bool) (last : N) : list N :=
  filter (fun s => s <= last)
    ([ccsPreprocess; ccsShake; ccsBind; ccsTypeCheck; ccsSimplify] ++ (if mm then [ccsMemoryMgmt] else []) ++
     [ccsCodegen] ++ (if main then [ccsCompile] else [])).
(** Up to and with the first that fails. *)
Fixpoint until_failure (ok : N -> bool) (l : list N) : list N :=
  match l with [] => [] | s :: l => s :: if ok s then until_failure ok l else [] end.
(** The last stage the options ask for. *)
Definition asked (o : options) : N :=
  let last := if emitBitCode o || emitAssembly o then ccsCompile
              else if printIR o then ccsCodegen
              else if dump o then N.min (lastStage o) ccsLower else lastStage o in
  let last := if dev o && mainFile o then last else ccsCompile in
  if builtins o then N.max ccsTypeCheck last else last.
(** The stage that must be marked on the node before a stage may begin, whatever called it. *)
Definition needs (stage : N) : option N :=
  if stage =? ccsShake then Some ccsPreprocess
  else if stage =? ccsBind then Some ccsShake
  else if stage =? ccsTypeCheck then Some ccsBind
  else if stage =? ccsSimplify then Some ccsTypeCheck
  else if stage =? ccsMemoryMgmt then Some ccsSimplify
  else if stage =? ccsCodegen then Some ccsSimplify
  else if stage =? ccsCompile then Some ccsCodegen
  else None.
