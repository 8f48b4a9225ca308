(** Model of the compiler stages: src/cxy/driver/stages.h:19-52, stages.c:41-78 and 108-430,
    driver.c:187-232 (compileProgram), options.c:358-379 (fixCmdDevOptions) and 51-64.  A
    stage is its number in the enumeration; what the body of a stage does is left out: an
    oracle [ok] says whether the log is free of errors after it (the dumps: whether they
    succeed). *)
From Coq Require Import Strings.String.
From stdpp Require Import numbers list.
From Verif Require Import LexModel LexSpec.
Local Open Scope N_scope.

(** stages.h:19-52 *)
Definition stage_names : list (list N) := map codes
  ["_Dump"; "_DumpIR"; "_First"; "Parse"; "Preprocess"; "Shake"; "Bind"; "ConstCheck"; "TypeCheck"; "Simplify";
   "MemoryMgmt"; "Lower"; "Finalize"; "Codegen"; "Collect"; "Compile"]%string.
Definition ccsInvalid : N := 0.
Definition ccs_Dump : N := 1.  Definition ccs_DumpIR : N := 2.  Definition ccsParse : N := 4.
Definition ccsPreprocess : N := 5.  Definition ccsShake : N := 6.  Definition ccsBind : N := 7.
Definition ccsTypeCheck : N := 9.  Definition ccsSimplify : N := 10.  Definition ccsMemoryMgmt : N := 11.
Definition ccsLower : N := 12.  Definition ccsCodegen : N := 14.  Definition ccsCompile : N := 16.
Definition ccsCOUNT : N := 17.

(** The first position of [x]. *)
Fixpoint index_of (x : list N) (l : list (list N)) (i : N) : option N :=
  match l with
  | [] => None
  | y :: l => if bool_decide (x = y) then Some i else index_of x l (i + 1)
  end.
(** stages.c:41-78 for [end] null: the rest of the text is the name.  The hash table of names
    is one from names to stages. *)
Definition parseNextCompilerStage (start : list N) : N :=
  let p := skip_spaces start in
  if bool_decide (head p = Some 48) then ccsInvalid
  else default ccsInvalid (index_of p stage_names 1).
(** stages.c:325-361.  [end] is found in the argument but used with the copy: as soon as
    there is a bar, pointers into different strings are subtracted ([None]). *)
Definition parseCompilerStages (str : list N) : option N :=
  if bool_decide (124 ∈ str) then None
  else if bool_decide (head str = Some 95) then Some ccsInvalid
  else let stage := parseNextCompilerStage str in
       Some (if stage =? ccsInvalid then ccsInvalid else 2 ^ stage).
(** options.c:51-64 with args.c:548-572 for a value that is not empty *)
Definition cmdParseLastStage (str : list N) : option N := index_of str (drop 3 stage_names) 4.

(** What is given: [mm] for the memory manager, [main] for a program with a main function,
    and the oracle. *)
Record env := Env { mm : bool; main : bool; ok : N -> bool }.
(** What one stage does: the node is given back with its stages, or NULL, and whether its
    body ran. *)
Record outcome := Outcome { ran : bool; result : option N }.
Definition has (done stage : N) : bool := N.testbit done stage.
(** The field is 16 bits wide, ast.h:792. *)
Definition set (done stage : N) : N := N.lor done (2 ^ stage) mod 2 ^ 16.
(** The common shape of the executors, stages.c:128-312: what they need, then the body. *)
Definition body (e : env) (need : option N) (stage done : N) : outcome :=
  if match need with Some n => has done n | None => true end
  then Outcome true (if ok e stage then Some (set done stage) else None)
  else Outcome false None.
(** stages.c:82-312 and the table 363-377, executeCompilerStage 379-425 *)
Definition execute (e : env) (stage done : N) : outcome :=
  if stage =? ccs_Dump then Outcome true (if ok e stage then Some (set done stage) else None)
  else if stage =? ccs_DumpIR then
    if has (set done stage) ccsLower then Outcome true (if ok e stage then Some (set done stage) else None)
    else Outcome false None
  else if stage =? ccsPreprocess then body e None stage done
  else if stage =? ccsShake then body e (Some ccsPreprocess) stage done
  else if stage =? ccsBind then body e (Some ccsShake) stage done
  else if stage =? ccsTypeCheck then body e (Some ccsBind) stage done
  else if stage =? ccsSimplify then body e (Some ccsTypeCheck) stage done
  else if stage =? ccsMemoryMgmt then
    if mm e then body e (Some ccsSimplify) stage done else Outcome false (Some done)
  else if stage =? ccsCodegen then body e (Some ccsSimplify) stage done
  else if stage =? ccsCompile then
    if has done ccsCodegen
    then if main e then body e (Some ccsCodegen) stage done else Outcome false (Some done)
    else Outcome false None
  else Outcome false (Some done).   (* no executor: a warning *)
(** The loop of driver.c:207-213: the stages whose body ran, and the node. *)
Fixpoint run_stages (e : env) (l : list N) (done : N) : list N * option N :=
  match l with
  | [] => ([], Some done)
  | s :: l =>
    let o := execute e s done in
    let t := if ran o then [s] else [] in
    match result o with
    | None => (t, None)
    | Some done => let '(t', r) := run_stages e l done in (t ++ t', r)
    end
  end.
Definition range (from to : N) : list N := map (fun i => from + N.of_nat i) (seq 0 (N.to_nat (to - from))).

Record options := Options {
  dev : bool; mainFile : bool; builtins : bool; imported : bool;
  emitBitCode : bool; emitAssembly : bool; printIR : bool; dump : bool; lastStage : N }.
(** options.c:358-379: print-ir, dump mode and last stage *)
Definition fixCmdDevOptions (o : options) : bool * bool * N :=
  if emitBitCode o then (false, false, ccsCompile)
  else if emitAssembly o then (false, false, ccsCompile)
  else if printIR o then (true, false, ccsCodegen)
  else if dump o then (false, true, N.min (lastStage o) ccsLower)
  else (false, false, lastStage o).
(** driver.c:187-232: the stages that ran, and the status *)
Definition compileProgram (e : env) (o : options) : list N * bool :=
  let '(ir, dmp, last) := fixCmdDevOptions o in
  let maxStage := if dev o && mainFile o then last + 1 else ccsCOUNT in
  let maxStage := if builtins o then N.max (ccsTypeCheck + 1) maxStage else maxStage in
  let '(t, r) := run_stages e (range (ccsParse + 1) maxStage) 0 in
  match r with
  | None => (t, false)
  | Some done =>
    if builtins o || imported o then (t, true)
    else if dev o && (dmp || ir) then
      let s := if ir then ccs_DumpIR else ccs_Dump in
      let x := execute e s done in
      (t ++ (if ran x then [s] else []), match result x with Some _ => true | None => false end)
    else (t, true)
  end.
