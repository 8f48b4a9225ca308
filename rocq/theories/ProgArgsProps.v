(** Property C25: the parser of program arguments (stdlib/args.cxy). *)
From stdpp Require Import list numbers strings.
From Verif Require Import ProgArgsModel ProgArgsSpec ProgArgsProofs.
Definition codes (s : string) : text := map Ascii.N_of_ascii (String.list_ascii_of_string s).

(** Every set of parameters and every argument vector: the parser succeeds exactly when the
    arguments are made of positional arguments, options and parameters with values, each by its
    exact name and given once, and no parameter that needs a value is missing.  Then each
    parameter has the value given or its default, the positional arguments are all there and in
    order, and what follows two dashes is delivered without its first argument. *)
Theorem C25_parse_partial :
  ∀ (ps : list param) (args : list text) (st : state), distinct ps →
    parse ps args = POk st ↔
    ∃ given pos r, Accepts ps args given pos r ∧ NoDup (map fst given) ∧
      (∀ p, p ∈ ps → needed p → p_name p ∈ map fst given) ∧ r ≠ Some [] ∧
      st = State (given ++ defaults ps given) pos (match r with None => [] | Some l => tail l end).
Proof. intros ps args st D. by apply parse_iff. Qed.
Print Assumptions C25_parse_partial.

(** The program ends with a failed assertion exactly when two dashes are the last argument and
    nothing is wrong with those in front of it. *)
Theorem C25_crash :
  ∀ (ps : list param) (args : list text), distinct ps →
    parse ps args = PAssert ↔ ∃ given pos, Accepts ps args given pos (Some []) ∧ NoDup (map fst given).
Proof. intros ps args D. by apply parse_assert. Qed.
Print Assumptions C25_crash.

(** The parameters of a command are distinct however they were added: two of one name or one
    short name are refused. *)
Theorem C25_params :
  ∀ l ps, addParams [] l = POk ps → ps = map adjust l ∧ distinct ps.
Proof.
  intros l ps H. apply adds_distinct in H; [done|]. split; [constructor|]. by intros ? ? ?%elem_of_nil.
Qed.
Print Assumptions C25_params.

(** The application hands the arguments behind the name of a command to it. *)
Lemma find_command (commands : list (text * list param)) c ps : NoDup (map fst commands) → (c, ps) ∈ commands →
  List.find (λ e : text * list param, bool_decide (e.1 = c)) commands = Some (c, ps).
Proof.
  intros ND Hc. induction commands as [|e es IH]; [by apply elem_of_nil in Hc|]. cbn [map] in ND. apply list.NoDup_cons in ND as [N1 N2]. cbn [List.find].
  apply elem_of_cons in Hc as [<-|Hc]; [by rewrite bool_decide_eq_true_2|]. rewrite bool_decide_eq_false_2; [by apply IH|]. intros E. destruct N1. rewrite E.
  apply elem_of_list_In. apply (in_map fst _ (c, ps)). by apply elem_of_list_In.
Qed.
Theorem C25_app :
  ∀ default commands prog c l ps, NoDup (map fst commands) → (c, ps) ∈ commands → ¬ dashed c →
    app_parse default commands (prog :: c :: l) =
    match parse ps l with
    | PAssert => PAssert
    | PRaise => POk (Failed c)
    | POk st => POk (if bool_decide (codes "help" ∈ map fst (parsed st)) then Help c else Run c st)
    end.
Proof.
  intros default commands prog c l ps ND Hc Hd. unfold app_parse. rewrite (proj2 (dash_false c) Hd). cbn [pbind].
  rewrite (find_command _ _ _ ND Hc). destruct (parse ps l) as [st| |]; try done. rewrite some_bool. done.
Qed.
Print Assumptions C25_app.
(** Without the name of a command all arguments go to the default command. *)
Theorem C25_app_default :
  ∀ default commands prog l ps, NoDup (map fst commands) → (default, ps) ∈ commands →
    match l with [] => True | a :: _ => dashed a end →
    app_parse default commands (prog :: l) =
    match parse ps l with
    | PAssert => PAssert
    | PRaise => POk (Failed default)
    | POk st => POk (if bool_decide (codes "help" ∈ map fst (parsed st)) then Help default else Run default st)
    end.
Proof.
  intros default commands prog l ps ND Hc Hd. unfold app_parse. destruct l as [|a l].
  - cbn [pbind]. rewrite (find_command _ _ _ ND Hc). destruct (parse ps []) as [st| |]; try done. rewrite some_bool. done.
  - assert (dash a = true) as -> by (destruct (dash a) eqn:E; [done|by apply dash_false in E]). cbn [pbind].
    rewrite (find_command _ _ _ ND Hc). destruct (parse ps (a :: l)) as [st| |]; try done. rewrite some_bool. done.
Qed.
Print Assumptions C25_app_default.
(** A name that is no command runs nothing. *)
Theorem C25_app_unknown :
  ∀ default commands prog c l, c ∉ map fst commands → ¬ dashed c →
    app_parse default commands (prog :: c :: l) = POk NoCommand.
Proof.
  intros default commands prog c l N Hd. unfold app_parse. rewrite (proj2 (dash_false c) Hd). cbn [pbind].
  destruct (List.find _ commands) as [[n ps]|] eqn:E; [|done]. apply List.find_some in E as [E1 E2].
  apply bool_decide_eq_true in E2. cbn in E2. subst n. destruct N. apply elem_of_list_In. by apply (in_map fst _ (c, ps)).
Qed.
Print Assumptions C25_app_unknown.

(** ** Where it fails *)
Definition verbose : param := Param (codes "verbose") 118 false true [].
Definition output : param := Param (codes "output") 111 true false [].
Definition level : param := Param (codes "level") 0 false false (codes "1").
Definition example : list param := [verbose; output; level].
Definition run_on (ps : list param) (args : list string) : pres state := parse ps (map codes args).

(** The first argument behind two dashes is dropped; nothing behind them ends the program. *)
Theorem C25_rest_refuted :
  run_on [] ["--"; "a"; "b"] = POk (State [] [] [codes "b"]) ∧ run_on [] ["x"; "--"] = PAssert.
Proof. by vm_compute. Qed.
Print Assumptions C25_rest_refuted.

(** A parameter that is required and an option may be missing. *)
Theorem C25_required_refuted :
  ∃ p, p_required (adjust p) = true ∧ parse [adjust p] [] = POk (State [] [] []).
Proof. exists (Param (codes "accept") 97 true true []). by vm_compute. Qed.
Print Assumptions C25_required_refuted.

(** An empty value is not delivered: the next argument is taken for it. *)
Theorem C25_empty_value_refuted :
  run_on [output] ["--output="; "file"] = POk (State [(codes "output", codes "file")] [] []) ∧
  run_on [output] ["--output="] = PRaise.
Proof. by vm_compute. Qed.
Print Assumptions C25_empty_value_refuted.

(** A value that begins with a dash is not taken from the next argument. *)
Theorem C25_dash_value_refuted : run_on [output] ["-o"; "-1"] = PRaise ∧ run_on [output] ["-o=-1"] = POk (State [(codes "output", codes "-1")] [] []).
Proof. by vm_compute. Qed.
Print Assumptions C25_dash_value_refuted.

(** Asking for the help of a command that needs a parameter is an error. *)
Theorem C25_help_refuted :
  ∃ ps, distinct ps ∧ app_parse [] [(codes "build", ps)] (map codes ["prog"; "build"; "--help"]) = POk (Failed (codes "build")).
Proof.
  exists [Param (codes "help") 104 false true []; output]. split; [|by vm_compute].
  apply (adds_distinct [Param (codes "help") 104 false true []; output] []); [|by vm_compute]. split; [constructor|]. by intros ? ? ?%elem_of_nil.
Qed.
Print Assumptions C25_help_refuted.

(** ** Examples *)
Example C25_ex : run_on example ["src"; "-vo"; "a.out"; "dst"; "--"; "x"; "-y"; "--"] =
  POk (State [(codes "verbose", []); (codes "output", codes "a.out"); (codes "level", codes "1")] [codes "src"; codes "dst"] [codes "-y"; codes "--"]).
Proof. by vm_compute. Qed.
Example C25_ex_errors :
  map (run_on example) [["-v"]; ["-v"; "-v"; "-o=x"]; ["--outpu=x"]; ["-ov"; "x"]; ["-o"; "x"; "--verbose=1"]; ["-o"; "x"; "-"]] = replicate 6 PRaise.
Proof. by vm_compute. Qed.
Example C25_ex_distinct : distinct example.
Proof. apply (adds_distinct example []); [|by vm_compute]. split; [constructor|]. by intros ? ? ?%elem_of_nil. Qed.
