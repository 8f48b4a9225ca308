(** C37: command line options are parsed exactly. *)
From Coq Require Import Strings.String.
From stdpp Require Import numbers list.
From Verif Require Import LexModel LexSpec ArgsModel ArgsSpec ArgsProofs.
From Coq Require Import Lia.
Local Open Scope N_scope.

(** What is accepted is a line of files and options spelled in one of the ways there are, for
    the command it names or the default one, and the values are those of the uses of each
    option in order, filled up with the defaults. *)
Theorem C37_sound P prog all r : well_formed P -> parseCommandLineArguments P (prog :: all) = Ok r ->
  distinct P /\ exists its, Means P all its r.
Proof. intros W H. destruct (parse_sound P prog all r W H) as (D & its & M & _). eauto. Qed.
Print Assumptions C37_sound.
(** Every such line is accepted, with these values. *)
Theorem C37_complete P prog all its r : well_formed P -> distinct P -> Means P all its r ->
  exists fs, parseCommandLineArguments P (prog :: all) = Ok (Parsed (chosen r) (flags r) (positionals r) fs).
Proof. apply parse_complete. Qed.
Print Assumptions C37_complete.
(** An option that is not in the table is refused, wherever it stands. *)
Theorem C37_unknown P prog all c ws w rest r : well_formed P -> distinct P -> Chosen P all c (ws ++ w :: rest) ->
  Items (table P c) ws -> unknown (table P c) w -> parseCommandLineArguments P (prog :: all) <> Ok r.
Proof.
  intros W D Ch I U. unfold parseCommandLineArguments. rewrite (proj2 (good_table_ok P) D). cbn [negb tail].
  rewrite (proj2 (choose_ok P all c _ ltac:(apply D)) Ch). cbv zeta.
  assert (distinct_flags (table P c)) as Df by (apply D; by eapply chosen_in).
  pose proof (fun st st' => loop_unknown (table P c) (cpos c) ws w rest st st' Df I U) as L. unfold table in L.
  destruct (loop _ _ _ _) eqn:E; try done. by apply L in E.
Qed.
Print Assumptions C37_unknown.
(** The files reach the driver in their order, if the program is not called like a command
    and the first argument is not empty. *)
Theorem C37_files_partial P prog all r : well_formed P -> parseCommandLineArguments P (prog :: all) = Ok r ->
  cpos (chosen r) = [] -> (forall c, c ∈ cmds P -> cname c <> prog) -> head all <> Some [] ->
  exists its, Means P all its r /\ inputs r = files_of its.
Proof.
  intros W H Pos NP NE. destruct (parse_sound P prog all r W H) as (D & its & M & args & dst & Ch & Ed & Ei). exists its. split; [done|].
  rewrite decide_True in Ei by done. cbv zeta in Ed.
  assert (dst = 1%nat) as ->.
  { assert (chosen r ∈ cmds P) as Hin by (by eapply chosen_in). destruct Ch as [c a rest I E N0 NM|c rest E|c args E Hd].
    - replace (length (prog :: a :: rest) - length rest)%nat with 2%nat in Ed by (cbn; lia). cbn in Ed.
      by rewrite bool_decide_eq_true_2 in Ed by congruence.
    - done.
    - replace (length (prog :: args) - length args)%nat with 1%nat in Ed by (cbn; lia). cbn in Ed.
      rewrite bool_decide_eq_false_2 in Ed; [done|]. intros [= Eq]. by apply (NP c Hin). }
  rewrite Ei. unfold rewrite. cbn [take app tail]. rewrite take_0. cbn [app]. by rewrite take_app.
Qed.
Print Assumptions C37_files_partial.
(** An option that collects its values has all of them, in order. *)
Theorem C37_collect P prog all r i f : well_formed P -> parseCommandLineArguments P (prog :: all) = Ok r ->
  table P (chosen r) !! i = Some f -> validator f = Some cmdArrayArgument -> def f = Some (codes "[]") ->
  exists its vs, Means P all its r /\ uses i its = map Some vs /\ flags r !! i = Some (VArr vs).
Proof.
  intros W H L V Df. destruct (parse_sound P prog all r W H) as (D & its & M & _). exists its.
  pose proof M as M'. destruct M as [Ml Mn Mf _ _ _ _]. destruct (Mf i f L) as (x & y & Vx & F & E).
  assert (None ∉ uses i its) as NN.
  { destruct Ml as (args & _ & Li). clear -L V Li. induction Li as [|rest|it ws its rest S Li IH]; [apply not_elem_of_nil|apply not_elem_of_nil|].
    change (it :: its) with ([it] ++ its). rewrite uses_app. intros [I|I]%elem_of_app; [|done].
    destruct it as [w|j|j v]; cbn in I; [by apply elem_of_nil in I| |].
    - destruct (decide (i = j)) as [<-|]; [|by apply elem_of_nil in I]. inversion S; congruence.
    - destruct (decide (i = j)); [|by apply elem_of_nil in I]. by apply elem_of_list_singleton in I. }
  assert (exists vs, uses i its = map Some vs /\ x = VNone vs) as (vs & U & ->).
  { clear -Vx NN V. induction Vx as [|l x Vx IH|l x t v y Vx IH Ht T].
    - by exists [].
    - exfalso. apply NN. apply elem_of_app. right. by left.
    - destruct IH as (vs & -> & ->). { intros I. apply NN. apply elem_of_app. by left. }
      exists (vs ++ [v]). rewrite map_app. split; [done|]. rewrite V in Ht. injection Ht as <-. destruct v; cbn in T; [done|]. by injection T as <-. }
  exists vs. split; [done|]. split; [done|]. rewrite E. f_equal. inversion F as [x Hx|a Hv|a t Hv Hd|a t d Hv Hd|a t d z Hv Hd H0 H2 Ht]; subst.
  - by destruct (Hx vs).
  - congruence.
  - rewrite Df in Hd. done.
  - done.
  - rewrite Df in Hd. injection Hd as <-. by destruct (H2 []).
Qed.
Print Assumptions C37_collect.
(** With short words and names nothing is written past the error buffer. *)
Theorem C37_buffer_partial P argv : well_formed P -> distinct P -> short_table P ->
  Forall (fun w => (length w < 88)%nat) argv -> parseCommandLineArguments P argv <> Overflow.
Proof. apply parse_short. Qed.
Print Assumptions C37_buffer_partial.

(** A small parser like that of the compiler. *)
Definition opt (n : string) (c : N) (d : option word) : flag := Flag (codes n) c None d.
Definition sample_dev : command := Command (codes "dev")
  [Flag (codes "output") 111 (Some cmdParseString) (Some []); opt "with-named-enums" 0 (Some (codes "true"))] [].
Definition sample_help : command := Command (codes "help") [] [Positional (codes "command") (Some cmdParseString) (Some [])].
Definition sample : parser := Parser
  [opt "version" 118 None; opt "help" 104 None; Flag (codes "c-lib") 0 (Some cmdArrayArgument) (Some (codes "[]"));
   Flag (codes "c-lib-dir") 0 (Some cmdArrayArgument) (Some (codes "[]")); Flag (codes "passes") 0 (Some cmdParseString) (Some [])]
  [sample_dev; sample_help] (Some sample_dev).
Definition parse (l : list string) := parseCommandLineArguments sample (map codes l).
Definition show (r : res parsed) : option (word * list fval * list fval * list word) :=
  match r with Ok r => Some (cname (chosen r), flags r, positionals r, inputs r) | _ => None end.

(** False: what follows two dashes is lost, *)
Theorem C37_dashes_refuted : exists r, parse (["cxy"; "a.cxy"; "--"; "b.cxy"]%string) = Ok r /\ inputs r = [codes "a.cxy"].
Proof. eexists. split; [by vm_compute|]. by vm_compute. Qed.
Print Assumptions C37_dashes_refuted.
(** the default of an option without value is not used, *)
Theorem C37_default_refuted : exists r, parse (["cxy"; "a.cxy"]%string) = Ok r /\
  nth 6 (map name (table sample (chosen r))) [] = codes "with-named-enums" /\ flags r !! 6%nat = Some (VNum 0).
Proof. eexists. split; [by vm_compute|]. by vm_compute. Qed.
Print Assumptions C37_default_refuted.
(** a program called like the default command, or an empty first argument, loses a file, *)
Theorem C37_files_refuted : (exists r, parse (["dev"; "a.cxy"; "b.cxy"]%string) = Ok r /\ inputs r = [codes "b.cxy"; codes "b.cxy"]) /\
  (exists r, parse (["cxy"; ""; "a.cxy"; "b.cxy"]%string) = Ok r /\ inputs r = [[]; codes "a.cxy"]).
Proof. split; (eexists; split; [by vm_compute|]; by vm_compute). Qed.
Print Assumptions C37_files_refuted.
(** and a long unknown option is written past the buffer. *)
Theorem C37_buffer_refuted :
  parseCommandLineArguments sample [codes "cxy"; codes "--" ++ replicate 86 97] = Overflow.
Proof. by vm_compute. Qed.
Print Assumptions C37_buffer_refuted.

Example C37_ex1 : show (parse (["cxy"; "a.cxy"; "--c-lib= m"; "-oout"; "b.cxy"; "--c-lib"; "-x"; "--c-lib-dir=d"]%string)) =
  Some (codes "dev", [VNum 0; VNum 0; VArr [codes "m"; codes "-x"]; VArr [codes "d"]; VStr None; VStr (Some (codes "out")); VNum 0], [],
        [codes "a.cxy"; codes "b.cxy"]).
Proof. by vm_compute. Qed.
Example C37_ex2 : parse (["cxy"; "--c-li=m"; "a.cxy"]%string) = Err (codes "error: unrecognized command argument '--c-li=m'" ++ [10]).
Proof. by vm_compute. Qed.
Example C37_ex3 : show (parse (["cxy"; "help"; "dev"]%string)) =
  Some (codes "help", [VNum 0; VNum 0; VArr []; VArr []; VStr None], [VStr (Some (codes "dev"))], []).
Proof. by vm_compute. Qed.
Example C37_ex4 : parse (["cxy"; "-v"; "a.cxy"]%string) = Exit /\ parse (["cxy"; "a.cxy"; "-o"]%string) = Err (codes "error: command flag 'output' expects a value" ++ [10])
  /\ well_formed sample /\ good_table sample = true.
Proof. split; [by vm_compute|]. split; [by vm_compute|]. split; [|by vm_compute]. intros c [= <-]. by left. Qed.
