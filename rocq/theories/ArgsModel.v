(** Model of the command line parser, src/cxy/core/args.c:67-123, 207-395 and 690-845, with
    the array options of driver/options.c:145-163.  Texts are lists of bytes.  The global
    flags and those of the command are one list, the global ones first (they are searched in
    that order).  A validator is any function from the old value and the text to the new
    value or a refusal; the numbers of its values are integers here.  What a refusing
    validator writes into the error buffer is left out.  Printing of the usage is left out. *)
From Coq Require Import Strings.String.
From stdpp Require Import numbers list.
From Verif Require Import LexModel LexSpec.
Local Open Scope N_scope.

Notation word := (list N).
(** args.h:23-36.  The array may hold elements while the state is still cmdNoValue. *)
Inductive fval := VNone (a : list word) | VNum (z : Z) | VStr (s : option word) | VArr (a : list word).
Definition vtype := fval -> word -> option fval.
(** args.h:38-50; short name 0 for none *)
Record flag := Flag { name : word; sf : N; validator : option vtype; def : option word }.
Record positional := Positional { pname : word; pvalidator : option vtype; pdef : option word }.
Record command := Command { cname : word; cargs : list flag; cpos : list positional }.
Record parser := Parser { gargs : list flag; cmds : list command; cdef : option command }.

(** Outcomes: a value, an error with its message, a write past the error buffer, the end of
    the program (version, help) and an abort because of a bad table. *)
Inductive res (A : Type) := Ok (a : A) | Err (m : word) | Overflow | Exit | BadTable.
Arguments Ok {A} _.  Arguments Err {A} _.  Arguments Overflow {A}.  Arguments Exit {A}.  Arguments BadTable {A}.
(** [sprintf] into [char error[128]] *)
Definition fail {A} (m : word) : res A := if Nat.ltb (length m) 128 then Err m else Overflow.

(** args.c:82-109 *)
Fixpoint cmdFindByName (tbl : list flag) (n : word) (i : nat) : option (nat * flag) :=
  match tbl with
  | [] => None
  | f :: tbl => if bool_decide (name f = n) then Some (i, f) else cmdFindByName tbl n (S i)
  end.
Fixpoint cmdFindByShortFormat (tbl : list flag) (c : N) (i : nat) : option (nat * flag) :=
  match tbl with
  | [] => None
  | f :: tbl => if sf f =? 0 then cmdFindByShortFormat tbl c (S i)
                else if sf f =? c then Some (i, f) else cmdFindByShortFormat tbl c (S i)
  end.
(** The text up to the first equal sign, and what follows it without leading blanks
    (args.c:311-320; the loop over [eq] stands on the equal sign and does nothing). *)
Fixpoint split_eq (w : word) : word * option word :=
  match w with
  | [] => ([], None)
  | c :: w => if c =? 61 then ([], Some (skip_spaces w)) else let '(n, v) := split_eq w in (c :: n, v)
  end.

Record state := State { vals : list fval; pvals : list fval; files : list word; npos : nat }.
Definition setval (st : state) (i : nat) (v : fval) : state :=
  State (<[i := v]> (vals st)) (pvals st) (files st) (npos st).
Definition getval (st : state) (i : nat) : fval := default (VNone []) (vals st !! i).

(** args.c:326-350 *)
Definition positional_arg (pos : list positional) (st : state) (arg : word) : res state :=
  match pos with
  | [] => Ok (State (vals st) (pvals st) (files st ++ [arg]) (S (npos st)))
  | _ =>
    match pos !! npos st with
    | None => fail (codes "error: unexpected number of positional arguments passed, expecting 1 ")
    | Some p =>
      let old := default (VNone []) (pvals st !! npos st) in
      match (match pvalidator p with None => Some (VStr (Some arg)) | Some f => f old arg end) with
      | None => Err []
      | Some v => Ok (State (vals st) (<[npos st := v]> (pvals st)) (files st) (S (npos st)))
      end
    end
  end.
(** What an argument is: args.c:67-80.  *)
Inductive kind := KPos | KIgnore | KFlag (f : option (nat * flag)) (val : option word).
Definition classify (tbl : list flag) (arg : word) : kind :=
  match arg with
  | [] => KPos
  | a :: w =>
    if a =? 45 then
      match w with
      | [] => KPos
      | b :: v =>
        if b =? 45 then
          match v with
          | [] => KIgnore
          | _ => let '(n, x) := split_eq v in KFlag (cmdFindByName tbl n 0) x
          end
        else KFlag (cmdFindByShortFormat tbl b 0) (match v with [] => None | _ => Some v end)
      end
    else KPos
  end.
(** args.c:279-395 *)
Fixpoint loop (tbl : list flag) (pos : list positional) (args : list word) (st : state) : res state :=
  match args with
  | [] => Ok st
  | arg :: rest =>
    match classify tbl arg with
    | KIgnore => Ok st
    | KPos => match positional_arg pos st arg with Ok st => loop tbl pos rest st | e => e end
    | KFlag None _ => fail (codes "error: unrecognized command argument '" ++ arg ++ codes "'" ++ [10])
    | KFlag (Some (i, f)) val =>
      match validator f with
      | Some vf =>
        match val with
        | Some v => match vf (getval st i) v with Some x => loop tbl pos rest (setval st i x) | None => Err [] end
        | None =>
          match rest with
          | [] => fail (codes "error: command flag '" ++ name f ++ codes "' expects a value" ++ [10])
          | v :: rest => match vf (getval st i) v with Some x => loop tbl pos rest (setval st i x) | None => Err [] end
          end
        end
      | None =>
        match val with
        | Some _ => fail (codes "error: unexpected value passed to flag '" ++ name f ++ codes "'" ++ [10])
        | None => loop tbl pos rest (setval st i (VNum 1))
        end
      end
    end
  end.

(** args.c:765-795: the value of one flag that may not have been given *)
Definition default_flag (c : word) (f : flag) (v : fval) : res fval :=
  match v with
  | VNone a =>
    match validator f with
    | None => Ok (VNum 0)
    | Some vf =>
      match def f with
      | None => fail (codes "Missing flag '" ++ name f ++ codes "' required by command '" ++ c ++ codes "'" ++ [10])
      | Some d =>
        if bool_decide (d = []) then Ok (VStr None)
        else if bool_decide (take 2 d = [91; 93]) then Ok (VArr a)
        else match vf v d with Some x => Ok x | None => Err [] end
      end
    end
  | _ => Ok v
  end.
(** args.c:825-842; the index in the message is one digit here *)
Definition default_pos (c : word) (p : positional) (v : fval) : res fval :=
  match v with
  | VNone a =>
    match pvalidator p with
    | None => Ok v
    | Some vf =>
      match pdef p with
      | None => fail (codes "Missing positional argument 0 ('" ++ pname p ++ codes "') required by command '" ++ c ++ codes "'" ++ [10])
      | Some d => if bool_decide (d = []) then Ok v else match vf v d with Some x => Ok x | None => Err [] end
      end
    end
  | _ => Ok v
  end.
Fixpoint all_defaults {A} (f : A -> fval -> res fval) (tbl : list A) (vs : list fval) : res (list fval) :=
  match tbl, vs with
  | a :: tbl, v :: vs =>
    match f a v with
    | Ok x => match all_defaults f tbl vs with Ok xs => Ok (x :: xs) | e => e end
    | Err m => Err m | Overflow => Overflow | Exit => Exit | BadTable => BadTable
    end
  | _, _ => Ok []
  end.

(** The checks of args.c:207-277 and 693-735, for the flags of the chosen command *)
Fixpoint unique_flags (tbl : list flag) : bool :=
  match tbl with
  | [] => true
  | f :: tbl => forallb (fun g => bool_decide (name f <> name g) && ((sf f =? 0) || negb (sf f =? sf g))) tbl && unique_flags tbl
  end.
Fixpoint unique_names (l : list command) : bool :=
  match l with [] => true | c :: l => forallb (fun d => bool_decide (cname c <> cname d)) l && unique_names l end.
Definition good_table (P : parser) : bool :=
  unique_names (cmds P) && forallb (fun c => unique_flags (gargs P ++ cargs c)) (cmds P).

(** args.c:111-127 *)
Definition cmdFindCommandByName (P : parser) (n : word) : option command :=
  match n with [] => cdef P | _ => List.find (fun c => bool_decide (cname c = n)) (cmds P) end.
(** args.c:737-751: the command and the arguments left *)
Definition choose (P : parser) (args : list word) : option command * list word :=
  match args with
  | a :: rest =>
    if bool_decide (head a = Some 45) then (cdef P, args)
    else match cmdFindCommandByName P a with Some c => (Some c, rest) | None => (cdef P, args) end
  | [] => (cdef P, args)
  end.

(** What is left: the command, the values, and the files as driver/main.c:30 reads them. *)
Record parsed := Parsed { chosen : command; flags : list fval; positionals : list fval; inputs : list word }.
Definition nonzero (v : option fval) : bool :=
  match v with Some (VNum z) => negb (Z.eqb z 0) | Some (VStr (Some _)) => true | _ => false end.
(** The files are written into the argument vector from [dst] on, args.c:283-284; the slots
    are behind the argument being read. *)
Definition rewrite (argv : list word) (dst : nat) (fs : list word) : list word :=
  take dst argv ++ fs ++ drop (dst + length fs) argv.
(** args.c:690-845 *)
Definition parseCommandLineArguments (P : parser) (argv : list word) : res parsed :=
  if negb (good_table P) then BadTable else
  match choose P (tail argv) with
  | (None, _) => fail (codes "error: missing required command to execute ")
  | (Some c, args) =>
    let tbl := gargs P ++ cargs c in
    let first := (length argv - length args)%nat in
    let dst := if bool_decide (argv !! (first - 1)%nat = Some (cname c)) then (first - 1)%nat else first in
    match loop tbl (cpos c) args (State (map (fun _ => VNone []) tbl) (map (fun _ => VNone []) (cpos c)) [] 0) with
    | Ok st =>
      if nonzero (vals st !! 0%nat) || nonzero (vals st !! 1%nat) then Exit else
      let k := length (gargs P) in
      match all_defaults (default_flag (cname c)) (cargs c) (drop k (vals st)) with
      | Ok cv =>
        match all_defaults (default_flag (cname c)) (gargs P) (take k (vals st)) with
        | Ok gv =>
          match all_defaults (default_pos (cname c)) (cpos c) (pvals st) with
          | Ok pv => Ok (Parsed c (gv ++ cv) pv (take (length (files st)) (tail (rewrite argv dst (files st)))))
          | Err m => Err m | Overflow => Overflow | Exit => Exit | BadTable => BadTable
          end
        | Err m => Err m | Overflow => Overflow | Exit => Exit | BadTable => BadTable
        end
      | Err m => Err m | Overflow => Overflow | Exit => Exit | BadTable => BadTable
      end
    | Err m => Err m | Overflow => Overflow | Exit => Exit | BadTable => BadTable
    end
  end.

(** options.c:145-163 (an argument of an array option) and args.c:413-421 *)
Definition cmdArrayArgument : vtype := fun old v =>
  match v, old with
  | [], _ => None
  | _, VNone a => Some (VNone (a ++ [v]))
  | _, VArr a => Some (VArr (a ++ [v]))
  | _, _ => None
  end.
Definition cmdParseString : vtype := fun _ v => Some (VStr (Some v)).
