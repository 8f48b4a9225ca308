(** Model of the parser of program arguments, src/cxy/stdlib/args.cxy: [ParamContainer]
    (44-69), [Command.addParam] (147-159), [Command.parse] (89-145) and what it calls
    (191-232), and [App.parse] (367-398).

    Texts are lists of bytes without NUL, so that the comparison of two of them is equality
    (C13) and the byte behind the last is NUL.  The hash maps are lists of pairs: nothing is
    ever removed from them, and then they are finite maps (C01); [params] is in the order in
    which the map is iterated.  Messages are left out. *)
From stdpp Require Import list numbers.
From Verif Require Import StrModel.

Notation text := (list N).
(** [PRaise]: an exception; [PAssert]: a failed assertion, the program ends. *)
Inductive pres (A : Type) := POk (a : A) | PRaise | PAssert.
Arguments POk {A} a. Arguments PRaise {A}. Arguments PAssert {A}.
Definition pbind {A B} (r : pres A) (f : A → pres B) : pres B :=
  match r with POk a => f a | PRaise => PRaise | PAssert => PAssert end.

(** args.cxy:10-17; the short name is 0 when there is none. *)
Record param := Param { p_name : text; p_sf : N; p_required : bool; p_option : bool; p_def : text }.
(** 47-53 *)
Definition findParamByFlag (ps : list param) (flag : N) : option param :=
  List.find (λ p, negb (p_sf p =? 0)%N && (p_sf p =? flag)%N) ps.
(** 55-56 *)
Definition findByName (ps : list param) (name : text) : option param :=
  List.find (λ p, bool_decide (p_name p = name)) ps.
Definition is_some {A} (o : option A) : bool := match o with Some _ => true | None => false end.
Definition is_empty (s : text) : bool := match s with [] => true | _ => false end.
(** 58-65 *)
Definition container_add (ps : list param) (p : param) : pres (list param) :=
  if is_some (findByName ps (p_name p)) then PRaise
  else if negb (p_sf p =? 0)%N && is_some (findParamByFlag ps (p_sf p)) then PRaise
  else POk (ps ++ [p]).
(** 150-154 *)
Definition adjust (p : param) : param :=
  let p := if p_option p && negb (is_empty (p_def p)) then Param (p_name p) (p_sf p) (p_required p) false (p_def p) else p in
  if negb (p_option p) && negb (p_required p) && is_empty (p_def p)
  then Param (p_name p) (p_sf p) true (p_option p) (p_def p) else p.
Definition addParam (ps : list param) (p : param) : pres (list param) := container_add ps (adjust p).
Fixpoint addParams (ps : list param) (l : list param) : pres (list param) :=
  match l with [] => POk ps | p :: l => pbind (addParam ps p) (λ ps, addParams ps l) end.

(** 78-80 *)
Record state := State { parsed : list (text * text); positionals : list text; rest : list text }.
Definition lookup_parsed (l : list (text * text)) (n : text) : option text :=
  option_map snd (List.find (λ e, bool_decide (fst e = n)) l).
(** 228-232 *)
Definition addParsed (st : state) (n v : text) : pres state :=
  if is_some (lookup_parsed (parsed st) n) then PRaise else POk (State (parsed st ++ [(n, v)]) (positionals st) (rest st)).
(** 204-218: all but the last character *)
Fixpoint parseMultipleOptions (ps : list param) (opts : text) (st : state) : pres state :=
  match opts with
  | c :: ((_ :: _) as more) =>
    match findParamByFlag ps c with
    | None => PRaise
    | Some p => if p_option p then pbind (addParsed st (p_name p) []) (parseMultipleOptions ps more) else PRaise
    end
  | _ => POk st
  end.
(** 220-225: [args] from [idx] on, where [left] = [None] says that [idx] is beyond the size;
    the loop ends when the index equals the size (simplify.c:122-187), so that then the first
    access (builtins.cxy:1082) fails. *)
Definition populateRest (left : option (list text)) (st : state) : pres state :=
  match left with
  | Some l => POk (State (parsed st) (positionals st) (rest st ++ l))
  | None => PAssert
  end.
Definition dash (s : text) : bool := match s with c :: _ => (c =? 45)%N | [] => false end.
(** 91-143; [args] are the arguments from the index on. *)
Fixpoint parse_loop (ps : list param) (args : list text) (st : state) : pres state :=
  match args with
  | [] => POk st
  | full :: args =>
    if negb (dash full) then parse_loop ps args (State (parsed st) (positionals st ++ [full]) (rest st))
    else
      let '(arg, val) := match indexOf full 61 with Some k => (take k full, drop (k + 1) full) | None => (full, []) end in
      (* 129-142; [name] only appears in messages *)
      let finish (o : option param) (st : state) : pres state :=
        match o with
        | None => PRaise
        | Some p =>
          if p_option p then
            if is_empty val then pbind (addParsed st (p_name p) val) (parse_loop ps args) else PRaise
          else if is_empty val then
            match args with
            | [] => PRaise
            | v :: args => if dash v then PRaise else pbind (addParsed st (p_name p) v) (parse_loop ps args)
            end
          else pbind (addParsed st (p_name p) val) (parse_loop ps args)
        end in
      if dash (tail full) then
        match drop 2 arg with
        | [] => if is_empty val then populateRest (match args with [] => None | _ :: l => Some l end) st else PRaise
        | name => finish (findByName ps name) st
        end
      else
        match tail arg with
        | [] => PRaise
        | opts => pbind (parseMultipleOptions ps opts st) (finish (findParamByFlag ps (List.last opts 0%N)))
        end
  end.
(** 191-202 *)
Fixpoint validate (all : list param) (l : list (text * text)) : pres (list (text * text)) :=
  match all with
  | [] => POk l
  | p :: ps =>
    if p_option p || is_some (lookup_parsed l (p_name p)) then validate ps l
    else if is_empty (p_def p) then PRaise
    else validate ps (l ++ [(p_name p, p_def p)])
  end.
Definition init : state := State [] [] [].
(** 89-145, on a command that has parsed nothing yet *)
Definition parse (ps : list param) (args : list text) : pres state :=
  pbind (parse_loop ps args init) (λ st,
  pbind (validate ps (parsed st)) (λ l, POk (State l (positionals st) (rest st)))).

(** 367-398: the commands with their parameters.  The answer: no such command, the error of
    the command was shown, its help was shown, or it runs. *)
Inductive outcome := NoCommand | Failed (c : text) | Help (c : text) | Run (c : text) (st : state).
Definition app_parse (default : text) (commands : list (text * list param)) (args : list text) : pres outcome :=
  let sel := match args with
    | [] => PAssert                                         (* 374: view(1) of nothing *)
    | _ :: name :: l => if dash name then POk (default, name :: l) else POk (name, l)
    | [_] => POk (default, [])
    end in
  pbind sel (λ '(name, args),
  match List.find (λ e, bool_decide (fst e = name)) commands with
  | None => POk NoCommand
  | Some (_, ps) =>
    match parse ps args with
    | PAssert => PAssert
    | PRaise => POk (Failed name)
    | POk st => POk (if is_some (lookup_parsed (parsed st) [104; 101; 108; 112]%N) then Help name else Run name st)
    end
  end).
