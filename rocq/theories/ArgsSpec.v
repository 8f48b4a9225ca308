(** What a command line means: the items it spells and the values they give. *)
From Coq Require Import Strings.String.
From stdpp Require Import numbers list.
From Verif Require Import LexSpec ArgsModel.
Local Open Scope N_scope.

(** A file, an option without value, an option with a value; options by their place in the
    table. *)
Inductive item := IFile (w : word) | IOn (i : nat) | IVal (i : nat) (v : word).
Definition blanks (b : word) : Prop := Forall blank b.
Definition no_blank (v : word) : Prop := forall c t, v = c :: t -> ~ blank c.
(** How items are written. *)
Inductive Spell (tbl : list flag) : item -> list word -> Prop :=
  | Sp_file w : (forall v, w <> 45 :: v) \/ w = [45] -> Spell tbl (IFile w) [w]
  | Sp_on_long i f : tbl !! i = Some f -> validator f = None -> name f <> [] -> 61 ∉ name f ->
      Spell tbl (IOn i) [45 :: 45 :: name f]
  | Sp_on_short i f : tbl !! i = Some f -> validator f = None -> sf f <> 0 -> sf f <> 45 ->
      Spell tbl (IOn i) [[45; sf f]]
  | Sp_equal i f t b v : tbl !! i = Some f -> validator f = Some t -> 61 ∉ name f -> blanks b -> no_blank v ->
      Spell tbl (IVal i v) [45 :: 45 :: name f ++ 61 :: b ++ v]
  | Sp_next i f t v : tbl !! i = Some f -> validator f = Some t -> name f <> [] -> 61 ∉ name f ->
      Spell tbl (IVal i v) [45 :: 45 :: name f; v]
  | Sp_glued i f t v : tbl !! i = Some f -> validator f = Some t -> sf f <> 0 -> sf f <> 45 -> v <> [] ->
      Spell tbl (IVal i v) [45 :: sf f :: v]
  | Sp_short_next i f t v : tbl !! i = Some f -> validator f = Some t -> sf f <> 0 -> sf f <> 45 ->
      Spell tbl (IVal i v) [[45; sf f]; v].
(** A line: items, and maybe two dashes with anything behind them. *)
Inductive Line (tbl : list flag) : list item -> list word -> Prop :=
  | L_nil : Line tbl [] []
  | L_stop rest : Line tbl [] ([45; 45] :: rest)
  | L_cons it ws its rest : Spell tbl it ws -> Line tbl its rest -> Line tbl (it :: its) (ws ++ rest).

Definition files_of (its : list item) : list word :=
  omap (fun it => match it with IFile w => Some w | _ => None end) its.
(** The uses of option [i]: with or without value. *)
Definition uses (i : nat) (its : list item) : list (option word) :=
  omap (fun it => match it with
    | IOn j => if decide (i = j) then Some None else None
    | IVal j v => if decide (i = j) then Some (Some v) else None
    | IFile _ => None end) its.
(** The value of an option after its uses. *)
Inductive Value (f : flag) : list (option word) -> fval -> Prop :=
  | V_none : Value f [] (VNone [])
  | V_on l x : Value f l x -> Value f (l ++ [None]) (VNum 1)
  | V_val l x t v y : Value f l x -> validator f = Some t -> t x v = Some y -> Value f (l ++ [Some v]) y.
(** The value of an option that was not given. *)
Inductive Filled (f : flag) : fval -> fval -> Prop :=
  | F_given x : (forall a, x <> VNone a) -> Filled f x x
  | F_off a : validator f = None -> Filled f (VNone a) (VNum 0)
  | F_null a t : validator f = Some t -> def f = Some [] -> Filled f (VNone a) (VStr None)
  | F_array a t d : validator f = Some t -> def f = Some (91 :: 93 :: d) -> Filled f (VNone a) (VArr a)
  | F_def a t d y : validator f = Some t -> def f = Some d -> d <> [] -> (forall e, d <> 91 :: 93 :: e) ->
      t (VNone a) d = Some y -> Filled f (VNone a) y.
(** Positional arguments: the value for the [k]-th file, or the default. *)
Inductive PosValue (p : positional) : option word -> fval -> Prop :=
  | P_str w : pvalidator p = None -> PosValue p (Some w) (VStr (Some w))
  | P_val w t y : pvalidator p = Some t -> t (VNone []) w = Some y -> PosValue p (Some w) y
  | P_none : PosValue p None (VNone []).
Inductive PosFilled (p : positional) : fval -> fval -> Prop :=
  | PF_given x : (forall a, x <> VNone a) -> PosFilled p x x
  | PF_off a : pvalidator p = None -> PosFilled p (VNone a) (VNone a)
  | PF_empty a t : pvalidator p = Some t -> pdef p = Some [] -> PosFilled p (VNone a) (VNone a)
  | PF_def a t d y : pvalidator p = Some t -> pdef p = Some d -> d <> [] -> t (VNone a) d = Some y -> PosFilled p (VNone a) y.

(** The command a line is for. *)
Inductive Chosen (P : parser) : list word -> command -> list word -> Prop :=
  | C_named c a rest : c ∈ cmds P -> cname c = a -> a <> [] -> (forall v, a <> 45 :: v) -> Chosen P (a :: rest) c rest
  | C_empty c rest : cdef P = Some c -> Chosen P ([] :: rest) c rest
  | C_default c args : cdef P = Some c ->
      (forall a rest, args = a :: rest -> a <> [] /\ ((exists v, a = 45 :: v) \/ forall d, d ∈ cmds P -> cname d <> a)) ->
      Chosen P args c args.

(** No two options of a table, and no two commands, have the same name. *)
Definition distinct_flags (tbl : list flag) : Prop := forall i j f g, tbl !! i = Some f -> tbl !! j = Some g -> i <> j ->
  name f <> name g /\ (sf f <> 0 -> sf f <> sf g).
Definition distinct (P : parser) : Prop :=
  NoDup (map cname (cmds P)) /\ forall c, c ∈ cmds P -> distinct_flags (gargs P ++ cargs c).

(** What the parser is to give for the items of a line (before defaults). *)
Record Given (tbl : list flag) (pos : list positional) (its : list item) (st : state) : Prop := {
  g_len : length (vals st) = length tbl;
  g_vals : forall i f, tbl !! i = Some f -> exists x, vals st !! i = Some x /\ Value f (uses i its) x;
  g_files : files st = if decide (pos = []) then files_of its else [];
  g_few : pos <> [] -> (length (files_of its) <= length pos)%nat;
  g_plen : length (pvals st) = length pos;
  g_pvals : forall k p, pos !! k = Some p -> exists x, pvals st !! k = Some x /\ PosValue p (files_of its !! k) x;
  g_npos : npos st = length (files_of its) }.

(** What a whole command line gives. *)
Definition on (x : fval) : Prop := match x with VNum z => z <> 0%Z | VStr (Some _) => True | _ => False end.
Definition table (P : parser) (c : command) : list flag := gargs P ++ cargs c.
Record Means (P : parser) (all : list word) (its : list item) (r : parsed) : Prop := {
  m_line : exists args, Chosen P all (chosen r) args /\ Line (table P (chosen r)) its args;
  m_len : length (flags r) = length (table P (chosen r));
  m_flags : forall i f, table P (chosen r) !! i = Some f -> exists x y, Value f (uses i its) x /\ Filled f x y /\ flags r !! i = Some y;
  m_few : cpos (chosen r) <> [] -> (length (files_of its) <= length (cpos (chosen r)))%nat;
  m_plen : length (positionals r) = length (cpos (chosen r));
  m_pos : forall k p, cpos (chosen r) !! k = Some p ->
    exists x y, PosValue p (files_of its !! k) x /\ PosFilled p x y /\ positionals r !! k = Some y;
  (* the first two options print the version or the usage and end the program *)
  m_run : forall i f x, (i < 2)%nat -> table P (chosen r) !! i = Some f -> Value f (uses i its) x -> ~ on x }.
Definition well_formed (P : parser) : Prop := forall c, cdef P = Some c -> c ∈ cmds P.
(** Items one after the other. *)
Inductive Items (tbl : list flag) : list word -> Prop :=
  | I_nil : Items tbl []
  | I_cons it ws rest : Spell tbl it ws -> Items tbl rest -> Items tbl (ws ++ rest).
(** An option that is not in the table. *)
Inductive unknown (tbl : list flag) : word -> Prop :=
  | U_long n k : 61 ∉ n -> (k = [] \/ exists v, k = 61 :: v) -> n ++ k <> [] -> (forall f, f ∈ tbl -> name f <> n) ->
      unknown tbl (45 :: 45 :: n ++ k)
  | U_short c v : c <> 45 -> (forall f, f ∈ tbl -> sf f <> 0 -> sf f <> c) -> unknown tbl (45 :: c :: v).
