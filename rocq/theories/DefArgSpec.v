(** What a call with fewer arguments than parameters means. *)
From Coq Require Import Bool List Arith.
Import ListNotations.
From Verif Require Import DefArgModel.

(** [out] are the arguments [args], then the defaults of the parameters that got none. *)
Definition filled (ps : list param) (args out : list nat) : Prop :=
  exists given rest ds, ps = given ++ rest /\ length given = length args /\ map p_def rest = map Some ds /\ out = args ++ ds.
(** Defaults only at the end *)
Definition trailing (ps : list param) : Prop :=
  exists plain opt, ps = plain ++ opt /\ Forall (fun p => p_def p = None) plain /\ Forall (fun p => p_def p <> None) opt.
Definition fixed (ps : list param) : Prop := Forall (fun p => p_variadic p = false) ps.
(** Types that have to be the same *)
Definition alike (a b : ftype) : Prop :=
  f_name a = f_name b /\ f_ret a = f_ret b /\ map p_type (f_params a) = map p_type (f_params b).
