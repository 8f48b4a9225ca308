(** C50: mangled names are unambiguous. *)
From Coq Require Import Strings.String ZArith Lia.
From stdpp Require Import numbers list tactics.
From Verif Require Import LexSpec MangleModel MangleSpec MangleProofs.
Local Open Scope N_scope.

(** Two instances, of names without underscore, that share a mangled name are the same
    instance: the same name, for the same list of types, nested instances included. *)
Theorem C50_instances_partial cc ds idx n m k k' ts us : good_decls ds -> good_index idx -> plain_name n -> plain_name m ->
  Forall (good cc ds) ts -> Forall (good cc ds) us ->
  makeMangledName n (map (erase idx) ts) k = makeMangledName m (map (erase idx) us) k' -> n = m /\ k = k' /\ ts = us.
Proof. intros A B. by apply name_inj. Qed.
Print Assumptions C50_instances_partial.
(** Overloads of one function, whatever its name. *)
Theorem C50_overloads_partial cc ds idx n k k' ts us : good_decls ds -> good_index idx -> 0 ∉ n ->
  Forall (good cc ds) ts -> Forall (good cc ds) us ->
  makeMangledName n (map (erase idx) ts) k = makeMangledName n (map (erase idx) us) k' -> k = k' /\ ts = us.
Proof. intros A B. by apply overload_inj. Qed.
Print Assumptions C50_overloads_partial.
(** An alias has the name of what it stands for. *)
Theorem C50_alias t : (forall k f u, t <> Wrap k f u) -> mangleType (Alias t) = mangleType t.
Proof. intros H. destruct t; try done. by destruct (H const other_flags t). Qed.
Print Assumptions C50_alias.

(** False in general.  The mark of const is the letter of char: [f(const i32)] and
    [f(char, i32)]. *)
Theorem C50_const_char_refuted :
  makeMangledName (codes "f") [Wrap true 0 (Prim I32)] false = makeMangledName (codes "f") [Prim CChar; Prim I32] false.
Proof. by vm_compute. Qed.
Print Assumptions C50_const_char_refuted.
(** Nothing parts the namespace from the name, *)
Theorem C50_namespace_refuted :
  makeMangledName (codes "f") [Named (Some (codes "a")) (codes "bc")] false =
  makeMangledName (codes "f") [Named (Some (codes "ab")) (codes "c")] false.
Proof. by vm_compute. Qed.
Print Assumptions C50_namespace_refuted.
(** the underscore that ends a name may be part of one, of a type or of the function, *)
Theorem C50_underscore_refuted :
  makeMangledName (codes "f") [Named None (codes "a_Zb")] false =
  makeMangledName (codes "f") [Named None (codes "a"); Named None (codes "b")] false /\
  makeMangledName (codes "f") [Named None (codes "qI_Zr")] false = makeMangledName (codes "fI_Zq") [Named None (codes "r")] false.
Proof. by vm_compute. Qed.
Print Assumptions C50_underscore_refuted.
(** types without a name (results, optionals, maps) are all the same, *)
Theorem C50_unnamed_refuted n ns l m k :
  makeMangledName n [Unnamed ns l] k = makeMangledName n [Unnamed ns m] k.
Proof. reflexivity. Qed.
Print Assumptions C50_unnamed_refuted.
(** as are types that differ in another flag than const, *)
Theorem C50_flags_refuted n c f g t k :
  makeMangledName n [Wrap c f t] k = makeMangledName n [Wrap c g t] k.
Proof. reflexivity. Qed.
Print Assumptions C50_flags_refuted.
(** and everything behind a zero character is lost. *)
Theorem C50_zero_refuted :
  makeMangledName (codes "f") [Lit (LChar 0); Prim I32] false = makeMangledName (codes "f") [Lit (LChar 0); Prim F64; Str] false.
Proof. by vm_compute. Qed.
Print Assumptions C50_zero_refuted.

Definition vector := Decl None (codes "Vector") (Generic false).
Definition point := Decl (Some (codes "geo")) (codes "Point") Plain.
Example C50_ex_decls : good_decls [vector; point].
Proof.
  split; [by apply (bool_decide_unpack _); vm_compute|].
  intros d e D E. rewrite !elem_of_cons, elem_of_nil in D, E. destruct D as [->|[->|[]]], E as [->|[->|[]]]; done.
Qed.
Example C50_ex : makeMangledName (codes "sum") (map (erase (fun _ => 0))
    [SInst vector [SConst (SPtr (SNamed point))]; SFn [SPrim U8] SStr; SArr 12 (STup [SPrim F64; SUni [SPrim Bool; SStr]])]) true =
  codes "sumIc_ZVectorI_cPZgeoPoint_E_Fu8s_A12Tf64U_bs__E".
Proof. by vm_compute. Qed.
Example C50_ex_good : Forall (good true [vector; point])
    [SInst vector [SConst (SPtr (SNamed point))]; SFn [SPrim U8] SStr; SArr 12 (STup [SPrim F64; SUni [SPrim Bool; SStr]])].
Proof.
  repeat (apply Forall_cons_2); try apply Forall_nil_2; cbn; repeat split; try done; try (by eexists); rewrite ?elem_of_cons; auto.
Qed.
Example C50_ex_literals : makeMangledName (codes "f") [Lit (LInt true (2 ^ 64 - 5)); Lit (LInt false 7); Lit (LChar 233); Lit LNull; Lit (LBool true); Lit (LString 41)] false =
  codes "fI_Li_-5Lu_7Lc_" ++ [195; 169] ++ codes "Ln_Lb_trueLs_41E".
Proof. by vm_compute. Qed.
Example C50_ex_alias : mangleType (Wrap true 0 (Alias (Alias (Prim I8)))) = codes "ci8" /\ mangleType (Alias (Wrap true 0 (Prim I8))) = codes "Z_".
Proof. by vm_compute. Qed.
