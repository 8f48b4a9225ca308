(** Conditional blocks at the top of a file, and imports marked test. *)
From Coq Require Import Bool List Arith.
Import ListNotations.
From Verif Require Import CondModel CondSpec CondProofs.

(** * C93: of a conditional block exactly the branch whose condition holds is compiled *)
(** The parser takes the chain and nothing else, and gives the declarations of the branch to be taken, exactly if no branch
    that is passed over has an import of a list of entities and the imports of the taken one can be read. *)
Theorem C93_branch_partial testing c rest : Forall (Forall wf) (branches c) -> no_else rest ->
  (parse_conditional testing (w_chain c ++ rest) = Ok (m_decls testing (taken c)) rest <->
   Forall (readable testing) (taken c) /\ Forall (Forall braceless) (passed c)).
Proof. apply chain_exact. Qed.
Print Assumptions C93_branch_partial.

(** A chain with a branch taken in the middle; the taken one may import lists. *)
Definition import_list : decl := DImport false (EMany (Entity 1 None) [Entity 2 (Some 3)]) 4 None.
Definition import_as (m a : nat) : decl := DImport false ENone m (Some a).
Example C93_branch_example :
  let c := CElif false [import_as 5 6; DSource 7] (CElse true [import_list; DLib 8] [import_as 9 9]) in
  parse_conditional false (w_chain c ++ [KImport]) = Ok [NImport [(1, 1); (2, 3)] 4 None; NLib 8] [KImport].
Proof. reflexivity. Qed.

(** An import of a list in a branch that is passed over: the rest of the branch is read as code of the file. *)
Theorem C93_list_refuted :
  let c := CIf false [import_list; DSource 7] in
  parse_conditional false (w_chain c ++ [KOther 0]) = Ok [] [KFrom; KStr 4; KCBuild; KStr 7; KRBrace; KOther 0] /\
  m_decls false (taken c) = [].
Proof. split; reflexivity. Qed.
Print Assumptions C93_list_refuted.
(** Then the else branch, which was to be taken, is not: it is left, behind the rest of the other branch, as code of the file. *)
Theorem C93_else_lost_refuted testing x y s : exists u,
  parse_conditional testing (w_chain (CElse false [import_list] [DSource s]) ++ [KOther x; KOther y]) = Ok [] u /\
  m_decls testing (taken (CElse false [import_list] [DSource s])) = [NSource s] /\
  u = [KFrom; KStr 4; KRBrace; KElse; KLBrace; KCBuild; KStr s; KRBrace; KOther x; KOther y].
Proof. eexists. repeat split. Qed.
Print Assumptions C93_else_lost_refuted.
(** An else without braces is read if the condition is false, and refused if it is true. *)
Theorem C93_bare_else_refuted testing d : wf d -> readable testing d ->
  parse_conditional testing (w_if false [] ++ KElse :: w_decl d ++ []) = Ok (m_decl testing d) [] /\
  parse_conditional testing (w_if true [] ++ KElse :: w_decl d ++ []) = Fail.
Proof.
  intros W R. destruct (w_decl_head d) as (t & u & E & N1 & N2 & N3 & N4 & N5). split.
  - rewrite <- (decl_ok testing d [] W I R). rewrite E. simpl. destruct t; try reflexivity; congruence.
  - rewrite E. simpl. destruct t; try reflexivity; congruence.
Qed.
Print Assumptions C93_bare_else_refuted.

(** * C94: an import marked test is read when testing and left out otherwise *)
Theorem C94_import_partial testing d rest : wf d -> no_as rest ->
  (parse_decl testing (w_decl d ++ rest) = Ok (m_decl testing d) rest <-> readable testing d).
Proof. apply decl_exact. Qed.
Print Assumptions C94_import_partial.
Example C94_import_example :
  let d := DImport true (EOne (Entity 1 None)) 2 None in
  parse_decl false (w_decl d ++ [KImport]) = Ok [] [KImport] /\
  parse_decl true (w_decl d ++ [KImport]) = Ok [NImport [(1, 1)] 2 None] [KImport].
Proof. split; reflexivity. Qed.
(** import test { a } from "m" is an error unless testing, and so is import test a as b from "m"; import test "m" as a leaves
    its alias behind. *)
Theorem C94_list_refuted e es m rest : no_as rest ->
  parse_decl false (w_decl (DImport true (EMany e es) m None) ++ rest) = Fail /\
  parse_decl true (w_decl (DImport true (EMany e es) m None) ++ rest) =
    Ok (m_decl true (DImport true (EMany e es) m None)) rest.
Proof.
  intros N. split; [|apply decl_ok; [reflexivity|exact N|left; reflexivity]].
  destruct (decl_bad (DImport true (EMany e es) m None) rest eq_refl N) as [X|[a X]]; [intros []|exact X|exfalso].
  revert X. unfold w_decl. simpl app. unfold parse_decl, parse_import, skip_import_test. cbv iota.
  destruct (skip_until KRBrace _) as [|[] l] eqn:S; simpl; try discriminate. intros _.
  clear - S. revert S. generalize ((w_entity e ++ w_more es ++ [KRBrace; KFrom]) ++ [KStr m]).
  assert (H : forall l0 k, skip_until KRBrace l0 <> KFrom :: k).
  { induction l0 as [|t l0 IH]; intros k; simpl; [discriminate|]. destruct (tok_beq t KRBrace) eqn:E; [|apply IH].
    apply internal_tok_dec_bl in E. subst t. discriminate. }
  intros l0 S. exact (H _ _ S).
Qed.
Print Assumptions C94_list_refuted.
Theorem C94_alias_refuted n a m rest :
  parse_decl false (w_decl (DImport true (EOne (Entity n (Some a))) m None) ++ rest) = Fail /\
  parse_decl false (w_decl (DImport true ENone m (Some a)) ++ rest) = Ok [] (KAs :: KIdent a :: rest).
Proof. split; reflexivity. Qed.
Print Assumptions C94_alias_refuted.
