(** C17 and C65: the static file server. *)
From Coq Require Import NArith.
From stdpp Require Import numbers list.
From Verif Require Import StrModel StrSpec PathModel FServerModel FServerSpec FServerProofs.

(** For every root, request and file system: a served file is regular and lies inside the
    root, or inside a sibling of the root whose name starts with the root's name. *)
Theorem C17_served_partial (rp : list N -> option (list N)) (reg : list N -> bool) (root : list (list N)) (rel : list N) :
  resolves rp -> Forall good_name root ->
  exists r, fileExists rp reg (text root) rel = SOk r /\
    forall abs, r = Some abs ->
      exists names, Forall good_name names /\ abs = text names /\ (inside root names \/ lookalike root names) /\ reg abs = true.
Proof. apply served_exact. Qed.
Print Assumptions C17_served_partial.
(** So nothing outside is served when no such sibling exists. *)
Theorem C17_contained_partial (rp : list N -> option (list N)) (reg : list N -> bool) (root : list (list N)) (rel : list N) :
  resolves rp -> Forall good_name root ->
  (forall p names, Forall good_name names -> rp p = Some (text names) -> ~ lookalike root names) ->
  exists r, fileExists rp reg (text root) rel = SOk r /\
    forall abs, r = Some abs -> exists names, Forall good_name names /\ abs = text names /\ inside root names /\ reg abs = true.
Proof. apply contained. Qed.
Print Assumptions C17_contained_partial.
(** Files inside the root are found. *)
Theorem C17_found (rp : list N -> option (list N)) (reg : list N -> bool) (root : list (list N)) (rel b : list N) (names : list (list N)) :
  resolves rp -> Forall good_name root -> Forall good_name names -> root <> [] ->
  join (text root) rel = SOk b -> rp b = Some (text names) -> inside root names -> reg (text names) = true ->
  fileExists rp reg (text root) rel = SOk (Some (text names)).
Proof. apply found. Qed.
Print Assumptions C17_found.
(** Root /w; the request ../wx/s resolves to /wx/s and is served. *)
Theorem C17_sibling_refuted :
  let rp p := if bool_decide (p = [47; 119; 47; 46; 46; 47; 119; 120; 47; 115]%N) then Some (text [[119; 120]; [115]]%N) else None in
  resolves rp /\
  fileExists rp (fun _ => true) (text [[119%N]]) [46; 46; 47; 119; 120; 47; 115]%N = SOk (Some (text [[119; 120]; [115]]%N)) /\
  ~ inside [[119%N]] [[119; 120]; [115]]%N.
Proof.
  split; [|split; [by vm_compute|by intros [rest ?]]].
  intros p q E. case_bool_decide; [|done]. injection E as <-. exists [[119; 120]; [115]]%N. split; [|done].
  by repeat constructor; try done; repeat (apply not_elem_of_cons; split; [done|]); apply not_elem_of_nil.
Qed.
Print Assumptions C17_sibling_refuted.
(** If the configured root does not resolve the server has no root directory at all:
    every regular file is served. *)
Theorem C17_missing_root_refuted (rp : list N -> option (list N)) (reg : list N -> bool) (root cwd rel : list N) :
  root <> [] -> rp root = None ->
  exists b, join [] rel = SOk b /\ forall a, rp b = Some a -> reg a = true ->
  fileExists rp reg (setupWwwDir rp root cwd) rel = SOk (Some a).
Proof.
  intros Hr E. destruct (empty_root rp reg rel) as (b & Eb & H). exists b. split; [done|].
  unfold setupWwwDir. destruct root; [done|]. by rewrite E.
Qed.
Print Assumptions C17_missing_root_refuted.

(** Every request is answered with the content of its own file, as long as no two of the
    requested paths differ only in the case of letters. *)
Theorem C65_content_partial (content : list N -> option (list N)) (ps : list (list N)) :
  (forall p q, p ∈ ps -> q ∈ ps -> map lower p = map lower q -> p = q) ->
  serve content [] ps = map content ps.
Proof. intros H. by apply serve_ok. Qed.
Print Assumptions C65_content_partial.
(** After a request for /A, a request for /a gets the content of /A. *)
Theorem C65_content_refuted :
  let content p := if bool_decide (p = [47; 65]%N) then Some [1%N] else if bool_decide (p = [47; 97]%N) then Some [2%N] else None in
  serve content [] [[47; 65]; [47; 97]]%N = [Some [1%N]; Some [1%N]] /\ content [47; 97]%N = Some [2%N].
Proof. by vm_compute. Qed.
Print Assumptions C65_content_refuted.

Example C17_ex :
  let rp p := if bool_decide (p = [47; 119; 47; 46; 46; 47; 119; 47; 115]%N) then Some (text [[119]; [115]]%N) else None in
  resolves rp /\ (forall p names, Forall good_name names -> rp p = Some (text names) -> ~ lookalike [[119%N]] names) /\
  fileExists rp (fun _ => true) (text [[119%N]]) [46; 46; 47; 119; 47; 115]%N = SOk (Some (text [[119]; [115]]%N)).
Proof.
  split; [|split; [|by vm_compute]].
  - intros p q E. case_bool_decide; [|done]. injection E as <-. exists [[119]; [115]]%N. split; [|done].
    by repeat constructor; try done; repeat (apply not_elem_of_cons; split; [done|]); apply not_elem_of_nil.
  - intros p names G E (up & n & m & rest & E1 & -> & Hm). case_bool_decide; [|done]. injection E as E.
    destruct up as [|u [|]]; [|done|done]. cbn in E1. injection E1 as <-. cbn in E. injection E as E.
    destruct m as [|c m]; [done|]. injection E as <- E.
    apply Forall_cons_1 in G as [(_ & G & _) _]. apply G. right. left.
Qed.
