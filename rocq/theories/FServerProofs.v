From Coq Require Import NArith Lia.
From stdpp Require Import numbers list.
From Verif Require Import StrModel StrSpec StrProofs PathModel PathProofs FServerModel FServerSpec.
From Coq Require Import ZifyBool ZifyNat ZifyN.

Lemma strncmp_eq_r a : forall b, length a = length b -> nul_free b ->
  exists z, strncmp (length a) a b = SOk z /\ (z = 0%Z <-> a = b).
Proof.
  induction a as [|x a IH]; intros [|y b] L Hn; try done; [by exists 0%Z|].
  apply Forall_cons_1 in Hn as [Hy Hn]. cbn [length strncmp]. destruct (x =? y)%N eqn:E; cbn [negb].
  - apply N.eqb_eq in E as ->. destruct (y =? 0)%N eqn:E0; [lia|].
    destruct (IH b ltac:(cbn in L; lia) Hn) as (z & Ez & Hz). exists z. split; [done|]. rewrite Hz. split; [by intros ->|congruence].
  - eexists. split; [done|]. split; [lia|]. intros X. injection X. lia.
Qed.
Lemma str_eq_r a b : length a = length b -> nul_free b -> str_eq a b = SOk (bool_decide (a = b)).
Proof.
  intros L Hn. unfold str_eq, str_compare. rewrite L, Nat.eqb_refl.
  destruct (strncmp_eq_r a b L Hn) as (z & E & Hz). rewrite <- L, E. f_equal.
  destruct (Z.eqb_spec z 0) as [X|X]; case_bool_decide; tauto.
Qed.
Lemma text_nul_free names : Forall good_name names -> nul_free (text names).
Proof.
  intros H. unfold text. destruct names as [|n names]; [by repeat constructor|].
  unfold nul_free. revert H. generalize (n :: names). clear. induction l as [|n l IH]; intros H; cbn; [constructor|].
  apply Forall_cons_1 in H as [(_ & _ & Hn) H]. constructor; [done|]. apply Forall_app. split; [done|]. by apply IH.
Qed.
(** The check made by the code. *)
Lemma fileExists_ok rp reg www rel : nul_free www -> exists b, join www rel = SOk b /\
  fileExists rp reg www rel = SOk (match rp b with
    | Some abs => if bool_decide (take (length www) (abs ++ replicate (length www) 0%N) = www) && reg abs then Some abs else None
    | None => None end).
Proof.
  intros Hn. unfold fileExists. assert (J : exists b, join www rel = SOk b).
  { destruct (join_ok www rel Hn) as [(q & _ & E)|[_ E]]; by eexists. }
  destruct J as [b E]. exists b. split; [done|]. rewrite E. destruct (rp b) as [abs|]; [|done].
  rewrite str_eq_r; [|rewrite take_length, app_length, replicate_length; lia|done].
  case_bool_decide; [|done]. cbn [andb]. by destruct (reg abs).
Qed.
Lemma take_prefix {A} (w a z : list A) : take (length w) (a ++ z) = w -> length w <= length a -> exists t, a = w ++ t.
Proof. intros E L. rewrite take_app_le in E by done. exists (drop (length w) a). by rewrite <- E at 1; rewrite take_drop. Qed.
Lemma prefix_zero w a : nul_free w -> take (length w) (a ++ replicate (length w) 0%N) = w -> exists t, a = w ++ t.
Proof.
  intros Hn E. destruct (decide (length w <= length a)); [by eapply take_prefix|]. exfalso.
  assert (X : w !! length a = Some 0%N).
  { rewrite <- E, lookup_take by lia. rewrite lookup_app_r, Nat.sub_diag by lia. apply lookup_replicate. lia. }
  apply (Forall_lookup_1 _ _ _ _ Hn) in X. done.
Qed.
Definition cat (names : list (list N)) : list N := concat (map (cons sep) names).
Lemma cat_app a b : cat (a ++ b) = cat a ++ cat b.
Proof. unfold cat. by rewrite map_app, concat_app. Qed.
Lemma app_sep_split a b x y : sep ∉ a -> sep ∉ b -> a ++ sep :: x = b ++ sep :: y -> a = b /\ x = y.
Proof.
  revert b. induction a as [|c a IH]; intros [|d b] Ha Hb E; cbn in E.
  - injection E as ->. done.
  - injection E as <- _. exfalso. apply Hb. left.
  - injection E as -> _. exfalso. apply Ha. left.
  - injection E as -> E. apply not_elem_of_cons in Ha as [_ Ha]. apply not_elem_of_cons in Hb as [_ Hb].
    destruct (IH b Ha Hb E) as [-> ->]. done.
Qed.
Lemma cat_head names : cat names = [] \/ exists t, cat names = sep :: t.
Proof. destruct names as [|n ns]; [by left|]. right. by exists (n ++ cat ns). Qed.
(** A textual prefix of a resolved path. *)
Lemma cat_prefix root : forall names t, Forall good_name root -> Forall good_name names -> root <> [] ->
  cat names = cat root ++ t -> inside root names \/ lookalike root names.
Proof.
  induction root as [|n root IH]; intros names t Hr Hn Hne E; [done|].
  apply Forall_cons_1 in Hr as [(Hn0 & Hn1 & _) Hr]. destruct names as [|m names].
  { by destruct n. }
  apply Forall_cons_1 in Hn as [(Hm0 & Hm1 & _) Hn].
  cbn in E. injection E as E. change (concat (map (cons sep) names)) with (cat names) in E.
  change (concat (map (cons sep) root)) with (cat root) in E.
  destruct root as [|r root].
  - cbn in E. rewrite app_nil_r in E. assert (Hd : n = m \/ exists k, m = n ++ k /\ k <> []).
    { assert (P : exists k, m = n ++ k).
      { clear - E Hn1 Hm1. revert m Hm1 E. induction n as [|c n IH]; intros m Hm1 E; [by exists m|].
        destruct m as [|d m].
        - exfalso. destruct (cat_head names) as [C|[t' C]]; cbn in E; rewrite C in E; simplify_eq. apply Hn1. left.
        - cbn in E. injection E as -> E. apply not_elem_of_cons in Hn1 as [_ Hn1]. apply not_elem_of_cons in Hm1 as [_ Hm1].
          destruct (IH Hn1 m Hm1 E) as [k ->]. by exists k. }
      destruct P as [k ->]. destruct k; [left; by rewrite app_nil_r|]. right. by eexists. }
    destruct Hd as [-> |(k & -> & Hk)]; [left; by exists names|]. right. exists [], n, k, names. done.
  - destruct (cat_head names) as [C|[x C]].
    { exfalso. rewrite C, app_nil_r in E. apply Hm1. rewrite E. apply elem_of_app. left. apply elem_of_app. right. left. }
    assert (C2 : cat (r :: root) = sep :: r ++ cat root) by done.
    rewrite C, C2 in E. rewrite <- app_assoc in E. cbn in E. destruct (app_sep_split _ _ _ _ Hm1 Hn1 E) as [-> Ex].
    destruct (IH names t Hr Hn ltac:(done)) as [(rest & ->)|(up & n' & k & rest & E1 & -> & Hk)].
    { rewrite C, C2. cbn. by rewrite Ex. }
    + left. by exists rest.
    + right. exists (n :: up), n', k, rest. by rewrite E1.
Qed.
Lemma text_prefix root names t : Forall good_name root -> Forall good_name names ->
  text names = text root ++ t -> inside root names \/ lookalike root names.
Proof.
  intros Hr Hn E. destruct root as [|r root]; [left; by exists names|].
  destruct names as [|n names].
  - exfalso. apply Forall_cons_1 in Hr as [(H0 & _) _]. destruct r; done.
  - apply (cat_prefix (r :: root) (n :: names) t); done.
Qed.
Lemma prefix_text root names : Forall good_name root -> Forall good_name names ->
  inside root names \/ lookalike root names -> root <> [] -> exists t, text names = text root ++ t.
Proof.
  intros Hr Hn H Hne. destruct root as [|r root]; [done|]. destruct H as [(rest & ->)|(up & n & m & rest & E & -> & _)].
  - exists (cat rest). change (cat ((r :: root) ++ rest) = cat (r :: root) ++ cat rest). apply cat_app.
  - rewrite E. exists (m ++ cat rest).
    assert (T1 : text (up ++ (n ++ m) :: rest) = cat (up ++ (n ++ m) :: rest)) by (destruct up; done).
    assert (T2 : text (up ++ [n]) = cat (up ++ [n])) by (destruct up; done).
    rewrite T1, T2, !cat_app. cbn. rewrite <- !app_assoc. cbn. by rewrite app_nil_r.
Qed.
Lemma served_exact rp reg root rel : resolves rp -> Forall good_name root ->
  exists r, fileExists rp reg (text root) rel = SOk r /\
    forall abs, r = Some abs ->
      exists names, Forall good_name names /\ abs = text names /\ (inside root names \/ lookalike root names) /\ reg abs = true.
Proof.
  intros Hrp Hr. destruct (fileExists_ok rp reg (text root) rel (text_nul_free root Hr)) as (b & Eb & E).
  eexists. split; [exact E|]. intros abs X. destruct (rp b) as [a|] eqn:Er; [|done].
  case_bool_decide as P; [|done]. cbn [andb] in X. destruct (reg a) eqn:Eg; [|done]. injection X as <-.
  destruct (Hrp b a Er) as (names & Hn & ->). exists names. split; [done|]. split; [done|]. split; [|done].
  destruct (prefix_zero _ _ (text_nul_free root Hr) P) as [t Et]. by eapply text_prefix.
Qed.
Lemma contained rp reg root rel : resolves rp -> Forall good_name root ->
  (forall p names, Forall good_name names -> rp p = Some (text names) -> ~ lookalike root names) ->
  exists r, fileExists rp reg (text root) rel = SOk r /\
    forall abs, r = Some abs -> exists names, Forall good_name names /\ abs = text names /\ inside root names /\ reg abs = true.
Proof.
  intros Hrp Hr Hl. destruct (fileExists_ok rp reg (text root) rel (text_nul_free root Hr)) as (b & Eb & E).
  eexists. split; [exact E|]. intros abs X. destruct (rp b) as [a|] eqn:Er; [|done].
  case_bool_decide as P; [|done]. cbn [andb] in X. destruct (reg a) eqn:Eg; [|done]. injection X as <-.
  destruct (Hrp b a Er) as (names & Hn & ->). exists names. split; [done|]. split; [done|]. split; [|done].
  destruct (prefix_zero _ _ (text_nul_free root Hr) P) as [t Et].
  destruct (text_prefix _ _ _ Hr Hn Et); [done|]. by destruct (Hl b names Hn).
Qed.
(** A request for a file that resolves inside the root is answered. *)
Lemma found rp reg root rel b names : resolves rp -> Forall good_name root -> Forall good_name names -> root <> [] ->
  join (text root) rel = SOk b -> rp b = Some (text names) -> inside root names -> reg (text names) = true ->
  fileExists rp reg (text root) rel = SOk (Some (text names)).
Proof.
  intros Hrp Hr Hn Hne Eb Er Hi Hg. destruct (fileExists_ok rp reg (text root) rel (text_nul_free root Hr)) as (b' & Eb' & E).
  rewrite Eb in Eb'. injection Eb' as <-. rewrite E, Er, Hg.
  destruct (prefix_text root names Hr Hn (or_introl Hi) Hne) as [t ->].
  rewrite <- app_assoc, take_app, bool_decide_true by done. done.
Qed.
Lemma empty_root rp reg rel : exists b, join [] rel = SOk b /\ forall a, rp b = Some a -> reg a = true ->
  fileExists rp reg [] rel = SOk (Some a).
Proof.
  destruct (fileExists_ok rp reg [] rel ltac:(constructor)) as (b & Eb & E). exists b. split; [done|].
  intros a Er Hg. rewrite E, Er, Hg. cbn. done.
Qed.

(** The cache. *)
Lemma equalsCase_spec a b : equalsCase a b = true <-> map lower a = map lower b.
Proof.
  unfold equalsCase. rewrite andb_true_iff, bool_decide_eq_true. split; [tauto|]. intros E. split; [|done].
  apply Nat.eqb_eq. apply (f_equal length) in E. by rewrite !map_length in E.
Qed.
Lemma serve_ok content ps : forall c,
  (forall p q, p ∈ ps -> q ∈ c ++ ps -> map lower p = map lower q -> p = q) ->
  serve content c ps = map content ps.
Proof.
  induction ps as [|p ps IH]; intros c H; [done|]. cbn [serve map]. unfold loadFile.
  destruct (List.find (equalsCase p) c) as [q|] eqn:E.
  - apply List.find_some in E as [Hin Heq]. apply equalsCase_spec in Heq.
    assert (p = q) as <-. { apply H; [left| |done]. apply elem_of_app. left. by apply elem_of_list_In. }
    f_equal. apply IH. intros x y Hx Hy. apply H; [by right|]. apply elem_of_app in Hy as [|]; apply elem_of_app; [by left|right; by right].
  - destruct (content p) as [d|] eqn:Ed; f_equal.
    + apply IH. intros x y Hx Hy. apply H; [by right|]. cbn in Hy. apply elem_of_cons in Hy as [-> |Hy].
      { apply elem_of_app. right. left. }
      apply elem_of_app in Hy as [|]; apply elem_of_app; [by left|right; by right].
    + apply IH. intros x y Hx Hy. apply H; [by right|]. apply elem_of_app in Hy as [|]; apply elem_of_app; [by left|right; by right].
Qed.
