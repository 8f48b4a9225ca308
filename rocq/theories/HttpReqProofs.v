From Coq Require Import NArith.
From stdpp Require Import numbers list gmap.
From Verif Require Import HttpModel HttpSpec HttpProofs HttpReqModel HttpReqSpec.

Lemma feed_app q a b : feed q (a ++ b) = match feed q a with Some q => feed q b | None => None end.
Proof. revert q. induction a as [|e a IH]; intros q; [done|]. cbn. destruct (step q e); [apply IH|done]. Qed.
Lemma eqc_upper a b : equalsCase a b = true <-> map upper a = map upper b.
Proof.
  unfold equalsCase. rewrite andb_true_iff, bool_decide_eq_true, Nat.eqb_eq. split; [by intros []|]. intros H. split; [|done].
  apply (f_equal length) in H. by rewrite !map_length in H.
Qed.
Lemma find_put hs k v name :
  option_map snd (List.find (fun h => equalsCase (fst h) name) (put_header hs k v)) =
  if equalsCase k name then Some v else option_map snd (List.find (fun h => equalsCase (fst h) name) hs).
Proof.
  induction hs as [|[k' v'] hs IH]; cbn; [by destruct (equalsCase k name)|].
  destruct (equalsCase k' k) eqn:E; cbn.
  - assert (equalsCase k' name = equalsCase k name) as ->; [|by destruct (equalsCase k name)].
    apply eqc_upper in E. unfold equalsCase. rewrite E.
    assert (length k' = length k) as -> by (apply (f_equal length) in E; by rewrite !map_length in E). done.
  - destruct (equalsCase k' name) eqn:E'; cbn; [|done].
    destruct (equalsCase k name) eqn:E''; [|done].
    apply eqc_upper in E', E''. assert (equalsCase k' k = true) by (apply eqc_upper; congruence). congruence.
Qed.
Fixpoint puts (hs fs : list (text * text)) : list (text * text) :=
  match fs with [] => hs | (n, v) :: fs => puts (put_header hs n v) fs end.
Lemma puts_last fs name : last_value fs name (option_map snd (List.find (fun h => equalsCase (fst h) name) (puts [] fs))).
Proof.
  assert (G : forall fs hs, let r := option_map snd (List.find (fun h => equalsCase (fst h) name) (puts hs fs)) in
     (exists v, r = Some v /\ exists pre n post, fs = pre ++ (n, v) :: post /\ case_equal n name /\
        forall n' v', (n', v') ∈ post -> ~ case_equal n' name) \/
     (r = option_map snd (List.find (fun h => equalsCase (fst h) name) hs) /\ forall n' v', (n', v') ∈ fs -> ~ case_equal n' name)).
  { clear fs. induction fs as [|[n v] fs IH]; intros hs; cbn [puts].
    - right. split; [done|]. intros n' v' X. by apply elem_of_nil in X.
    - destruct (IH (put_header hs n v)) as [(w & E & pre & n1 & post & -> & C & P)|[E P]].
      + left. exists w. split; [done|]. exists ((n, v) :: pre), n1, post. done.
      + rewrite find_put in E. destruct (equalsCase n name) eqn:En.
        * left. exists v. split; [done|]. exists [], n, fs. split; [done|]. split; [by apply equalsCase_ok|done].
        * right. split; [done|]. intros n' v' X C. apply elem_of_cons in X as [X|X]; [|by eapply P].
          injection X as -> _. apply equalsCase_ok in C. congruence. }
  destruct (G fs []) as [(v & E & H)|[E H]]; rewrite E; done.
Qed.

Lemma feed_urls fs q : feed q (map EUrl fs) =
  Some (Request (match fs with [] => q_path q | _ => add_to (q_path q) (concat fs) end)
         (q_headers q) (q_s1 q) (q_s2 q) (q_body q) (q_complete q)).
Proof.
  revert q. induction fs as [|f fs IH]; intros q; cbn [map feed]; [by destruct q|].
  cbn [step]. rewrite IH. cbn. f_equal. f_equal. destruct fs, (q_path q); cbn; rewrite ?app_nil_r, ?app_assoc; done.
Qed.
Lemma feed_bodies fs q : feed q (map EBody fs) =
  Some (Request (q_path q) (q_headers q) (q_s1 q) (q_s2 q)
         (match fs with [] => q_body q | _ => add_to (q_body q) (concat fs) end) (q_complete q)).
Proof.
  revert q. induction fs as [|f fs IH]; intros q; cbn [map feed]; [by destruct q|].
  cbn [step]. rewrite IH. cbn. f_equal. f_equal. destruct fs, (q_body q); cbn; rewrite ?app_nil_r, ?app_assoc; done.
Qed.
Lemma feed_values fs q s1 : fs <> [] -> q_s1 q = Some s1 -> feed q (map EValue fs) =
  Some (Request (q_path q) (q_headers q) (Some s1) (add_to (q_s2 q) (concat fs)) (q_body q) (q_complete q)).
Proof.
  revert q. induction fs as [|f fs IH]; intros q; [done|]. intros _ H. cbn [map feed step]. rewrite H.
  destruct fs as [|g fs]; [cbn; by rewrite app_nil_r|].
  rewrite IH by done. cbn. f_equal. f_equal. destruct (q_s2 q); cbn; by rewrite ?app_assoc.
Qed.
(** The fields of a header name: first with no open header, or with a finished one. *)
Lemma feed_fields_open fs q s1 : fs <> [] -> q_s1 q = Some s1 -> q_s2 q = None -> feed q (map EField fs) =
  Some (Request (q_path q) (q_headers q) (Some (s1 ++ concat fs)) None (q_body q) (q_complete q)).
Proof.
  revert q s1. induction fs as [|f fs IH]; intros q s1; [done|]. intros _ H H2. cbn [map feed step]. rewrite H2, H. cbn [add_to].
  destruct fs as [|g fs]; [cbn; by rewrite app_nil_r, H2|].
  rewrite (IH _ (s1 ++ f)) by done. cbn. by rewrite <- !app_assoc.
Qed.
Lemma feed_fields fs q : fs <> [] -> q_s1 q = None -> q_s2 q = None -> feed q (map EField fs) =
  Some (Request (q_path q) (q_headers q) (Some (concat fs)) None (q_body q) (q_complete q)).
Proof.
  destruct fs as [|f fs]; [done|]. intros _ H H2. cbn [map feed step]. rewrite H2, H. cbn [add_to].
  destruct fs as [|g fs]; [cbn; by rewrite app_nil_r, H2|].
  rewrite (feed_fields_open _ _ f) by done. done.
Qed.
Lemma feed_next fs q s1 s2 : fs <> [] -> q_s1 q = Some s1 -> q_s2 q = Some s2 -> feed q (map EField fs) =
  Some (Request (q_path q) (put_header (q_headers q) s1 s2) (Some (concat fs)) None (q_body q) (q_complete q)).
Proof.
  destruct fs as [|f fs]; [done|]. intros _ H H2. cbn [map feed step]. rewrite H2, H. cbn [store add_to q_s1 q_s2].
  rewrite ?H2. cbn [default q_path q_headers q_body q_complete]. destruct fs as [|g fs]; [cbn; rewrite app_nil_r, ?H2; reflexivity|].
  rewrite (feed_fields_open _ _ f) by done. cbn. rewrite ?H2. reflexivity.
Qed.
(** All fields, then the end of the headers. *)
Lemma feed_all fs es : cut_fields fs es -> forall path hs s1 s2 body c,
  feed (Request path hs (Some s1) (Some s2) body c) (es ++ [EHeaders]) =
  Some (Request path (puts (put_header hs s1 s2) fs) None None body c).
Proof.
  intros F. induction F as [|n v fs a b es (fa & Na & <- & ->) (fb & Nb & <- & ->) F IH]; intros path hs s1 s2 body c; [done|].
  rewrite <- !app_assoc, feed_app, (feed_next _ _ s1 s2) by done. cbn [q_path q_headers q_body q_complete].
  rewrite feed_app, (feed_values _ _ (concat fa)) by done. cbn [q_path q_headers q_s2 q_body q_complete add_to].
  by rewrite IH.
Qed.
Lemma feed_headers fs es : cut_fields fs es -> forall path body c,
  feed (Request path [] None None body c) (es ++ [EHeaders]) = Some (Request path (puts [] fs) None None body c).
Proof.
  intros F path body c. destruct F as [|n v fs a b es (fa & Na & <- & ->) (fb & Nb & <- & ->) F]; [done|].
  rewrite <- !app_assoc, feed_app, feed_fields by done. cbn [q_path q_headers q_body q_complete].
  rewrite feed_app, (feed_values _ _ (concat fa)) by done. cbn [q_path q_headers q_s2 q_body q_complete add_to].
  by rewrite (feed_all _ _ F).
Qed.
Lemma collected m es q : delivers m es -> exists r, feed q es = Some r /\ holds m r.
Proof.
  intros (u & h & b & (fu & Nu & Eu & ->) & H & B & ->).
  change (feed q (EBegin :: ?x)) with (feed new_request x). cbn [feed step].
  rewrite feed_app, feed_urls. cbn [new_request q_path q_headers q_s1 q_s2 q_body q_complete].
  replace (h ++ EHeaders :: b ++ [EComplete]) with ((h ++ [EHeaders]) ++ b ++ [EComplete]) by by rewrite <- app_assoc.
  rewrite feed_app, (feed_headers _ _ H).
  destruct fu as [|f0 fu]; [done|]. cbn [add_to]. rewrite Eu.
  destruct B as [[B ->]|(fb & Nb & Eb & ->)].
  - eexists. split; [done|]. cbn. split; [done|]. split; [done|]. split; [done|]. intros name. apply puts_last.
  - rewrite feed_app, feed_bodies. eexists. split; [done|]. cbn. split; [done|]. split; [done|]. split.
    + destruct fb; [done|]. done.
    + intros name. apply puts_last.
Qed.

(** A request is complete only after the last event. *)
Lemma not_yet es : EComplete ∉ es -> forall q q', q_complete q = false -> feed q es = Some q' -> q_complete q' = false.
Proof.
  induction es as [|e es IH]; intros N q q' C H; [cbn in H; congruence|].
  cbn in H. destruct (step q e) as [q1|] eqn:E; [|done]. eapply (IH ltac:(set_solver) q1); [|done].
  destruct e; cbn in E; try (injection E as <-; done).
  - unfold store in E. repeat case_match; try done; injection E as <-; cbn in *; try done; by simplify_eq.
  - case_match; [|done]. by injection E as <-.
  - unfold store in E. case_match; injection E as <-; done.
  - set_solver.
Qed.
Lemma map_no_complete (mk : text -> event) fs : (forall d, mk d <> EComplete) -> EComplete ∉ map mk fs.
Proof. intros H X. apply elem_of_list_fmap in X as (d & E & _). by eapply H. Qed.
Lemma cut_no_complete (mk : text -> event) t es : (forall d, mk d <> EComplete) -> cut mk t es -> EComplete ∉ es.
Proof. intros H (fs & _ & _ & ->). by apply map_no_complete. Qed.
Lemma ends m es : delivers m es -> exists es', es = es' ++ [EComplete] /\ EComplete ∉ es'.
Proof.
  intros (u & h & b & U & H & B & ->). exists (EBegin :: u ++ h ++ EHeaders :: b). split; [by rewrite <- !app_comm_cons, <- !app_assoc|].
  assert (EComplete ∉ u) by (by eapply (cut_no_complete EUrl)).
  assert (EComplete ∉ b) by (destruct B as [[_ ->]|B]; [set_solver|by eapply (cut_no_complete EBody)]).
  assert (EComplete ∉ h).
  { induction H as [|n v fs x y es X Y F IH]; [set_solver|].
    assert (EComplete ∉ x) by (by eapply (cut_no_complete EField)). assert (EComplete ∉ y) by (by eapply (cut_no_complete EValue)).
    rewrite !elem_of_app. tauto. }
  rewrite elem_of_cons, !elem_of_app, elem_of_cons. intros [?|[?|[?|[?|?]]]]; done.
Qed.
Lemma serve_first first : EComplete ∉ concat first -> forall q q' rest, q_complete q = false ->
  feed q (concat first) = Some q' -> serve q (first ++ rest) = serve q' rest.
Proof.
  induction first as [|es first IH]; intros N q q' rest C H; [cbn in H; by injection H as ->|].
  cbn [concat app] in *. rewrite elem_of_app in N. rewrite feed_app in H. cbn [serve].
  destruct (feed q es) as [q1|] eqn:E; [|done]. rewrite (not_yet es ltac:(tauto) _ _ C E).
  apply IH; [tauto|exact (not_yet es ltac:(tauto) _ _ C E)|done].
Qed.
Lemma served ms : forall rss, Forall2 reads_of ms rss -> Forall2 holds ms (serve new_request (concat rss)).
Proof.
  intros rss F. induction F as [|m rs ms rss (first & last & -> & N & D) F IH]; [constructor|].
  destruct (ends _ _ D) as (es' & E & NC). rewrite concat_app in E. cbn [concat] in E. rewrite app_nil_r in E.
  destruct (collected _ _ new_request D) as (r & Hr & Hh). rewrite concat_app in Hr. cbn [concat] in Hr. rewrite app_nil_r in Hr.
  destruct last as [|x l0 _] using rev_ind; [done|]. rewrite app_assoc in E. apply app_inj_tail in E as [E ->].
  assert (NC1 : EComplete ∉ concat first) by (subst es'; rewrite elem_of_app in NC; tauto).
  cbn [concat]. rewrite <- app_assoc. rewrite feed_app in Hr. destruct (feed new_request (concat first)) as [q1|] eqn:E1; [|done].
  rewrite (serve_first first NC1 _ q1) by done. cbn [app serve]. rewrite Hr.
  assert (q_complete r = true) as -> by apply Hh. constructor; done.
Qed.
