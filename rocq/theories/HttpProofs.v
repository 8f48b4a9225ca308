From Coq Require Import NArith String Ascii Lia.
From stdpp Require Import numbers list gmap.
From Verif Require Import TrieModel TrieSpec TrieProofs HttpModel HttpSpec.

Lemma scan_app stop a b : Forall (fun c => stop c = false) a ->
  (match b with [] => True | c :: _ => stop c = true end) -> scan stop (a ++ b) = (a, b).
Proof.
  intros F H. induction F as [|c a Hc F IH]; cbn.
  - destruct b as [|c b]; [done|]. cbn. by rewrite H.
  - by rewrite Hc, IH.
Qed.
Lemma scan_split stop s a b : scan stop s = (a, b) -> s = a ++ b /\ Forall (fun c => stop c = false) a /\
  (match b with [] => True | c :: _ => stop c = true end).
Proof.
  revert a b. induction s as [|c s IH]; intros a b; cbn; [by intros [= <- <-]|].
  destruct (stop c) eqn:Ec; [by intros [= <- <-]|].
  destruct (scan stop s) as [a' b'] eqn:E. intros [= <- <-]. destruct (IH _ _ eq_refl) as (-> & F & H).
  repeat split; [by constructor|done].
Qed.
Definition params_text (ns : list (list N)) : list N := concat (map (fun n => [47; 123]%N ++ n ++ [125]%N) ns).
Lemma not_in_eqb (x : N) (s : list N) : x ∉ s -> Forall (fun c => (c =? x)%N = false) s.
Proof.
  intros H. apply Forall_forall. intros c Hc. apply N.eqb_neq. by intros ->.
Qed.
Lemma params_good ns fuel : Forall (fun n => no_zero n /\ 125%N ∉ n) ns -> length ns < fuel ->
  parseParams true fuel (params_text ns) = Ok ns.
Proof.
  intros F. revert fuel. induction F as [|n ns [_ Hn] F IH]; intros [|fuel] Hf; [cbn in *; lia|done|cbn in *; lia|].
  unfold params_text. cbn [map concat app].
  change ((n ++ [125%N]) ++ concat _) with ((n ++ [125%N]) ++ params_text ns).
  cbn [parseParams]. change (47 =? c_slash)%N with true. change (123 =? c_open)%N with true. cbn match.
  rewrite <- app_assoc. rewrite (scan_app _ n ([125%N] ++ params_text ns)); [|by apply not_in_eqb|done].
  cbn [app]. rewrite IH; [done|]. cbn in Hf. lia.
Qed.
Lemma params_length ns : length ns <= length (params_text ns).
Proof.
  unfold params_text. induction ns as [|n ns IH]; [done|]. cbn [map concat]. rewrite !app_length. cbn [length]. lia.
Qed.
Lemma parse_good p h : good_pattern p ->
  parse_route (pattern_text p) h = Ok (literal p, Route 2 (literal p) (names p) false h).
Proof.
  destruct p as [lit ns]. intros (Hz & Hb & HL & Hns). cbn [literal names] in *.
  unfold pattern_text, parse_route. cbn [literal names]. fold (params_text ns).
  assert (H0 : at_text (lit ++ params_text ns) 0 = 47%N).
  { destruct HL as [[l ->]|[-> HN]]; [done|]. destruct ns; done. }
  rewrite H0. change (47 =? c_slash)%N with true. cbn match.
  unfold make_route. rewrite H0. change (47 =? c_slash)%N with true. cbn match. rewrite drop_0.
  assert (E : scan (fun c => c =? c_open)%N (lit ++ params_text ns) =
     match ns with [] => (lit, []) | _ :: _ => (lit ++ [47%N], drop 1 (params_text ns)) end).
  { destruct ns as [|n ns].
    - cbn. rewrite app_nil_r. rewrite <- (app_nil_r lit) at 1. apply scan_app; [by apply not_in_eqb|done].
    - unfold params_text. cbn [map concat app]. rewrite cons_middle, app_assoc.
      apply scan_app; [|done]. apply Forall_app. split; [by apply not_in_eqb|]. by repeat constructor. }
  rewrite E. destruct ns as [|n ns].
  - cbn [Nat.add]. cbn [params_text map concat]. rewrite app_nil_r, drop_all, take_ge by done. done.
  - change (drop 1 (params_text (n :: ns))) with (123%N :: (n ++ [125%N]) ++ params_text ns). cbn match.
    replace (0 + length (lit ++ [47%N]) - 1) with (length lit) by (rewrite app_length; cbn [length]; lia).
    rewrite drop_app, take_app. rewrite params_good; [done|done|].
    rewrite app_length. assert (H := params_length (n :: ns)). lia.
Qed.

Lemma register_all_add gs es t : Forall2 (fun g e => exists r, parse_route (g_text g) (g_handler g) = Ok (fst e, r) /\
    snd e = set_static (allow r (g_methods g)) (g_static g)) gs es ->
  register_all t gs = match TrieModel.add_all t es with Some t' => Ok t' | None => Abort end.
Proof.
  intros F. revert t. induction F as [|g [k r'] gs es (r & E1 & E2) F IH]; intros t; [done|].
  cbn [register_all add_all fst snd] in *. unfold register. rewrite E1, <- E2.
  destruct (add t k r'); [apply IH|done].
Qed.
Lemma register_all_inv gs t t' : register_all t gs = Ok t' -> exists es,
  Forall2 (fun g e => exists r, parse_route (g_text g) (g_handler g) = Ok (fst e, r) /\
    snd e = set_static (allow r (g_methods g)) (g_static g)) gs es /\ TrieModel.add_all t es = Some t'.
Proof.
  revert t. induction gs as [|g gs IH]; intros t; cbn [register_all].
  - intros [= ->]. exists []. by split; [constructor|].
  - unfold register. destruct (parse_route (g_text g) (g_handler g)) as [[k r]| | |] eqn:E; try done.
    destruct (add t k _) as [t1|] eqn:Ea; [|done]. intros H. destruct (IH _ H) as (es & F & A).
    exists ((k, set_static (allow r (g_methods g)) (g_static g)) :: es). split; [|cbn; by rewrite Ea].
    constructor; [|done]. by exists r.
Qed.

(** The methods. *)
Lemma allow_fields r ms : r_prefix (allow r ms) = r_prefix r /\ r_params (allow r ms) = r_params r /\
  r_static (allow r ms) = r_static r /\ r_handler (allow r ms) = r_handler r.
Proof. done. Qed.
Lemma method_value_inj m m' : method_value m = method_value m' -> m = m'.
Proof. by destruct m, m'. Qed.
Lemma testbit_allow ms b i : N.testbit (foldl (fun b m => N.lor b (N.shiftl 1 (method_value m))) b ms) i =
  N.testbit b i || bool_decide (Exists (fun m => method_value m = i) ms).
Proof.
  revert b. induction ms as [|m ms IH]; intros b; cbn [foldl].
  - rewrite bool_decide_eq_false_2 by (intros X; inversion X). by rewrite orb_false_r.
  - rewrite IH, N.lor_spec, N.shiftl_1_l, N.pow2_bits_eqb, <- orb_assoc. f_equal.
    destruct (N.eqb_spec (method_value m) i) as [E|E]; cbn [orb].
    + symmetry. apply bool_decide_eq_true_2. by constructor.
    + apply bool_decide_ext. split; [by constructor|]. intros X. by inversion X.
Qed.
Lemma supported_bit r m : isMethodSupported r m = N.testbit (r_methods r) (method_value m).
Proof.
  unfold isMethodSupported. rewrite N.shiftl_1_l.
  destruct (N.testbit (r_methods r) (method_value m)) eqn:E.
  - apply negb_true_iff, N.eqb_neq. intros X. apply (f_equal (fun n => N.testbit n (method_value m))) in X.
    rewrite N.land_spec, E, N.pow2_bits_true, N.bits_0 in X. done.
  - apply negb_false_iff, N.eqb_eq. apply N.bits_inj_0. intros i. rewrite N.land_spec, N.pow2_bits_eqb.
    destruct (N.eqb_spec (method_value m) i) as [<-|]; [by rewrite E|by rewrite andb_false_r].
Qed.
Lemma supported_allow p h ms st m :
  isMethodSupported (set_static (allow (Route 2 (literal p) (names p) false h) ms) st) m = true <->
  m = Get \/ m ∈ ms.
Proof.
  rewrite supported_bit. cbn [set_static allow r_methods]. rewrite testbit_allow, orb_true_iff, bool_decide_eq_true.
  rewrite Exists_exists. split.
  - intros [H|(x & Hx & E)].
    + left. destruct m; done.
    + right. apply method_value_inj in E as <-. done.
  - intros [-> |H]; [by left|]. right. by exists m.
Qed.

(** The arguments. *)
Definition args_text (vs : list (list N)) : list N := concat (map (fun v => 47%N :: v) vs).
Lemma args_ok ns : forall p req b,
  parseRouteArgs ns p req = Some b <->
  exists vs q, length vs = length ns /\ Forall (fun v => 47%N ∉ v /\ 63%N ∉ v) vs /\
    (q = [] \/ exists q', q = 63%N :: q') /\ p = args_text vs ++ q /\
    b = foldl (fun m nv => <[nv.1 := nv.2]> m) req (zip ns vs).
Proof.
  induction ns as [|n ns IH]; intros p req b; cbn [parseRouteArgs].
  - split.
    + intros H. exists [], p. destruct p as [|c p].
      * injection H as <-. repeat split; auto.
      * destruct (N.eqb_spec c c_query) as [-> |]; [|done]. injection H as <-. repeat split; auto. right. by exists p.
    + intros (vs & q & Hl & _ & Hq & -> & ->). destruct vs; [|done]. cbn. by destruct Hq as [-> |[q' ->]].
  - split.
    + destruct p as [|c p]; [done|]. destruct (N.eqb_spec c c_slash) as [-> |]; [|done].
      destruct (scan arg_end p) as [v rest] eqn:Es. apply scan_split in Es as (-> & Fv & Hr).
      intros H. apply IH in H as (vs & q & Hl & F & Hq & -> & ->).
      exists (v :: vs), q. split; [cbn; by rewrite Hl|]. split.
      { constructor; [|done]. rewrite Forall_forall in Fv.
        split; intros X; apply Fv in X; by vm_compute in X. }
      split; [done|]. split; [|done]. unfold args_text. cbn [map concat app]. f_equal. by rewrite app_assoc.
    + intros (vs & q & Hl & F & Hq & -> & ->). destruct vs as [|v vs]; [done|].
      apply Forall_cons in F as [[H1 H2] F]. unfold args_text. cbn [map concat app]. fold (args_text vs).
      change (47 =? c_slash)%N with true. cbn match. rewrite <- app_assoc. rewrite (scan_app arg_end v (args_text vs ++ q)).
      * apply IH. exists vs, q. cbn in Hl. repeat split; auto.
      * apply Forall_forall. intros c Hc. unfold arg_end.
        destruct (N.eqb_spec c c_slash) as [-> |]; [done|]. destruct (N.eqb_spec c c_query) as [-> |]; done.
      * destruct vs as [|w vs]; cbn; [|done]. by destruct Hq as [-> |[q' ->]].
Qed.
Lemma fold_bound ns vs : foldl (fun m nv => <[nv.1 := nv.2]> m) (∅ : gmap (list N) (list N)) (zip ns vs) = bound ns vs.
Proof.
  unfold bound. generalize (zip ns vs). intros l. induction l as [|[n v] l IH] using rev_ind; [done|].
  rewrite foldl_app, reverse_snoc. cbn. by rewrite IH.
Qed.

(** The lookup. *)
Lemma find_prefix_ok (ks : list (list N * route)) t : NoDup (ks.*1) -> add_all new_node ks = Some t -> forall s,
  match find_prefix t s with
  | Some (n, r) => exists k rest, k <> [] /\ (k, r) ∈ ks /\ s = k ++ rest /\ n = length k /\
       forall k' r', (k', r') ∈ ks -> is_prefix k' s -> length k' <= length k
  | None => forall k r, (k, r) ∈ ks -> k <> [] -> ~ is_prefix k s
  end.
Proof.
  intros ND E s.
  destruct (proj2 (add_all_path ks new_node)) as (root & E' & P).
  { split; [done|]. intros k _. apply at_new. }
  assert (root = t) by congruence. subst root.
  assert (P' : forall k v, at_path t k = Some v <-> (k, v) ∈ ks).
  { intros k v. rewrite P, at_new. split; [by intros [|]|by right]. } clear P.
  unfold find_prefix. destruct (find_loop_ok s t 0 None) as [(m & v & Ef & Hm & Q & R)|[Ef R]]; rewrite Ef; cbn [Nat.add].
  - exists (take m s), (drop m s). assert (Hl : length (take m s) = m) by (rewrite take_length; lia).
    split; [intros X; rewrite X in Hl; cbn in Hl; lia|]. split; [by apply P'|].
    split; [by rewrite take_drop|]. split; [done|]. intros k' r' Hk [rest' ->].
    rewrite Hl. destruct (decide (length k' <= m)); [done|]. exfalso.
    specialize (R (length k')). rewrite take_app in R. apply P' in Hk. rewrite R in Hk; [done|]. rewrite app_length. lia.
  - intros k r Hk Hne [rest ->]. specialize (R (length k)). rewrite take_app in R. apply P' in Hk.
    rewrite R in Hk; [done|]. rewrite app_length. destruct k; [done|cbn; lia].
Qed.

(** Main theorem. *)
Definition key_of (e : entry) : list N * route :=
  (literal (e_pattern e), set_static (allow (Route 2 (literal (e_pattern e)) (names (e_pattern e)) false (e_handler e))
     (e_methods e)) (e_static e)).
Lemma regs_keys es : Forall (fun e => good_pattern (e_pattern e)) es ->
  Forall2 (fun g e => exists r, parse_route (g_text g) (g_handler g) = Ok (fst e, r) /\
    snd e = set_static (allow r (g_methods g)) (g_static g)) (map reg_of es) (map key_of es).
Proof.
  intros F. induction F as [|e es He F IH]; cbn [map]; constructor; [|done].
  eexists. split; [by apply parse_good|done].
Qed.
Notation keys es := (map (fun e => literal (e_pattern e)) es).
Lemma keys_fst es : (map key_of es).*1 = keys es.
Proof. induction es as [|e es IH]; [done|]. cbn. by rewrite IH. Qed.
Lemma register_exact es : Forall (fun e => good_pattern (e_pattern e)) es ->
  (exists t, register_all new_node (map reg_of es) = Ok t) <-> NoDup (keys es).
Proof.
  intros F. rewrite (register_all_add _ _ _ (regs_keys es F)). rewrite <- keys_fst. split.
  - intros [t H]. destruct (add_all new_node (map key_of es)) as [t'|] eqn:E; [|done].
    apply add_all_distinct. by exists t'.
  - intros ND. destruct (find_ok _ ND) as (t & E & _). rewrite E. by exists t.
Qed.
Lemma dispatch_exact es t : Forall (fun e => good_pattern (e_pattern e)) es ->
  register_all new_node (map reg_of es) = Ok t -> forall m path,
  (forall h b u, handleConnection t m path = Call h b u <->
     exists e, selected es path e /\ h = e_handler e /\ called e m path b u) /\
  ((forall h b u, handleConnection t m path <> Call h b u) -> handleConnection t m path = Status 404).
Proof.
  intros F R m path. assert (ND : NoDup (keys es)) by (apply register_exact; [done|by exists t]).
  rewrite (register_all_add _ _ _ (regs_keys es F)) in R.
  destruct (add_all new_node (map key_of es)) as [t'|] eqn:E; [|done]. injection R as ->.
  assert (ND' : NoDup ((map key_of es).*1)) by by rewrite keys_fst.
  split; [|intros H; unfold handleConnection in *; destruct (find_route t m path); [by edestruct H|done]].
  intros h b u. assert (X := find_prefix_ok _ t ND' E path).
  unfold handleConnection, find_route. destruct (find_prefix t path) as [[n r]|].
  - destruct X as (k & rest & Hk & Hin & -> & -> & Hmax).
    apply elem_of_list_fmap in Hin as (e & Ee & He). injection Ee as -> ->.
    set (lit := literal (e_pattern e)) in *.
    assert (Hsel : selected es (lit ++ rest) e).
    { split; [done|]. split; [done|]. split; [by exists rest|]. intros e' He' Hp.
      apply (Hmax _ (key_of e').2); [|done]. apply elem_of_list_fmap. by exists e'. }
    assert (Huniq : forall e', selected es (lit ++ rest) e' -> e' = e).
    { intros e' (He' & Hne & [rest' Hr'] & Hmax').
      assert (Hl : length (literal (e_pattern e')) = length lit).
      { apply Nat.le_antisymm; [apply (Hmax _ (key_of e').2); [apply elem_of_list_fmap; by exists e'|by exists rest']|].
        apply Hmax'; [done|]. by exists rest. }
      apply app_inj_1 in Hr' as [Hr' _]; [|done].
      apply elem_of_list_lookup in He as [i Hi]. apply elem_of_list_lookup in He' as [j Hj].
      assert (i = j) as ->; [|congruence]. eapply (NoDup_lookup _ i j lit ND).
      - rewrite list_lookup_fmap, Hi. done.
      - rewrite list_lookup_fmap, Hj. cbn. by rewrite Hr'. }
    rewrite drop_app.
    destruct (isMethodSupported _ m) eqn:Em.
    + apply supported_allow in Em. cbn [set_static allow r_static r_params r_handler].
      destruct (e_static e) eqn:Es.
      * split.
        { intros [= <- <- <-]. exists e. split; [done|]. split; [done|]. unfold called. rewrite Es. split; [done|].
          split; [done|]. by exists rest. }
        { intros (e' & S & -> & C). apply Huniq in S as ->. destruct C as [_ C]. rewrite Es in C.
          destruct C as (-> & rest' & -> & Hr). apply app_inv_head in Hr as ->. done. }
      * destruct (parseRouteArgs (names (e_pattern e)) rest ∅) as [b'|] eqn:Ea.
        { apply args_ok in Ea as (vs & q & Hl & Fv & Hq & -> & ->). rewrite fold_bound.
          split.
          - intros [= <- <- <-]. exists e. split; [done|]. split; [done|]. unfold called. rewrite Es. split; [done|].
            split; [done|]. exists vs. split; [|done]. split; [done|]. split; [done|]. by exists q.
          - intros (e' & S & -> & C). apply Huniq in S as ->. destruct C as [_ C]. rewrite Es in C.
            destruct C as (-> & vs' & (Hl' & Fv' & q' & Hq' & Hp') & ->).
            apply app_inv_head in Hp'.
            assert (A : parseRouteArgs (names (e_pattern e)) (args_text vs ++ q) ∅ = Some (bound (names (e_pattern e)) vs')).
            { apply args_ok. exists vs', q'. rewrite fold_bound. done. }
            assert (B : parseRouteArgs (names (e_pattern e)) (args_text vs ++ q) ∅ = Some (bound (names (e_pattern e)) vs)).
            { apply args_ok. exists vs, q. rewrite fold_bound. done. }
            congruence. }
        { split; [done|]. intros (e' & S & -> & C). apply Huniq in S as ->. destruct C as [_ C]. rewrite Es in C.
          destruct C as (-> & vs' & (Hl' & Fv' & q' & Hq' & Hp') & ->). apply app_inv_head in Hp'.
          assert (A : parseRouteArgs (names (e_pattern e)) rest ∅ = Some (bound (names (e_pattern e)) vs')).
          { apply args_ok. exists vs', q'. rewrite fold_bound. done. }
          congruence. }
    + split; [done|]. intros (e' & S & -> & C). apply Huniq in S as ->. destruct C as [C _].
      apply (supported_allow (e_pattern e) (e_handler e) (e_methods e) (e_static e)) in C. fold lit in C. congruence.
  - split; [done|]. intros (e & (He & Hne & Hp & _) & _). exfalso. eapply X; [|done|done].
    apply elem_of_list_fmap. exists e. split; [|done]. done.
Qed.

(** Method names. *)
Lemma upper_case a b : upper a = upper b <-> a = b \/ (97 <= a <= 122 /\ b = a - 32)%N \/ (97 <= b <= 122 /\ a = b - 32)%N.
Proof.
  unfold upper. destruct ((97 <=? a) && (a <=? 122))%N eqn:Ea, ((97 <=? b) && (b <=? 122))%N eqn:Eb;
    rewrite ?andb_true_iff, ?andb_false_iff, ?N.leb_le, ?N.leb_gt in *; lia.
Qed.
Lemma equalsCase_ok a b : equalsCase a b = true <-> case_equal a b.
Proof.
  unfold equalsCase, case_equal. rewrite andb_true_iff, Nat.eqb_eq, bool_decide_eq_true. split.
  - intros [Hl H]. apply Forall2_same_length_lookup. split; [done|]. intros i x y Hx Hy. apply upper_case.
    apply (f_equal (lookup i)) in H. change (map upper) with (fmap (M:=list) upper) in H.
    rewrite !list_lookup_fmap, Hx, Hy in H. by injection H.
  - intros F. split; [by eapply Forall2_length|]. induction F as [|x y a b H F IH]; [done|]. cbn.
    rewrite IH. f_equal. by apply upper_case.
Qed.

Lemma name_upper m : m <> Unknown -> map upper (methodName m) = methodName m.
Proof. by destruct m. Qed.
Definition guess (s : text) : option (method * text) :=
  let x := upper (at_text s 0) in
    if (x =? 68)%N then Some (Delete, codes "DELETE")
    else if (x =? 71)%N then Some (Get, codes "GET")
    else if (x =? 72)%N then Some (Head, codes "HEAD")
    else if (x =? 80)%N then
      if (upper (at_text s 1) =? 79)%N then Some (Post, codes "POST") else Some (Put, codes "PUT")
    else if (x =? 67)%N then Some (Connect, codes "CONNECT")
    else if (x =? 79)%N then Some (Options, codes "OPTIONS")
    else if (x =? 84)%N then Some (Trace, codes "TRACE")
    else None.
Lemma guess_name s m str : guess s = Some (m, str) -> str = methodName m /\ m <> Unknown.
Proof. unfold guess. intros H. repeat case_match; try done; by injection H as <- <-. Qed.
Lemma guess_ok s m : m <> Unknown -> case_equal (take (length (methodName m)) s) (methodName m) ->
  guess s = Some (m, methodName m).
Proof.
  intros U H. apply equalsCase_ok in H. unfold equalsCase in H.
  rewrite andb_true_iff, bool_decide_eq_true, name_upper in H by done. destruct H as [_ H].
  destruct m; try done; destruct s as [|c0 [|c1 s]]; try discriminate H; cbn in H; injection H as H0 H1 _;
    unfold guess; cbn [at_text nth]; rewrite H0, ?H1; done.
Qed.
Lemma method_ok s m : m <> Unknown ->
  (methodFromString s = (m, length (methodName m)) <-> case_equal (take (length (methodName m)) s) (methodName m)).
Proof.
  intros U. unfold methodFromString. fold (guess s). cbn zeta. fold (guess s). split.
  - destruct (guess s) as [[m' str]|] eqn:G; [|intros [= <-]; done].
    apply guess_name in G as [-> U']. destruct (length s <? _); [intros [= <- _]; done|].
    destruct (equalsCase _ _) eqn:E; [|intros [= <- _]; done]. intros [= <- _]. by apply equalsCase_ok.
  - intros H. rewrite (guess_ok s m U H). assert (L := Forall2_length _ _ _ H). rewrite take_length in L.
    destruct (Nat.ltb_spec (length s) (length (methodName m))); [lia|].
    apply equalsCase_ok in H. by rewrite H.
Qed.
Lemma method_result s : (exists m, m <> Unknown /\ methodFromString s = (m, length (methodName m))) \/ methodFromString s = (Unknown, 0).
Proof.
  unfold methodFromString. cbn zeta. fold (guess s).
  destruct (guess s) as [[m str]|] eqn:G; [|by right]. apply guess_name in G as [-> U].
  destruct (length s <? _); [by right|]. destruct (equalsCase _ _); [|by right]. left. by exists m.
Qed.

(** Routes whose text begins with a method. *)
Lemma at_text_0 s c : c <> 0%N -> at_text s 0 = c -> exists s', s = c :: s'.
Proof. intros Hc. destruct s as [|d s]; cbn; intros E; [congruence|]. exists s. by rewrite E. Qed.
Lemma scan_nonempty stop c s a b : stop c = false -> scan stop (c :: s) = (a, b) -> 1 <= length a.
Proof.
  cbn. intros ->. destruct (scan stop s). intros [= <- _]. cbn. lia.
Qed.
Lemma make_route_key methods path idx fn k r : make_route methods path idx fn = Ok (k, r) ->
  r_handler r = fn /\ exists i, idx <= i /\ k = take i path.
Proof.
  unfold make_route. destruct (N.eqb_spec (at_text path idx) c_slash) as [E|]; [|done].
  destruct (scan _ (drop idx path)) as [pre rest] eqn:S.
  destruct (parseParams _ _ _); try done. intros [= <- <-]. split; [done|].
  eexists. split; [|done]. destruct rest; [lia|].
  assert (1 <= length pre); [|lia].
  destruct (drop idx path) as [|c s] eqn:D.
  { cbn in S. by injection S as <-. }
  apply (scan_nonempty _ _ _ _ _) in S; [done|].
  assert (c = at_text path idx) as ->; [|by rewrite E].
  clear -D. unfold at_text. revert path D. induction idx as [|idx IH]; intros [|d path] D; try done.
  - by injection D as ->.
  - cbn. by apply IH.
Qed.
Lemma route_key path fn k r : parse_route path fn = Ok (k, r) ->
  r_handler r = fn /\ (forall c rest, k = c :: rest -> exists path', path = c :: path').
Proof.
  unfold parse_route. destruct (N.eqb_spec (at_text path 0) c_slash) as [E|].
  - intros H. apply make_route_key in H as (Hh & i & _ & ->). split; [done|]. intros c rest X.
    destruct path as [|d path]; [by destruct i|]. destruct i; [done|]. cbn in X. injection X as -> _. by exists path.
  - destruct (methodFromString path) as [m idx]. intros H.
    assert (H' : exists ms i, make_route ms path i fn = Ok (k, r)) by (destruct m; [eauto..|done]).
    destruct H' as (ms & i & H'). apply make_route_key in H' as (Hh & j & _ & ->). split; [done|]. intros c rest X.
    destruct path as [|d path]; [by destruct j|]. destruct j; [done|]. cbn in X. injection X as -> _. by exists path.
Qed.
Lemma only_slash_routes gs t m path h b u : register_all new_node gs = Ok t ->
  handleConnection t m (47%N :: path) = Call h b u ->
  exists g rest, g ∈ gs /\ g_handler g = h /\ g_text g = 47%N :: rest.
Proof.
  intros R C. apply register_all_inv in R as (es & F & A).
  assert (ND : NoDup (es.*1)) by (apply add_all_distinct; by exists t).
  assert (X := find_prefix_ok _ t ND A (47%N :: path)). unfold handleConnection, find_route in C.
  destruct (find_prefix t (47%N :: path)) as [[n r]|]; [|done].
  destruct X as (k & rest & Hk & Hin & Hs & _ & _).
  assert (Hh : r_handler r = h) by (repeat case_match; congruence).
  apply elem_of_list_lookup in Hin as [i Hi]. destruct (Forall2_lookup_r _ _ _ _ _ F Hi) as (g & Hg & r0 & P & E).
  cbn [fst snd] in *. apply route_key in P as [P1 P2]. destruct k as [|c k]; [done|]. injection Hs as <- _.
  destruct (P2 _ _ eq_refl) as [path' Ep]. exists g, path'. split; [by eapply elem_of_list_lookup_2|].
  split; [|done]. rewrite <- Hh, E. done.
Qed.
