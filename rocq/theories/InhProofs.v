From Coq Require Import ZArith Lia.
From stdpp Require Import numbers list.
From Verif Require Import InhModel InhSpec.

(** ** Fields *)
Lemma inherit_cons c up : inherit (c :: up) = inherit up ++ fields_of (c :: up).
Proof. reflexivity. Qed.
Lemma inherit_length ch : length (declared ch) <= length (inherit ch).
Proof. induction ch as [|c up IH]; [done|]. cbn. unfold own. rewrite !app_length, !map_length. lia. Qed.
Lemma declared_nil ch : declared ch = [] <-> Forall (fun c => c_fields c = []) ch.
Proof.
  induction ch as [|c up IH]; [split; [constructor|done]|]. cbn [declared]. rewrite Forall_cons, <- IH. split.
  - intros E. apply app_eq_nil in E as [-> E]. by apply map_eq_nil in E.
  - intros [E ->]. by rewrite E.
Qed.
Lemma inherit_nil ch : Forall (fun c => c_fields c = []) ch -> inherit ch = [].
Proof. induction 1 as [|c up E _ IH]; [done|]. cbn. unfold own. by rewrite IH, E. Qed.
Lemma fields_exact ch : fields_of ch = declared ch <-> Forall (fun c => c_fields c = []) (drop 2 ch).
Proof.
  destruct ch as [|c [|b r]]; [by split; [constructor|]..|]. cbn [drop fields_of]. split.
  - intros E. apply (f_equal length) in E. cbn in E. unfold own in E. rewrite !app_length, !map_length in E.
    pose proof (inherit_length r). apply declared_nil, nil_length_inv. rewrite drop_0. lia.
  - intros H. rewrite drop_0 in H. cbn [declared inherit]. rewrite (inherit_nil r H), (proj2 (declared_nil r) H). reflexivity.
Qed.
Lemma is_virtual_true c : is_virtual c = true <-> marks c.
Proof.
  unfold is_virtual, marks. rewrite existsb_exists.
  split; intros (m & I & V); exists m; (split; [|done]); by apply elem_of_list_In.
Qed.
Lemma has_table_true ch : has_table ch = true <-> near_mark ch.
Proof.
  unfold near_mark. destruct ch as [|c up]; cbn [has_table take].
  - split; [done|by intros (? & ?%elem_of_nil & _)].
  - rewrite orb_true_iff, is_virtual_true. destruct up as [|b r]; cbn [head_virtual].
    + split; [intros [H|H]; [exists c; by split; [left|]|done]|].
      intros (k & [->|I%elem_of_nil]%elem_of_cons & H); [by left|done].
    + rewrite is_virtual_true. split.
      * intros [H|H]; [exists c|exists b]; (split; [|done]); [left|right; left].
      * intros (k & [->|[->|I]%elem_of_cons]%elem_of_cons & H); [by left|by right|by apply elem_of_nil in I].
Qed.
Lemma table_agree ch ch' : (near_mark ch <-> near_mark ch') <-> has_table ch = has_table ch'.
Proof. rewrite <- !has_table_true. destruct (has_table ch), (has_table ch'); split; intros H; try done; destruct H as [H1 H2]; first [by apply H1|by apply H2|symmetry; by apply H1|symmetry; by apply H2]. Qed.
Lemma declared_app l s : declared s `prefix_of` declared (l ++ s).
Proof. induction l as [|c l IH]; [done|]. cbn. by apply prefix_app_r. Qed.
Lemma map_data_prefix (a b : list (nat * field)) : a `prefix_of` b -> map data a `prefix_of` map data b.
Proof. intros [k ->]. rewrite map_app. by eexists. Qed.
Lemma layout_step c up : Forall (fun c => c_fields c = []) (drop 1 up) ->
  (layout up `prefix_of` layout (c :: up) <->
   has_table up = has_table (c :: up) \/ (has_table up = false /\ declared up = [])).
Proof.
  intros H. assert (fields_of (c :: up) = declared (c :: up)) as E by by apply fields_exact.
  assert (fields_of up = declared up) as E'.
  { apply fields_exact. destruct up as [|b [|a r]]; try by constructor. cbn in H |- *. by inversion H. }
  unfold layout. rewrite E, E'.
  assert (map data (declared up) `prefix_of` map data (declared (c :: up))) as P.
  { apply map_data_prefix. apply (declared_app [c]). }
  destruct (has_table up) eqn:T, (has_table (c :: up)) eqn:T'; cbn [app]; split; intros K; try (by left).
  - by apply prefix_cons.
  - destruct K as [k K]. exfalso. destruct (declared (c :: up)); discriminate.
  - destruct K as [|[? _]]; discriminate.
  - right. split; [done|]. destruct K as [k K]. destruct (declared up); [done|discriminate].
  - destruct K as [|[_ ->]]; [discriminate|]. apply prefix_nil.
  - done.
Qed.
Lemma layout_all l : forall s, Forall (fun c => c_fields c = []) (drop 2 (l ++ s)) -> steady (l ++ s) ->
  s <> [] -> layout s `prefix_of` layout (l ++ s).
Proof.
  induction l as [|c l IH]; intros s H St N; [done|]. cbn [app] in *. destruct St as [T St].
  assert (l ++ s <> []) as N' by (destruct l; [done|discriminate]).
  etrans; [apply IH; [|done..]|].
  - destruct (l ++ s) as [|b [|a r]]; try by constructor. cbn in H |- *. by inversion H.
  - apply layout_step; [by destruct (l ++ s)|]. left. by apply table_agree, T.
Qed.

(** ** Initializers *)
Definition key (a : nat * nat * Z) : nat * nat := a.1.
Lemma value_none l c f : (c, f) ∉ map key l -> value l c f = 0%Z.
Proof.
  induction l as [|[[c' f'] z] l IH]; [done|]. cbn [map value key fst]. intros N.
  apply not_elem_of_cons in N as [N1 N2]. destruct (existsb _ _); [by apply IH|].
  destruct (Nat.eqb_spec c' c) as [->|]; cbn; [|done]. destruct (Nat.eqb_spec f' f) as [->|]; [|done]. done.
Qed.
Lemma value_some l c f z : NoDup (map key l) -> (c, f, z) ∈ l -> value l c f = z.
Proof.
  induction l as [|[[c' f'] z'] l IH]; [by rewrite elem_of_nil|]. cbn [map value key fst]. rewrite NoDup_cons.
  intros [N D] I. apply elem_of_cons in I as [[= <- <- <-]|I].
  - destruct (existsb _ l) eqn:E.
    + apply existsb_exists in E as ([[a b] w] & Ha & Hb). cbn in Hb. apply andb_prop in Hb as [H1 H2].
      apply Nat.eqb_eq in H1 as ->. apply Nat.eqb_eq in H2 as ->. destruct N. apply elem_of_list_fmap.
      exists (c, f, w). split; [done|]. by apply elem_of_list_In.
    + by rewrite !Nat.eqb_refl.
  - replace (existsb _ l) with true; [by apply IH|]. symmetry. apply existsb_exists. exists (c, f, z).
    split; [by apply elem_of_list_In|]. cbn. by rewrite !Nat.eqb_refl.
Qed.
Lemma value_app l l' c f : value (l ++ l') c f = if decide ((c, f) ∈ map key l') then value l' c f else value l c f.
Proof.
  induction l as [|[[c' f'] z'] l IH].
  - cbn. destruct (decide _) as [|n]; [done|]. by apply value_none.
  - cbn [app value]. rewrite IH, existsb_app. destruct (decide _) as [i|n].
    + replace (existsb _ l') with true; [by rewrite orb_true_r|]. symmetry. apply existsb_exists.
      apply elem_of_list_fmap in i as ([[a b] w] & [= -> ->] & Hi). exists (a, b, w).
      split; [by apply elem_of_list_In|]. cbn. by rewrite !Nat.eqb_refl.
    + replace (existsb _ l') with false; [by rewrite orb_false_r|]. symmetry. apply not_true_iff_false.
      intros E. apply n. apply existsb_exists in E as ([[a b] w] & Ha & Hb). cbn in Hb. apply andb_prop in Hb as [H1 H2].
      apply Nat.eqb_eq in H1 as ->. apply Nat.eqb_eq in H2 as ->. apply elem_of_list_fmap.
      exists (c, f, w). split; [done|]. by apply elem_of_list_In.
Qed.
Lemma own_defaults_in c k f z : (k, f, z) ∈ own_defaults c <-> c_id c = k /\ Field f (Some z) ∈ c_fields c.
Proof.
  unfold own_defaults. rewrite elem_of_list_omap. split.
  - intros ([g [w|]] & Hg & E); [|discriminate]. by injection E as <- <- <-.
  - intros [<- H]. by exists (Field f (Some z)).
Qed.
Lemma own_defaults_nodup c : NoDup (map f_name (c_fields c)) -> NoDup (map key (own_defaults c)).
Proof.
  unfold own_defaults. induction (c_fields c) as [|[g [w|]] l IH]; [constructor| |]; cbn; rewrite NoDup_cons; intros [N D].
  - constructor; [|by apply IH]. intros I. apply elem_of_list_fmap in I as ([[a b] w'] & [= <- <-] & I).
    apply elem_of_list_omap in I as ([g' [w''|]] & Hg & E); [|discriminate]. injection E as -> _. apply N.
    apply elem_of_list_fmap. by exists (Field g (Some w'')).
  - by apply IH.
Qed.
Lemma inits_class ch c f z : (c, f, z) ∈ inits ch -> c ∈ map c_id ch.
Proof.
  induction ch as [|k up IH]; [by rewrite elem_of_nil|]. cbn [inits]. destruct (has_init _); [|by rewrite elem_of_nil].
  intros [I|I]%elem_of_app.
  - right. by apply IH.
  - apply own_defaults_in in I as [<- _]. by left.
Qed.
Lemma default_cons k up c f z : default_of (k :: up) c f z <->
  (c_id k = c /\ Field f (Some z) ∈ c_fields k) \/ default_of up c f z.
Proof.
  split.
  - intros (k' & [->|I]%elem_of_cons & H); [by left|right; by exists k'].
  - intros [[H1 H2]|(k' & I & H)]; [exists k|exists k']; (split; [|done]); [left|by right].
Qed.
Lemma default_class ch c f z : default_of ch c f z -> c ∈ map c_id ch.
Proof. intros (k & I & <- & _). apply elem_of_list_fmap. by exists k. Qed.
Lemma defaults_exact ch : well_formed ch ->
  ((forall c f z, default_of ch c f z -> value (inits ch) c f = z) <->
   (forall l s, ch = l ++ s -> has_init s = false -> forall c f z, default_of s c f z -> z = 0%Z)).
Proof.
  induction ch as [|k up IH]; intros [Hn Hf].
  - split; [|by intros _ c f z (? & I%elem_of_nil & _)]. intros _ l s E _ c f z (? & I & _). destruct l; [|discriminate].
    cbn in E. subst s. by apply elem_of_nil in I.
  - cbn in Hn. apply NoDup_cons in Hn as [Nk Hn]. apply Forall_cons in Hf as [(_ & Hk & _) Hf].
    specialize (IH (conj Hn Hf)). cbn [inits]. destruct (has_init (k :: up)) eqn:Hi.
    + assert (forall c f z, default_of up c f z -> value (inits up ++ own_defaults k) c f = value (inits up) c f) as U.
      { intros c f z D. rewrite value_app. destruct (decide _) as [i|]; [|done]. exfalso.
        apply elem_of_list_fmap in i as ([[a b] w] & [= <- <-] & i). apply own_defaults_in in i as [<- _].
        by apply default_class in D. }
      split.
      * intros H l s E Hs. destruct l as [|k' l]; [cbn in E; subst s; congruence|]. injection E as <- E.
        revert Hs. revert l s E. apply IH. intros c f z D. rewrite <- (U c f z) by done. apply H, default_cons. by right.
      * intros H c f z [[<- D]|D]%default_cons.
        -- assert ((c_id k, f, z) ∈ own_defaults k) as I by by apply own_defaults_in.
           rewrite value_app, decide_True; [by apply value_some; [apply own_defaults_nodup|]|].
           apply elem_of_list_fmap. by exists (c_id k, f, z).
        -- rewrite (U c f z) by done. revert D. apply IH. intros l s -> Hs. by apply (H (k :: l) s).
    + cbn [value]. split.
      * intros H l s E Hs c f z (q & I & D). symmetry. apply (H c f). exists q. split; [|done]. rewrite E. apply elem_of_app. by right.
      * intros H c f z D. symmetry. by apply (H [] (k :: up) eq_refl Hi c f).
Qed.

(** ** Tables *)
Lemma find_some c n m : find_method c n = Some m -> m ∈ c_methods c /\ m_name m = n.
Proof.
  unfold find_method. intros E. apply find_some in E as [I E]. split; [by apply elem_of_list_In|]. by apply Nat.eqb_eq.
Qed.
Lemma find_none c n : find_method c n = None <-> n ∉ map m_name (c_methods c).
Proof.
  unfold find_method. split.
  - intros E I. apply elem_of_list_fmap in I as (m & -> & I). apply elem_of_list_In in I.
    pose proof (List.find_none _ _ E m I) as K. cbn in K. by rewrite Nat.eqb_refl in K.
  - intros N. destruct (find _ _) as [m|] eqn:E; [|done]. apply List.find_some in E as [I E]. destruct N.
    apply Nat.eqb_eq in E as <-. apply elem_of_list_fmap. exists m. split; [done|]. by apply elem_of_list_In.
Qed.
Lemma most_derived_cons c up n c' m' : most_derived (c :: up) n c' m' <->
  (c' = c /\ m' ∈ c_methods c /\ m_name m' = n) \/ (n ∉ map m_name (c_methods c) /\ most_derived up n c' m').
Proof.
  split.
  - intros ([|k l] & r & E & I & N & F); injection E as -> E; [by left|]. right. apply Forall_cons in F as [F1 F2].
    split; [done|]. exists l, r. done.
  - intros [(-> & I & N)|(N & l & r & -> & I & Nm & F)]; [by exists [], up|]. exists (c :: l), r.
    repeat split; try done. by constructor.
Qed.
Lemma method_inj c m m' : NoDup (map m_name (c_methods c)) -> m ∈ c_methods c -> m' ∈ c_methods c ->
  m_name m = m_name m' -> m = m'.
Proof.
  induction (c_methods c) as [|a l IH]; [by rewrite elem_of_nil|]. cbn. rewrite NoDup_cons. intros [N D].
  intros [->|I]%elem_of_cons [->|I']%elem_of_cons E; try done.
  - destruct N. rewrite E. apply elem_of_list_fmap. by exists m'.
  - destruct N. rewrite <- E. apply elem_of_list_fmap. by exists m.
  - by apply IH.
Qed.
Lemma most_derived_det ch n c m c' m' : well_formed ch -> most_derived ch n c m -> most_derived ch n c' m' ->
  c = c' /\ m = m'.
Proof.
  induction ch as [|k up IH]; intros [Hn Hf].
  - intros (l & r & E & _). by destruct l.
  - cbn in Hn. apply NoDup_cons in Hn as [Nk Hn]. apply Forall_cons in Hf as [(Hm & _) Hf].
    intros [(-> & I & N)|(N & D)]%most_derived_cons [(-> & I' & N')|(N' & D')]%most_derived_cons.
    + split; [done|]. by apply (method_inj k); [..|rewrite N, N'].
    + destruct N'. rewrite <- N. apply elem_of_list_fmap. by exists m.
    + destruct N. rewrite <- N'. apply elem_of_list_fmap. by exists m'.
    + by apply IH.
Qed.
Lemma override_name c e : (override c e).1 = e.1.
Proof. unfold override. by destruct (find_method c e.1). Qed.
Lemma override_names c t : (map (override c) t).*1 = t.*1.
Proof. induction t as [|e t IH]; [done|]. cbn. by rewrite override_name, IH. Qed.
Lemma table_names_step c up : (table up).*1 `prefix_of` (table (c :: up)).*1.
Proof. cbn [table]. rewrite fmap_app, override_names. by eexists. Qed.
Lemma table_names l s : (table s).*1 `prefix_of` (table (l ++ s)).*1.
Proof. induction l as [|c l IH]; [done|]. etrans; [apply IH|]. apply (table_names_step c (l ++ s)). Qed.
Lemma added_in c t n s : (n, s) ∈ added c t <->
  exists m, m ∈ c_methods c /\ m_virtual m = true /\ m_name m = n /\ n ∉ t.*1 /\ s = if m_body m then Fun (c_id c) else Null.
Proof.
  unfold added. split.
  - intros I. apply elem_of_list_fmap in I as (m & [= -> ->] & I). apply elem_of_list_filter in I as [[V N] I]. by exists m.
  - intros (m & I & V & <- & N & ->). apply elem_of_list_fmap. exists m. split; [done|]. by apply elem_of_list_filter.
Qed.
Lemma table_has ch n : n ∈ (table ch).*1 <-> exists c m, c ∈ ch /\ m ∈ c_methods c /\ m_virtual m = true /\ m_name m = n.
Proof.
  induction ch as [|c up IH].
  - split; [by intros ?%elem_of_nil|by intros (? & ? & ?%elem_of_nil & _)].
  - cbn [table]. rewrite fmap_app, override_names, elem_of_app, IH. split.
    + intros [(k & m & I & H)|I]; [exists k, m; split; [by right|done]|]. destruct (is_virtual c); [|by apply elem_of_nil in I].
      apply elem_of_list_fmap in I as ([n' s] & -> & I). apply added_in in I as (m & I & V & N & _). exists c, m. by split; [left|].
    + intros (k & m & [->|I]%elem_of_cons & J & V & N); [|left; by exists k, m].
      destruct (decide (n ∈ (table up).*1)) as [i|i]; [left; by apply IH|]. right.
      rewrite (proj2 (is_virtual_true c)) by by exists m. apply elem_of_list_fmap.
      exists (n, if m_body m then Fun (c_id c) else Null). split; [done|]. apply added_in. exists m.
      rewrite override_names. done.
Qed.
Definition slot_ok (s : slot) (c : cls) (m : method) : Prop :=
  if m_body m then s = Fun (c_id c) else s = Null \/ s = Missing.
Lemma table_slot ch n s : (n, s) ∈ table ch -> exists c m, most_derived ch n c m /\ slot_ok s c m.
Proof.
  revert n s. induction ch as [|c up IH]; intros n s; [by intros ?%elem_of_nil|]. cbn [table].
  intros [I|I]%elem_of_app.
  - apply elem_of_list_fmap in I as ([n' s'] & E & I). unfold override in E. cbn in E.
    destruct (find_method c n') as [m|] eqn:F.
    + injection E as -> ->. apply find_some in F as [J <-]. exists c, m. split; [apply most_derived_cons; by left|].
      unfold slot_ok, fun_ref. destruct (m_body m); [done|]. by right.
    + injection E as -> ->. apply find_none in F. destruct (IH _ _ I) as (k & m & D & O). exists k, m.
      split; [|done]. apply most_derived_cons. by right.
  - destruct (is_virtual c); [|by apply elem_of_nil in I]. apply added_in in I as (m & J & V & <- & _ & ->).
    exists c, m. split; [apply most_derived_cons; by left|]. unfold slot_ok. destruct (m_body m); [done|]. by left.
Qed.
Lemma object_table_eq ch : well_formed ch -> object_table ch = if has_table ch then Some (table ch) else None.
Proof.
  destruct ch as [|c up]; [done|]. intros [_ Hf]. apply Forall_cons in Hf as [(_ & _ & Hb) _]. cbn [object_table has_table].
  destruct (is_virtual c) eqn:V; [done|]. cbn [orb]. destruct (head_virtual up); [|done]. f_equal. cbn [table].
  rewrite V, app_nil_r. unfold rebuild. apply map_ext. intros [n s]. unfold override. cbn.
  destruct (find_method c n) as [m|] eqn:F; [|done]. apply find_some in F as [J _]. unfold fun_ref.
  rewrite Forall_forall in Hb. rewrite (Hb m J); [done|]. destruct (m_virtual m) eqn:W; [|done].
  rewrite (proj2 (is_virtual_true c)) in V; [discriminate|by exists m].
Qed.
Lemma index_some n ns : n ∈ ns -> exists i, index n ns = Some i /\ ns !! i = Some n.
Proof.
  induction ns as [|a ns IH]; [by intros ?%elem_of_nil|]. cbn. destruct (Nat.eqb_spec a n) as [->|N]; [by exists 0|].
  intros [->|I]%elem_of_cons; [done|]. destruct (IH I) as (i & -> & E). by exists (S i).
Qed.
Lemma resolve_spec s n s' c m : resolve s n = Some (s', c, m) ->
  exists l r, s = l ++ s' /\ s' = c :: r /\ m ∈ c_methods c /\ m_name m = n /\ most_derived s n c m.
Proof.
  induction s as [|k up IH]; [done|]. cbn. destruct (find_method k n) as [m'|] eqn:F.
  - intros [= <- <- <-]. apply find_some in F as [I N]. exists [], up. repeat split; try done. apply most_derived_cons. by left.
  - intros E. destruct (IH E) as (l & r & -> & E' & I & N & D). exists (k :: l), r. repeat split; try done.
    apply most_derived_cons. right. split; [by apply find_none|done].
Qed.
Lemma call_dispatched l s k n s' c m c' m' : well_formed (l ++ s) -> resolve s n = Some (s', c, m) ->
  dispatches k s m = true -> most_derived (l ++ s) n c' m' ->
  exists o, call (l ++ s) s k n = Some o /\
    (has_table (l ++ s) = false -> o = No_table) /\
    (has_table (l ++ s) = true -> m_body m' = true -> o = Runs (c_id c')) /\
    (has_table (l ++ s) = true -> m_body m' = false -> o = Calls_null \/ o = Unlinked).
Proof.
  intros W R D M. unfold call. rewrite R, D. destruct (resolve_spec _ _ _ _ _ R) as (q & r & Es & Es' & I & N & _).
  assert (m_virtual m = true) as V by by apply andb_prop in D as [? _].
  assert (n ∈ (table s').*1) as In'. { apply table_has. exists c, m. rewrite Es'. repeat split; try done. left. }
  set (t := match k with Path => s | Member => s' end).
  assert (n ∈ (table t).*1 /\ (table t).*1 `prefix_of` (table (l ++ s)).*1) as [It P].
  { subst t. destruct k; cbn [fst].
    - split; [|apply table_names]. rewrite Es. destruct (table_names q s') as [z ->]. apply elem_of_app. by left.
    - split; [done|]. rewrite Es, app_assoc. apply table_names. }
  destruct (index_some _ _ It) as (i & -> & Ei). rewrite object_table_eq by done.
  destruct (has_table (l ++ s)); [|by exists No_table].
  destruct P as [z P]. assert ((table (l ++ s)).*1 !! i = Some n) as E by (rewrite P; by apply lookup_app_l_Some).
  apply list_lookup_fmap_Some in E as ([n' sl] & E' & ->). cbn. rewrite E'. cbn.
  exists (of_slot sl). split; [done|]. apply elem_of_list_lookup_2 in E'. destruct (table_slot _ _ _ E') as (c2 & m2 & M2 & O).
  destruct (most_derived_det _ _ _ _ _ _ W M M2) as [<- <-]. unfold slot_ok in O. destruct (m_body m'); [subst sl|].
  - split; [done|]. split; [done|]. intros _ ?. discriminate.
  - split; [done|]. split; [intros _ ?; discriminate|]. intros _ _. destruct O as [-> | ->]; [by left|by right].
Qed.
Lemma id_inj ch c c' : NoDup (map c_id ch) -> c ∈ ch -> c' ∈ ch -> c_id c = c_id c' -> c = c'.
Proof.
  induction ch as [|a l IH]; [by rewrite elem_of_nil|]. cbn. rewrite NoDup_cons. intros [N D].
  intros [->|I]%elem_of_cons [->|I']%elem_of_cons E; try done.
  - destruct N. rewrite E. apply elem_of_list_fmap. by exists c'.
  - destruct N. rewrite <- E. apply elem_of_list_fmap. by exists c.
  - by apply IH.
Qed.
Lemma dispatches_true k s m : dispatches k s m = true <-> through_table k s m.
Proof.
  unfold dispatches, through_table. rewrite andb_true_iff. apply and_iff_compat_l. destruct k.
  - destruct s as [|c r]; cbn [head_virtual].
    + split; [done|]. intros H. destruct (H eq_refl) as (? & ? & ? & _). discriminate.
    + rewrite is_virtual_true. split; [intros H _; by exists c, r|]. intros H. destruct (H eq_refl) as (? & ? & E & ?).
      by injection E as -> ->.
  - split; [|done]. intros _ ?. discriminate.
Qed.
Lemma resolve_most s n c m : Forall (fun c => NoDup (map m_name (c_methods c))) s -> most_derived s n c m ->
  exists s', resolve s n = Some (s', c, m).
Proof.
  induction s as [|k up IH].
  - intros _ (l & r & E & _). by destruct l.
  - rewrite Forall_cons. intros [W F] [(-> & I & N)|(N & D)]%most_derived_cons; cbn [resolve].
    + destruct (find_method k n) as [m'|] eqn:E.
      * apply find_some in E as [I' N']. exists (k :: up). do 2 f_equal. apply (method_inj k); try done. congruence.
      * apply find_none in E. destruct E. rewrite <- N. apply elem_of_list_fmap. by exists m.
    + rewrite (proj2 (find_none k n) N). by apply IH.
Qed.
Lemma well_formed_names ch : well_formed ch -> Forall (fun c => NoDup (map m_name (c_methods c))) ch.
Proof. intros [_ H]. eapply Forall_impl; [exact H|]. by intros c (? & _). Qed.
Lemma most_derived_in ch n c m : most_derived ch n c m -> c ∈ ch /\ m ∈ c_methods c /\ m_name m = n.
Proof. intros (l & r & -> & I & N & _). split; [|done]. apply elem_of_app. right. left. Qed.
Lemma call_exact l s k n c m c' m' : well_formed (l ++ s) -> most_derived s n c m -> most_derived (l ++ s) n c' m' ->
  (call (l ++ s) s k n = Some (Runs (c_id c')) <->
   (through_table k s m -> near_mark (l ++ s) /\ m_body m' = true) /\
   (~ through_table k s m -> c' = c /\ m_body m = true)).
Proof.
  intros W M M'. destruct (resolve_most s n c m) as (s' & R); [|done|].
  { apply well_formed_names in W. by apply Forall_app in W as [_ ?]. }
  destruct (dispatches k s m) eqn:D.
  - destruct (call_dispatched l s k n s' c m c' m' W R D M') as (o & -> & O1 & O2 & O3).
    apply dispatches_true in D. rewrite <- has_table_true. destruct (has_table (l ++ s)).
    + destruct (m_body m').
      * rewrite O2 by done. split; [|done]. intros _. split; [done|]. intros ?. done.
      * split.
        -- intros [= ->]. destruct (O3 eq_refl eq_refl); discriminate.
        -- intros [H _]. by destruct (H D).
    + rewrite O1 by done. split; [done|]. intros [H _]. by destruct (H D).
  - assert (~ through_table k s m) as D' by (rewrite <- dispatches_true; by rewrite D).
    unfold call. rewrite R, D. unfold fun_ref. destruct (m_body m) eqn:B; cbn [of_slot].
    + split.
      * intros [= E]. split; [done|]. intros _. split; [|done]. destruct W as [W _]. apply (id_inj (l ++ s)); try done.
        -- by apply most_derived_in in M' as [? _].
        -- apply most_derived_in in M as [? _]. apply elem_of_app. by right.
      * intros [_ H]. by destruct (H D') as [-> _].
    + split; [done|]. intros [_ H]. by destruct (H D').
Qed.
Lemma call_marked l s k n c m c' m' : well_formed (l ++ s) -> Forall marks (tail (l ++ s)) -> tail (l ++ s) <> [] ->
  most_derived s n c m -> most_derived (l ++ s) n c' m' -> m_virtual m = true -> m_body m' = true ->
  call (l ++ s) s k n = Some (Runs (c_id c')).
Proof.
  intros W F Ne M M' V B. eapply call_exact; [done..|]. split.
  - intros _. split; [|done]. destruct (l ++ s) as [|a [|b r]]; [done..|]. cbn in F. apply Forall_cons in F as [F _].
    exists b. split; [right; left|done].
  - intros T. destruct l as [|a l].
    + destruct (most_derived_det _ _ _ _ _ _ W M M') as [-> ->]. done.
    + destruct T. split; [done|]. intros _. cbn in F. apply Forall_app in F as [_ F]. destruct s as [|b r].
      * destruct M as (l' & r & E & _). by destruct l'.
      * apply Forall_cons in F as [F _]. by exists b, r.
Qed.
Lemma slots_filled ch : well_formed ch ->
  ((forall n s, (n, s) ∈ table ch -> exists c, s = Fun c) <->
   (forall n c m k q, most_derived ch n c m -> k ∈ ch -> q ∈ c_methods k -> m_virtual q = true -> m_name q = n -> m_body m = true)).
Proof.
  intros W. split.
  - intros H n c m k q M K Q V N. assert (n ∈ (table ch).*1) as I by (apply table_has; by exists k, q).
    apply elem_of_list_fmap in I as ([n' s] & -> & I). cbn in *. destruct (table_slot _ _ _ I) as (c2 & m2 & M2 & O).
    destruct (most_derived_det _ _ _ _ _ _ W M M2) as [<- <-]. destruct (H _ _ I) as [z ->]. unfold slot_ok in O.
    destruct (m_body m); [done|]. destruct O; discriminate.
  - intros H n s I. destruct (table_slot _ _ _ I) as (c & m & M & O).
    assert (n ∈ (table ch).*1) as J by (apply elem_of_list_fmap; by exists (n, s)).
    apply table_has in J as (k & q & K & Q & V & N). unfold slot_ok in O. rewrite (H n c m k q) in O by done. by exists (c_id c).
Qed.
