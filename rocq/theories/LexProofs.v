From Coq Require Import ZifyBool ZifyNat ZifyN.
From stdpp Require Import numbers list.
From Verif Require Import Utf8Model LexModel LexSpec.
Local Open Scope N_scope.

Lemma len_ind (P : list N -> Prop) :
  (forall s, (forall t, (length t < length s)%nat -> P t) -> P s) -> forall s, P s.
Proof.
  intros H s. assert (G : forall n t, (length t < n)%nat -> P t).
  { induction n as [|n IH]; intros t Ht; [lia|]. apply H. intros u Hu. apply IH. lia. }
  apply (G (S (length s))). lia.
Qed.

(** ** Comments and blanks *)
Lemma Com_app s r : Com s r -> exists x, s = x ++ r /\ x <> [].
Proof.
  induction 1 as [r|s m r _ (x & -> & ?) _ (y & -> & ?)|c s r _ _ _ (x & -> & ?)].
  - by exists [42; 47].
  - exists (47 :: 42 :: x ++ y). by simpl; rewrite <- app_assoc.
  - by exists (c :: x).
Qed.
Lemma Gap_app s r : Gap s r -> exists x, s = x ++ r.
Proof.
  induction 1 as [|c s s' _ _ [x ->]|body s s' _ _ _ [x ->]|s m s' HC _ [x ->]].
  - by exists [].
  - by exists (c :: x).
  - exists (47 :: 47 :: body ++ x). by simpl; rewrite <- app_assoc.
  - apply Com_app in HC as (y & -> & _). exists (47 :: 42 :: y ++ x). by simpl; rewrite <- app_assoc.
Qed.
Lemma Gap_trans a b c : Gap a b -> Gap b c -> Gap a c.
Proof. induction 1; intros; eauto using Gap. Qed.

(** Chains of comments: one for each open one. *)
Fixpoint Chain (n : nat) (s r : list N) : Prop :=
  match n with O => Com s r | S n => exists m, Com s m /\ Chain n m r end.
Lemma Chain_char n c s r : (forall t, c :: s <> 47 :: 42 :: t) -> (forall t, c :: s <> 42 :: 47 :: t) ->
  Chain n s r -> Chain n (c :: s) r.
Proof. intros H1 H2. destruct n; cbn; [by apply Com_char|]. intros (m & ? & ?). exists m. split; [by apply Com_char|done]. Qed.
Lemma skip_comment_sound s : forall n r, skip_comment n s = Some r -> Chain n s r.
Proof.
  induction s as [[|c t] IH] using len_ind; intros n r; [done|]. cbn [skip_comment].
  destruct (N.eqb_spec c 47) as [->|N1].
  - destruct t as [|d t']; [done|]. destruct (N.eqb_spec d 42) as [->|N2]; intros H; apply IH in H; try (cbn; lia).
    + destruct H as (m & H1 & H2). destruct n; cbn in *; [by eapply Com_nest|].
      destruct H2 as (m2 & H2 & H3). exists m2. split; [by eapply Com_nest|done].
    + apply Chain_char; [naive_solver..|done].
  - destruct (N.eqb_spec c 42) as [->|N2].
    + destruct t as [|d t']; [done|]. destruct (N.eqb_spec d 47) as [->|N3].
      * destruct n; [intros [= ->]; apply Com_end|]. intros H. apply IH in H; [|cbn; lia].
        exists t'. split; [apply Com_end|done].
      * intros H. apply IH in H; [|cbn; lia]. apply Chain_char; [naive_solver..|done].
    + intros H. apply IH in H; [|cbn; lia]. apply Chain_char; [naive_solver..|done].
Qed.
Lemma skip_comment_complete s r : Com s r ->
  forall k, skip_comment k s = match k with O => Some r | S k => skip_comment k r end.
Proof.
  induction 1 as [r|s m r _ IH1 _ IH2|c s r H1 H2 _ IH]; intros k.
  - by destruct k.
  - cbn [skip_comment]. change (47 =? 47) with true. change (42 =? 42) with true. cbn [skip_comment]. rewrite IH1. apply IH2.
  - rewrite <- IH. cbn [skip_comment]. destruct (N.eqb_spec c 47) as [->|].
    + destruct s as [|d t]; [done|]. destruct (N.eqb_spec d 42) as [->|]; [by edestruct H1|done].
    + destruct (N.eqb_spec c 42) as [->|]; [|done].
      destruct s as [|d t]; [done|]. destruct (N.eqb_spec d 47) as [->|]; [by edestruct H2|done].
Qed.
Lemma skip_comment_iff s r : skip_comment 0 s = Some r <-> Com s r.
Proof.
  split; [apply (skip_comment_sound s 0)|]. intros H. apply (skip_comment_complete s r H 0).
Qed.
Lemma skip_comment_none s : skip_comment 0 s = None <-> forall r, ~ Com s r.
Proof.
  split.
  - intros E r H%skip_comment_iff. congruence.
  - intros H. destruct (skip_comment 0 s) as [r|] eqn:E; [|done]. by apply skip_comment_iff, H in E.
Qed.

Lemma isspace_blank c : isspace c = true <-> blank c.
Proof. unfold isspace, blank. rewrite !elem_of_cons, elem_of_nil. lia. Qed.
Lemma skip_spaces_gap s : Gap s (skip_spaces s).
Proof.
  induction s as [|c t IH]; cbn; [constructor|]. destruct (isspace c) eqn:E; [|constructor].
  apply G_blank; [by apply isspace_blank|done].
Qed.
Lemma skip_spaces_id c t : isspace c = false -> skip_spaces (c :: t) = c :: t.
Proof. intros H. cbn. by rewrite H. Qed.
Lemma skip_spaces_head s c t : skip_spaces s = c :: t -> isspace c = false.
Proof.
  induction s as [|d u IH]; cbn; [done|]. destruct (isspace d) eqn:E; [done|]. by intros [= -> ->].
Qed.
Lemma skip_line_spec s : exists body, s = body ++ skip_line s /\ Forall (fun c => c <> 10) body /\
  (skip_line s = [] \/ head (skip_line s) = Some 10).
Proof.
  induction s as [|c t (b & E & F & H)]; cbn [skip_line].
  - exists []. naive_solver.
  - destruct (N.eqb_spec c 10) as [->|]; [exists []; naive_solver|].
    exists (c :: b). cbn. rewrite <- E. split_and!; [done|by constructor|done].
Qed.
Lemma skip_while_spec p s : exists w, s = w ++ skip_while p s /\ Forall (fun c => p c = true) w /\
  (forall c, head (skip_while p s) = Some c -> p c = false).
Proof.
  induction s as [|c t (b & E & F & H)]; cbn [skip_while].
  - exists []. naive_solver.
  - destruct (p c) eqn:Ec.
    + exists (c :: b). cbn. rewrite <- E. split_and!; [done|by constructor|done].
    + exists []. naive_solver.
Qed.

(** ** Punctuation *)
Lemma by_head c t (P : list N -> Prop) :
  Forall (fun q => q `prefix_of` c :: t -> P q) (filter (fun q => head q = Some c) punctuators) ->
  forall q, q ∈ punctuators -> q `prefix_of` c :: t -> P q.
Proof.
  intros H q Hq Hp. rewrite Forall_forall in H. apply H; [|done]. apply elem_of_list_filter. split; [|done].
  destruct q as [|a q].
  - exfalso. revert Hq. apply (bool_decide_unpack _). by vm_compute.
  - destruct Hp as [k E]. by injection E as ->.
Qed.
Definition longest (p s : list N) : Prop :=
  p ∈ punctuators /\ forall q, q ∈ punctuators -> q `prefix_of` s -> (length q <= length p)%nat.
Ltac pref := let k := fresh in let E := fresh in intros [k E]; cbn in E; ((cbn; lia) || (exfalso; congruence) || (cbn; lia)).
Ltac longest_tac := split; [apply (bool_decide_unpack _); by vm_compute|];
  apply by_head; match goal with |- Forall _ ?l => let v := eval vm_compute in l in change l with v end;
  repeat first [exact (List.Forall_nil _) | apply List.Forall_cons; [cbn beta; pref|]].
Lemma punct_spec s p r : punct s = Some (p, r) -> s = p ++ r /\ longest p s.
Proof.
  unfold punct. destruct s as [|c t]; [done|].
  repeat match goal with
  | |- (if ?b then _ else _) = _ -> _ => let E := fresh "E" in destruct b eqn:E
  end; try done.
  all: repeat match goal with
       | H : (_ || _) = true |- _ => apply orb_true_iff in H as [H|H]
       | H : (_ || _) = false |- _ => clear H
       | H : (_ =? _) = false |- _ => clear H
       | H : (_ =? _) = true |- _ => apply N.eqb_eq in H; subst
       end.
  all: unfold accept.
  all: repeat match goal with
       | |- match ?l with [] => _ | _ => _ end = _ -> _ => destruct l
       | |- (if ?b =? ?a then _ else _) = _ -> _ => destruct (N.eqb_spec b a) as [->|?]
       end.
  all: intros [= <- <-]; split; [done|longest_tac].
Qed.
Lemma punct_first c t p r : punct (c :: t) = Some (p, r) -> ispunct c = true /\ c <> 95.
Proof.
  unfold punct.
  repeat match goal with
  | |- (if ?b then _ else _) = _ -> _ => let E := fresh "E" in destruct b eqn:E
  end; try done; intros _; unfold ispunct; lia.
Qed.

(** ** Texts that end with a line break *)
Definition safe0 (s : list N) : Prop := s = [] \/ safe s.
Definition ascii (s : list N) : Prop := Forall (fun c => c < 128) s.
Lemma last_app_cons {A} (x : list A) a (r : list A) : last (x ++ a :: r) = last (a :: r).
Proof.
  induction x as [|b x IH]; [done|]. cbn [app]. rewrite <- IH.
  destruct (x ++ a :: r) eqn:E; [by destruct x|done].
Qed.
Lemma safe_app x r : safe (x ++ r) -> safe0 r.
Proof.
  intros [H1 H2]. destruct r as [|a r]; [by left|]. right. rewrite last_app_cons in H1. split; [done|].
  intros l E. apply (H2 (x ++ l)). by rewrite E, app_assoc.
Qed.
Lemma safe0_app x r : safe0 (x ++ r) -> safe0 r.
Proof.
  intros [E|H]; [|by eapply safe_app]. apply app_eq_nil in E as [_ ->]. by left.
Qed.
Lemma safe_tail c t : safe (c :: t) -> c <> 10 -> safe t.
Proof.
  intros H N. destruct (safe_app [c] t H) as [->|]; [|done]. destruct H as [H _]. cbn in H. congruence.
Qed.
Lemma safe_two c t : safe (92 :: c :: t) -> safe t.
Proof.
  intros H. assert (H' := H). apply safe_tail in H; [|done]. destruct (decide (c = 10)) as [->|]; [|by eapply safe_tail].
  destruct (safe_app [10] t H) as [->|]; [|done]. destruct H' as [_ H']. by destruct (H' []).
Qed.
Lemma safe_line t : safe (10 :: 92 :: t) -> safe t.
Proof.
  intros H. destruct (safe_app [10] _ H) as [?|H']; [done|]. by apply safe_tail in H'.
Qed.
Lemma safe_nil : ~ safe [].
Proof. by intros [H _]. Qed.
Lemma safe0_cons c t : safe0 (c :: t) -> safe (c :: t).
Proof. by intros [?|?]. Qed.
Lemma safe_run w r : safe (w ++ r) -> Forall (fun c => c <> 10) w -> safe r.
Proof. induction w as [|c w IH]; [done|]. intros H F. inversion F; subst. apply IH; [|done]. by eapply safe_tail. Qed.
Lemma safe_skip_while p s : p 10 = false -> safe s -> safe (skip_while p s).
Proof.
  intros Hp H. destruct (skip_while_spec p s) as (w & E & F & _). rewrite E in H. eapply safe_run; [done|].
  eapply list.Forall_impl; [done|]. cbn. intros c Hc ->. congruence.
Qed.

(** ** Strings *)
Lemma string_loop_spec fmt s :
  match string_loop fmt s with
  | SQuote r => head r = Some 34 /\ exists b, s = b ++ r /\ (fmt = false -> str_body b)
  | SBreak r => exists b, s = b ++ r /\ (fmt = false -> str_body b)
  | SFmt e r => fmt = true /\ e = 123 :: r /\ exists b, s = b ++ 36 :: e
  | SHang => ~ safe s
  end.
Proof.
  assert (W : forall (w : list N) x y, (safe y -> safe x) -> y = w ++ x ->
    (fmt = false -> forall b, str_body b -> str_body (w ++ b)) ->
    match string_loop fmt x with
    | SQuote r => head r = Some 34 /\ exists b, x = b ++ r /\ (fmt = false -> str_body b)
    | SBreak r => exists b, x = b ++ r /\ (fmt = false -> str_body b)
    | SFmt e r => fmt = true /\ e = 123 :: r /\ exists b, x = b ++ 36 :: e
    | SHang => ~ safe x
    end ->
    match string_loop fmt x with
    | SQuote r => head r = Some 34 /\ exists b, y = b ++ r /\ (fmt = false -> str_body b)
    | SBreak r => exists b, y = b ++ r /\ (fmt = false -> str_body b)
    | SFmt e r => fmt = true /\ e = 123 :: r /\ exists b, y = b ++ 36 :: e
    | SHang => ~ safe y
    end).
  { intros w x y Hs -> Hb. destruct (string_loop fmt x); [| | |naive_solver].
    - intros (? & b & -> & ?). split; [done|]. exists (w ++ b). rewrite app_assoc. auto.
    - intros (b & -> & ?). exists (w ++ b). rewrite app_assoc. auto.
    - intros (? & ? & b & ->). split_and!; [done..|]. exists (w ++ b). by rewrite app_assoc. }
  induction s as [[|c t] IH] using len_ind; cbn [string_loop]; [apply safe_nil|].
  destruct (N.eqb_spec c 34) as [->|N1].
  { split; [done|]. exists []. split; [done|]. intros _. constructor. }
  destruct (N.eqb_spec c 10) as [->|N2].
  { destruct t as [|d t']; [exists [10]; split; [done|constructor]|].
    destruct (N.eqb_spec d 92) as [->|].
    - apply (W [10; 92]); [apply safe_line|done| |apply IH; cbn; lia]. intros _ b. apply Sb_line.
    - exists [10]. split; [done|constructor]. }
  destruct (N.eqb_spec c 92) as [->|N3].
  { destruct t as [|d t']; [by intros [? _]|].
    apply (W [92; d]); [apply safe_two|done| |apply IH; cbn; lia]. intros _ b. apply Sb_esc. }
  assert (O : match string_loop fmt t with
    | SQuote r => head r = Some 34 /\ exists b, c :: t = b ++ r /\ (fmt = false -> str_body b)
    | SBreak r => exists b, c :: t = b ++ r /\ (fmt = false -> str_body b)
    | SFmt e r => fmt = true /\ e = 123 :: r /\ exists b, c :: t = b ++ 36 :: e
    | SHang => ~ safe (c :: t)
    end).
  { apply (W [c]); [|done| |apply IH; cbn; lia]; [intros H; by eapply safe_tail|]. intros _ b. by apply Sb_char. }
  destruct fmt; cbn [andb]; [|done]. destruct (N.eqb_spec c 36) as [->|N4]; [|done].
  destruct t as [|d t']; [done|]. destruct (N.eqb_spec d 123) as [->|N5]; [|done].
  split_and!; [done..|]. by exists [].
Qed.
Lemma multiline_spec s :
  match multiline s with
  | Some (e, r) => e = 34 :: 34 :: r /\ exists b, s = b ++ 34 :: e /\
      forall x y, b ++ [34; 34] <> x ++ [34; 34; 34] ++ y
  | None => forall x y, s <> x ++ [34; 34; 34] ++ y
  end.
Proof.
  assert (B : forall c t, (forall u, c :: t <> 34 :: 34 :: 34 :: u) ->
    match multiline t with
    | Some (e, r) => e = 34 :: 34 :: r /\ exists b, t = b ++ 34 :: e /\
        forall x y, b ++ [34; 34] <> x ++ [34; 34; 34] ++ y
    | None => forall x y, t <> x ++ [34; 34; 34] ++ y
    end ->
    match multiline t with
    | Some (e, r) => e = 34 :: 34 :: r /\ exists b, c :: t = b ++ 34 :: e /\
        forall x y, b ++ [34; 34] <> x ++ [34; 34; 34] ++ y
    | None => forall x y, c :: t <> x ++ [34; 34; 34] ++ y
    end).
  { intros c t Hc. destruct (multiline t) as [[e r]|].
    - intros (-> & b & -> & Hb). split; [done|]. exists (c :: b). split; [done|].
      intros [|a x] y E; cbn in E.
      + destruct b as [|b1 [|b2 b]]; cbn in *; injection E; intros; subst; try done; by edestruct Hc.
      + injection E as -> E. by apply (Hb x y).
    - intros Hb [|a x] y E; cbn in E; [by edestruct Hc|]. injection E as -> E. by apply (Hb x y). }
  induction s as [|c t IH]; cbn [multiline]; [by intros [|? ?] y|].
  destruct (N.eqb_spec c 34) as [->|N1].
  2:{ apply B; [|done]. intros u [= ? ?]. done. }
  destruct t as [|d [|e t']]; [by apply B..|].
  destruct (N.eqb_spec d 34) as [->|N2]; [destruct (N.eqb_spec e 34) as [->|N3]|]; cbn [andb].
  - split; [done|]. exists []. split; [done|]. intros [|? [|? x]] y E; cbn in E; try done.
    by destruct x.
  - apply B; [|done]. naive_solver.
  - apply B; [|done]. naive_solver.
Qed.

(** ** Numbers *)
Lemma isdigit_iff c : isdigit c = true <-> digit c.
Proof. unfold isdigit, digit. lia. Qed.
Lemma wordchar_iff c : wordchar c = true <-> word_next c.
Proof. unfold wordchar, word_next, letter, digit, isalpha, isdigit. lia. Qed.
Lemma strto_digits_spec base ds rest acc :
  (forall c, c ∈ ds -> exists d, digit_value c = Some d /\ d < base /\ digit_val c = d) ->
  (forall c, head rest = Some c -> forall d, digit_value c = Some d -> ~ d < base) ->
  strto_digits base (ds ++ rest) acc = fold_left (fun a c => a * base + digit_val c) ds acc.
Proof.
  intros H1 H2. revert acc. induction ds as [|c ds IH]; intros acc; cbn [app strto_digits fold_left].
  - destruct rest as [|c rest]; cbn [strto_digits]; [done|]. destruct (digit_value c) as [d|] eqn:E; [|done].
    specialize (H2 c eq_refl d E). destruct (N.ltb_spec d base); [done|done].
  - destruct (H1 c) as (d & -> & L & <-); [by left|]. destruct (N.ltb_spec (digit_val c) base); [|lia].
    apply IH. intros c' Hc. apply H1. by right.
Qed.
Lemma fold_num_val base ds : fold_left (fun a c => a * base + digit_val c) ds 0 = num_val base (rev ds).
Proof.
  induction ds as [|d ds IH] using rev_ind; [done|]. rewrite fold_left_app, rev_app_distr. cbn. rewrite IH. lia.
Qed.
Lemma run_dec (p : N -> bool) (P : N -> Prop) s : (forall c, p c = true <-> P c) ->
  exists w, s = w ++ skip_while p s /\ run_of P w (skip_while p s).
Proof.
  intros H. destruct (skip_while_spec p s) as (w & E & F & K). exists w. split; [done|]. split.
  - eapply list.Forall_impl; [done|]. intros c. apply H.
  - intros c Hc HP%H. rewrite (K c Hc) in HP. done.
Qed.
Lemma base_digit_value base c : base = 2 \/ base = 8 \/ base = 10 \/ base = 16 -> base_digit base c ->
  exists d, digit_value c = Some d /\ d < base /\ digit_val c = d.
Proof.
  intros B H. unfold base_digit, digit in H. unfold digit_value, digit_val.
  destruct (N.eqb_spec base 16) as [->|].
  - destruct (N.leb_spec c 57); [|destruct (N.leb_spec c 70)].
    + assert (E : (48 <=? c) && true = true) by lia. rewrite E. eexists. split; [done|]. lia.
    + rewrite andb_false_r. assert (E : (97 <=? c) && (c <=? 122) = false) by lia. rewrite E.
      assert (E2 : (65 <=? c) && (c <=? 90) = true) by lia. rewrite E2. eexists. split; [done|]. lia.
    + rewrite andb_false_r. assert (E : (97 <=? c) && (c <=? 122) = true) by lia. rewrite E.
      eexists. split; [done|]. lia.
  - assert (E : (48 <=? c) && (c <=? 57) = true) by lia. rewrite E. eexists. split; [done|].
    destruct (N.leb_spec c 57); lia.
Qed.
Lemma not_base_digit base c : base = 2 \/ base = 8 \/ base = 10 \/ base = 16 -> ~ base_digit base c ->
  forall d, digit_value c = Some d -> ~ d < base.
Proof.
  intros B H d. unfold base_digit, digit in H. unfold digit_value.
  destruct ((48 <=? c) && (c <=? 57)) eqn:E1; [|destruct ((97 <=? c) && (c <=? 122)) eqn:E2; [|destruct ((65 <=? c) && (c <=? 90)) eqn:E3]];
    [| | |done]; intros [= <-]; destruct (N.eqb_spec base 16); subst; lia.
Qed.
Lemma strtoumax_spec base ds rest : base = 2 \/ base = 8 \/ base = 10 \/ base = 16 ->
  ds <> [] -> run_of (base_digit base) ds rest -> (base = 16 -> separator rest) ->
  strtoumax base (ds ++ rest) = lit_val base ds.
Proof.
  intros B N0 [F H] Hs. unfold strtoumax.
  destruct ds as [|c ds]; [done|].
  assert (Hc : base_digit base c) by (by inversion F).
  assert (Hd : digit c \/ letter c).
  { unfold base_digit, digit, letter in *. destruct (N.eqb_spec base 16); lia. }
  assert (Sp : isspace c = false) by (unfold isspace, digit, letter in *; lia).
  cbn [app]. rewrite (skip_spaces_id c _ Sp).
  assert (E1 : (c =? 45) = false) by (unfold digit, letter in *; lia).
  assert (E2 : (c =? 43) = false) by (unfold digit, letter in *; lia).
  rewrite E1, E2. cbn [orb].
  match goal with |- context [strto_digits base ?l 0] => assert (El : l = (c :: ds) ++ rest) end.
  { cbn [app]. destruct (ds ++ rest) as [|x [|h u]] eqn:Ex; [done..|].
    destruct (N.eqb_spec base 16) as [->|]; [|done]. cbn [andb].
    destruct (N.eqb_spec c 48) as [->|]; [|done]. cbn [andb].
    assert (Ne : ((x =? 120) || (x =? 88)) = false).
    { destruct ds as [|x' ds]; cbn in Ex.
      - destruct (Hs eq_refl) as (y & Hy & K). rewrite Ex in Hy. injection Hy as <-.
        unfold blank, word_next, letter in K. rewrite !elem_of_cons, elem_of_nil in K. lia.
      - injection Ex as -> _. inversion F as [|? ? _ F']; subst. inversion F' as [|? ? K _]; subst.
        unfold base_digit, digit in K. cbn in K. lia. }
    rewrite Ne. done. }
  rewrite El. rewrite strto_digits_spec.
  - rewrite fold_num_val. unfold lit_val. destruct (N.leb_spec (2 ^ 64) (num_val base (rev (c :: ds)))); lia.
  - intros d Hd'. apply base_digit_value; [done|]. rewrite Forall_forall in F. by apply F.
  - intros d Hd'. apply not_base_digit; [done|]. by apply H.
Qed.

(** ** What a call answers *)
Definition tok_of (s : list N) (t : ltok) (s' : list N) : Prop :=
  t = LTok LEof [] [] /\ s' = [] /\ Gap s [] \/
  exists tag pre text post, t = LTok tag (text ++ post ++ s') (post ++ s') /\
    Gap s (pre ++ text ++ post ++ s') /\ Lexeme tag pre text post s' /\ text <> [].
Definition good (s : list N) (r : lres) : Prop :=
  match r with
  | LFuel => False
  | LHang => ~ safe0 s
  | LAbort | LUb => ~ (safe0 s /\ ascii s)
  | LGot t s' fl' => tok_of s t s' /\ (enter fl' = true -> head s' = Some 34)
  end.
(** No string token is pending and the line break at the end is still there. *)
Definition quiet (fl : lflags) : Prop := exit fl = false /\ lstrfmt fl = false.
Definition calm (s : list N) (r : lres) : Prop :=
  match r with LGot _ s' fl' => quiet fl' /\ (safe s -> safe s') | _ => True end.

Lemma good_gap s s1 r : Gap s s1 -> good s1 r -> good s r.
Proof.
  intros G. destruct (Gap_app _ _ G) as [x Ex].
  assert (H0 : safe0 s -> safe0 s1) by (intros H; rewrite Ex in H; by eapply safe0_app).
  assert (HA : ascii s -> ascii s1) by (intros H; rewrite Ex in H; by apply Forall_app in H as [_ H]).
  destruct r; cbn; [|naive_solver..]. intros [[(-> & -> & H)|(tag & pre & text & post & -> & H & H2)] He]; (split; [|done]).
  - left. split_and!; [done..|]. by eapply Gap_trans.
  - right. exists tag, pre, text, post. split; [done|]. split; [by eapply Gap_trans|done].
Qed.
Lemma tok_here s tag text post s' : s = text ++ post ++ s' -> Lexeme tag [] text post s' -> text <> [] ->
  tok_of s (LTok tag s (post ++ s')) s'.
Proof. intros -> H N0. right. exists tag, [], text, post. split; [done|]. split; [constructor|done]. Qed.
Lemma tok_plain s tag text s' : s = text ++ s' -> Lexeme tag [] text [] s' -> text <> [] ->
  tok_of s (LTok tag s s') s'.
Proof. apply (tok_here s tag text [] s'). Qed.
Lemma tok_err s text s' : s = text ++ s' -> text <> [] -> tok_of s (LTok LErr s s') s'.
Proof. intros E N0. apply (tok_plain s LErr text s'); [done| |done]. cbn. auto. Qed.

Lemma lex_string_good literal fl o s : enter fl = false -> (literal = true -> o = 34) ->
  (literal = false -> cont fl = true /\ (o = 34 \/ o = 125)) -> good (o :: s) (lex_string literal fl (o :: s) s).
Proof.
  intros He H1 H2. unfold lex_string.
  assert (No : o <> 10) by (destruct literal; naive_solver).
  set (fin := fun s0 : list N => match s0 with
    | c :: t => if c =? 34 then LGot (LTok LStr (o :: s) t) t (if literal then fl else set_exit true (set_cont false fl))
                else LGot (LTok LErr (o :: s) s0) s0 (if literal then fl else set_exit true (set_cont false fl))
    | [] => LGot (LTok LErr (o :: s) s0) s0 (if literal then fl else set_exit true (set_cont false fl))
    end).
  assert (K : forall r b, s = b ++ r -> (literal = true -> str_body b) -> good (o :: s) (fin r)).
  { intros r b E Hb. unfold fin.
    set (fl' := if literal then fl else set_exit true (set_cont false fl)).
    assert (He' : enter fl' = false) by (unfold fl'; by destruct literal).
    assert (Er : good (o :: s) (LGot (LTok LErr (o :: s) r) r fl')).
    { split; [|by rewrite He']. apply (tok_err _ (o :: b)); [by rewrite E|done]. }
    destruct r as [|c t]; [done|]. destruct (N.eqb_spec c 34) as [->|]; [|done].
    split; [|by rewrite He']. apply (tok_plain _ LStr (o :: b ++ [34])); [|cbn|done].
    { rewrite E. cbn. by rewrite <- app_assoc. }
    destruct literal.
    - left. split_and!; [done..|]. exists b. rewrite H1 by done. auto.
    - right. right. split; [done|]. destruct (H2 eq_refl) as [_ Ho]. exists o, b. split; [done|]. by left. }
  pose proof (string_loop_spec (negb literal && cont fl) s) as L.
  destruct (string_loop (negb literal && cont fl) s) as [r|r|e r|].
  - destruct L as (_ & b & E & Hb). apply (K r b E). intros ->. by apply Hb.
  - destruct L as (b & E & Hb). apply (K r b E). intros ->. by apply Hb.
  - destruct L as (Hf & -> & b & E). split; [|cbn; by rewrite He].
    apply (tok_here _ LStr (o :: b ++ [36]) [123] r).
    + rewrite E. cbn. by rewrite <- app_assoc.
    + right. right. split; [done|]. destruct literal; [done|]. destruct (H2 eq_refl) as [_ Ho].
      exists o, b. split; [done|]. by right.
    + done.
  - cbn. intros [?|H]; [done|]. apply L. by eapply safe_tail.
Qed.

Lemma char_loop_spec s :
  match char_loop s with
  | Some e => exists b, s = b ++ e /\ (head e = Some 39 \/ head e = Some 10)
  | None => ~ safe s
  end.
Proof.
  induction s as [[|c t] IH] using len_ind; cbn [char_loop]; [apply safe_nil|].
  destruct (N.eqb_spec c 39) as [->|N1]; [exists []; naive_solver|].
  destruct (N.eqb_spec c 10) as [->|N2]; [exists []; naive_solver|]. cbn [orb].
  destruct (N.eqb_spec c 92) as [->|N3].
  - destruct t as [|d t']; [by intros [? _]|]. specialize (IH t' ltac:(cbn; lia)).
    destruct (char_loop t') as [e|].
    + destruct IH as (b & -> & H). by exists (92 :: d :: b).
    + intros H. by apply IH, (safe_two d).
  - specialize (IH t ltac:(cbn; lia)). destruct (char_loop t) as [e|].
    + destruct IH as (b & -> & H). by exists (c :: b).
    + intros H. apply IH. by eapply safe_tail.
Qed.
Lemma escape_none s n k : convertEscapeSeq s n = COk (k, None) -> k = 0.
Proof.
  unfold convertEscapeSeq. repeat first [case_match; try done|intros [= <-]; done].
  all: by intros [= <- _] || done.
Qed.
Lemma escape_ascii c d e r : ascii (c ++ 39 :: e :: r) -> d = N.of_nat (length c) ->
  match convertEscapeSeq (c ++ 39 :: e :: r) d with COk _ => True | _ => False end.
Proof.
  intros HA ->. unfold convertEscapeSeq. destruct c as [|p0 t]; [done|].
  assert (L : N.of_nat (length (p0 :: t)) =? 0 = false) by (cbn; lia). rewrite L. cbn [app].
  assert (H0 : p0 < 128) by (by inversion HA).
  destruct (N.eqb_spec p0 92) as [->|].
  - destruct (N.leb_spec (N.of_nat (length (92 :: t))) 1); [done|].
    destruct t as [|p1 t2]; [cbn in *; lia|]. cbn [app].
    destruct (simple_escape p1); [done|]. destruct (p1 =? 120); [destruct (_ <=? 2); [done|]; by destruct (convertStrToCharOrd _ _)|].
    destruct (p1 =? 48).
    + destruct t2 as [|p2 t3]; cbn [app]; [done|]. destruct (negb (isodigit p2)); [done|].
      destruct t3 as [|p3 t4]; cbn [app]; [done|]. destruct (negb _); [done|]. by destruct (convertStrToCharOrd _ _).
    + destruct (isdigit p1); [|done]. by destruct (convertStrToCharOrd _ _).
  - destruct (N.leb_spec 128 p0); [lia|done].
Qed.
Lemma lex_char_good fl s : enter fl = false -> good (39 :: s) (lex_char fl (39 :: s) s).
Proof.
  intros He. unfold lex_char. pose proof (char_loop_spec s) as L. destruct (char_loop s) as [e|].
  2:{ cbn. intros [?|H]; [done|]. apply L. by eapply safe_tail. }
  destruct L as (b & -> & Hh). destruct e as [|c t]; [by destruct Hh|].
  destruct (N.eqb_spec c 39) as [->|N1].
  2:{ split; [|by rewrite He]. by apply (tok_err _ (39 :: b)). }
  destruct t as [|e r].
  { cbn. intros [[?|[H _]] _]; [done|]. change (39 :: b ++ [39]) with ((39 :: b) ++ [39]) in H.
    by rewrite last_app_cons in H. }
  rewrite app_length, Nat.add_sub.
  pose proof (fun HA => escape_ascii b _ e r HA eq_refl) as HE.
  destruct (convertEscapeSeq (b ++ 39 :: e :: r) (N.of_nat (length b))) as [[k v]| |] eqn:EE.
  - destruct (N.eqb_spec k (N.of_nat (length b))) as [->|].
    + split; [|by rewrite He]. apply (tok_here _ (LChar v) (39 :: b) [39] (e :: r)); [done| |done].
      split_and!; [done..|]. exists b. split_and!; [done| |done]. split.
      * intros ->. apply escape_none in EE. destruct b; [done|cbn in EE; lia].
      * intros ->. cbn in EE. congruence.
    + split; [|by rewrite He]. apply (tok_err _ (39 :: b ++ [39])); [|done]. cbn. by rewrite <- app_assoc.
  - cbn. intros [_ HA]. apply HE. by inversion HA.
  - cbn. intros [_ HA]. apply HE. by inversion HA.
Qed.
Lemma digits_no_line w : Forall digit w -> Forall (fun c => c <> 10) w.
Proof. intros F. eapply list.Forall_impl; [done|]. unfold digit. cbn. lia. Qed.
Lemma lex_decimal_good fl c s : enter fl = false -> digit c ->
  good (c :: s) (lex_decimal fl (c :: s) s) /\
  exists t s', lex_decimal fl (c :: s) s = LGot t s' fl /\ (safe (c :: s) -> safe s').
Proof.
  intros He Hc. unfold lex_decimal.
  destruct (run_dec isdigit digit s isdigit_iff) as (w & Ew & F & Hr).
  set (r := skip_while isdigit s) in *. clearbody r. subst s.
  assert (Sr : safe (c :: w ++ r) -> safe r).
  { intros H. apply (safe_run (c :: w)); [done|]. apply digits_no_line. by constructor. }
  assert (I : let x := LGot (LTok (LInt (strtoumax 10 (c :: w ++ r))) (c :: w ++ r) r) r fl in
    good (c :: w ++ r) x /\ exists t s', x = LGot t s' fl /\ (safe (c :: w ++ r) -> safe s')).
  { split; [|by eexists _, _]. split; [|by rewrite He].
    assert (D : run_of digit (c :: w) r) by (split; [by constructor|done]).
    apply (tok_plain _ (LInt _) (c :: w)); [done| |done]. split_and!; [done..|]. left. split_and!; [done..|].
    apply (strtoumax_spec 10 (c :: w) r); [lia|done| |done].
    destruct D as [D1 D2]. split.
    - eapply list.Forall_impl; [done|]. unfold digit, base_digit. cbn. intros; lia.
    - intros d Hd K. apply (D2 d Hd). unfold digit, base_digit in *. cbn in K. lia. }
  destruct r as [|d t]; [done|].
  destruct ((d =? 46) && _ && _) eqn:Eb; [|done].
  apply andb_prop in Eb as [Eb _]. apply andb_prop in Eb as [Ed En]. apply N.eqb_eq in Ed as ->. clear I.
  assert (Hn : forall c, head t = Some c -> c <> 46 /\ c <> 91).
  { intros c' Hc'. destruct t as [|d t]; [done|]. injection Hc' as <-. lia. }
  clear En.
  destruct (run_dec isdigit digit t isdigit_iff) as (b & Eb & Fb & Hb).
  set (t1 := skip_while isdigit t) in *. clearbody t1. subst t.
  set (t2 := accept 101 t1 _ t1).
  assert (X : exists x, t1 = x ++ t2 /\ (x = [] \/ exists s ds, x = 101 :: s ++ ds /\ (s = [] \/ s = [43] \/ s = [45]) /\ Forall digit ds) /\
    (forall c, head t2 = Some c -> ~ digit c)).
  { destruct t1 as [|a t1]; [by exists []; naive_solver|].
    destruct (N.eqb_spec a 101) as [->|Na].
    2:{ assert (E2 : t2 = a :: t1) by (unfold t2, accept; by rewrite (proj2 (N.eqb_neq a 101) Na)).
        rewrite E2. exists []. naive_solver. }
    set (u := accept 43 t1 (fun t => t) (accept 45 t1 (fun t => t) t1)).
    change t2 with (skip_while isdigit u). clear t2.
    assert (U : exists s, t1 = s ++ u /\ (s = [] \/ s = [43] \/ s = [45])).
    { unfold u, accept. destruct t1 as [|a t1]; [by exists []; naive_solver|].
      destruct (N.eqb_spec a 43) as [->|]; [by exists [43]; naive_solver|].
      destruct (N.eqb_spec a 45) as [->|]; [by exists [45]; naive_solver|]. by exists []; naive_solver. }
    destruct U as (sg & Eu & Hsg). destruct (run_dec isdigit digit u isdigit_iff) as (ds & Eds & Fds & Hds).
    exists (101 :: sg ++ ds). rewrite Eu. split; [cbn; rewrite <- app_assoc; by rewrite <- Eds|]. split; [|done].
    right. by exists sg, ds. }
  clearbody t2. destruct X as (x & -> & Hx & Hend).
  assert (E : c :: w ++ 46 :: b ++ x ++ t2 = ((c :: w) ++ 46 :: b ++ x) ++ t2).
  { cbn. f_equal. rewrite <- app_assoc. cbn. by rewrite <- app_assoc. }
  split.
  - split; [|by rewrite He]. apply (tok_plain _ LFloat ((c :: w) ++ 46 :: b ++ x)); [done| |done].
    split_and!; [done..|]. exists (c :: w), b, x. split; [done|]. split; [done|]. split; [by constructor|]. done.
  - eexists _, _. split; [done|]. intros H%Sr. apply (safe_run (46 :: b ++ x)).
    + cbn. by rewrite <- app_assoc.
    + constructor; [done|]. apply Forall_app. split; [by apply digits_no_line|].
      destruct Hx as [->|(sg & ds & -> & Hs & Hd)]; [done|]. constructor; [done|]. apply Forall_app.
      split; [|by apply digits_no_line]. destruct Hs as [->|[->| ->]]; repeat constructor; done.
Qed.
Lemma space_or_punct_sep c : space_or_punct c = true -> blank c \/ 33 <= c <= 126 /\ ~ word_next c.
Proof.
  intros H. destruct (isspace c) eqn:E; [left; by apply isspace_blank|right].
  unfold space_or_punct in H. rewrite E in H. unfold ispunct, word_next, letter, digit in *. lia.
Qed.
Definition skipped (s : list N) (r : lres) : Prop :=
  match r with
  | LFuel => False
  | LHang => ~ safe s
  | LAbort | LUb => ~ (safe s /\ ascii s)
  | LGot _ s' fl' => (enter fl' = true -> head s' = Some 34) /\ quiet fl' /\ (safe s -> safe s') /\ exists x, s = x ++ s'
  end.
Definition scan_ok (n : nat) : Prop := forall fl s, (enter fl = true -> head s = Some 34) -> quiet fl ->
  (2 * length s + 1 <= n)%nat ->
  good s (scan n fl s) /\
  forall c, head s = Some c -> space_or_punct c = false -> calm s (scan n fl s).
Definition skip_ok (n : nat) : Prop := forall fl s, (enter fl = true -> head s = Some 34) -> quiet fl ->
  (2 * length s + 2 <= n)%nat -> skipped s (skip_until n fl s).

Definition based (n : nat) (fl : lflags) (s : list N) (base : N) (digit : N -> bool) (ptr : list N) : lres :=
  let e := skip_while digit ptr in
  match e with
  | d :: _ =>
    if space_or_punct d then LGot (LTok (LInt (strtoumax base ptr)) s e) e fl
    else match skip_until n fl e with LGot _ e' fl' => LGot (LTok LErr s e') e' fl' | r => r end
  | [] => match skip_until n fl e with LGot _ e' fl' => LGot (LTok LErr s e') e' fl' | r => r end
  end.
Lemma based_ok n fl base p ptr : skip_ok n -> enter fl = false -> quiet fl ->
  base = 2 \/ base = 8 \/ base = 16 -> (forall c, p c = true <-> base_digit base c) ->
  (2 * length ptr + 2 <= n)%nat ->
  let s := 48 :: prefix_letter base :: ptr in
  good s (based n fl s base p ptr) /\ calm s (based n fl s base p ptr).
Proof.
  intros HS He Hq HB Hp L s. unfold based.
  destruct (run_dec p (base_digit base) ptr Hp) as (w & Ew & F & Hr).
  set (e := skip_while p ptr) in *. clearbody e.
  assert (Es : s = (48 :: prefix_letter base :: w) ++ e) by (unfold s; rewrite Ew; done).
  assert (Se : safe s -> safe e).
  { intros H. rewrite Es in H. eapply safe_run; [done|]. constructor; [done|]. constructor.
    - unfold prefix_letter. destruct HB as [-> | [-> | ->]]; done.
    - eapply list.Forall_impl; [done|]. unfold base_digit, digit. intros c Hc ->.
      destruct HB as [-> | [-> | ->]]; cbn in Hc; lia. }
  assert (Ae : ascii s -> ascii e) by (intros H; rewrite Es in H; by apply Forall_app in H as [_ H]).
  assert (K : let r := match skip_until n fl e with LGot _ e' fl' => LGot (LTok LErr s e') e' fl' | r => r end in
              good s r /\ calm s r).
  { assert (S1 : skipped e (skip_until n fl e)).
    { apply HS; [by rewrite He|done|]. rewrite Ew, app_length in L. lia. }
    destruct (skip_until n fl e) as [t e' fl'| | | |]; cbn in *.
    - destruct S1 as (H1 & H2 & H3 & x & ->). split; [|auto]. split; [|done].
      apply (tok_err _ ((48 :: prefix_letter base :: w) ++ x)); [|done]. by rewrite Es, app_assoc.
    - split; [|done]. intros H%safe0_cons. auto.
    - split; [|done]. intros [H%safe0_cons ?]. auto.
    - split; [|done]. intros [H%safe0_cons ?]. auto.
    - done. }
  destruct e as [|d e]; [done|]. destruct (space_or_punct d) eqn:Ed; [|done].
  assert (Sep : separator (d :: e)) by (exists d; split; [done|by apply space_or_punct_sep]).
  split; [|cbn; auto]. split; [|by rewrite He].
  apply (tok_plain _ (LInt _) (48 :: prefix_letter base :: w)); [done| |done].
  split_and!; [done..|]. right. exists base, w. split_and!; [done..|].
  intros Nw. rewrite Ew. apply strtoumax_spec; [lia|done..].
Qed.

Lemma scan_S n fl s : scan (S n) fl s =
    if enter fl then lex_string false (set_cont true (set_enter false fl)) s (tail s)
    else
      let s := skip_spaces s in
      match s with
      | [] => LGot (LTok LEof s s) s fl
      | c :: t =>
        match punct s with
        | Some (p, r) =>
          LGot (LTok (LPunct p) s r) r (if bool_decide (p = [46]) then set_notfloat true fl else fl)
        | None =>
          if c =? 125 then
            if cont fl then lex_string false fl s t else LGot (LTok (LPunct [125]) s t) t fl
          else if c =? 47 then
            match t with
            | d :: t' =>
              if d =? 47 then scan n fl (skip_line t')
              else if d =? 42 then
                match skip_comment 0 t' with
                | Some r => scan n fl r
                | None => LGot (LTok LErr s []) [] fl
                end
              else if d =? 61 then LGot (LTok (LPunct [47; 61]) s t') t' fl
              else LGot (LTok (LPunct [47]) s t) t fl
            | [] => LGot (LTok (LPunct [47]) s t) t fl
            end
          else if c =? 34 then
            match t with
            | d :: e :: t' =>
              if (d =? 34) && (e =? 34) then
                match multiline t' with
                | Some (e', r) => LGot (LTok LStr (e :: t') e') r fl
                | None => LGot (LTok LErr (e :: t') []) [] fl
                end
              else lex_string true fl s t
            | _ => lex_string true fl s t
            end
          else if c =? 39 then lex_char fl s t
          else if (c =? 102) && match t with d :: _ => d =? 34 | [] => false end then
            if enter fl || cont fl then LGot (LTok LErr s t) t fl
            else LGot (LTok LFStart s t) t (set_enter true fl)
          else if (c =? 95) || isalpha c then
            let e := skip_while wordchar t in LGot (LTok LWord s e) e fl
          else if isdigit c then
            if c =? 48 then
              accept 98 t (based n fl s 2 (fun d => (d =? 48) || (d =? 49)))
              (accept 120 t (based n fl s 16 isxdigit)
              (accept 111 t (based n fl s 8 isodigit) (lex_decimal fl s t)))
            else lex_decimal fl s t
          else LGot (LTok LErr s t) t fl
        end
      end.
Proof. done. Qed.

Lemma scan_step n : scan_ok n -> skip_ok n -> scan_ok (S n).
Proof.
  intros HA HS fl s He Hq L. rewrite scan_S. destruct (enter fl) eqn:Ee.
  { specialize (He eq_refl). destruct s as [|c t]; [done|]. injection He as ->. cbn [tail]. split.
    - apply lex_string_good; [done|done|]. intros _. split; [done|by left].
    - intros d [= <-]. done. }
  cbn zeta. pose proof (skip_spaces_gap s) as G. destruct (skip_spaces s) as [|c t] eqn:Es.
  { split.
    - split; [|by rewrite Ee]. by left.
    - intros d Hd Hs. destruct s as [|d' u]; [done|]. injection Hd as ->. cbn in Es.
      assert (E : isspace d = false) by (unfold space_or_punct in Hs; unfold isspace in *; lia).
      by rewrite E in Es. }
  set (r := match punct (c :: t) with Some _ => _ | None => _ end).
  enough (good (c :: t) r /\ (space_or_punct c = false -> calm (c :: t) r)) as [H1 H2].
  { split; [by eapply good_gap|]. intros d Hd Hs. destruct s as [|d' u]; [done|]. injection Hd as ->.
    assert (E : isspace d = false) by (unfold space_or_punct in Hs; unfold isspace in *; lia).
    rewrite (skip_spaces_id d u E) in Es. injection Es as -> ->. by apply H2. }
  assert (Lc : (length (c :: t) <= length s)%nat).
  { destruct (Gap_app _ _ G) as [x Ex]. rewrite Ex, app_length. lia. }
  assert (Sc : isspace c = false) by (by eapply skip_spaces_head).
  assert (L2 : (2 * length (c :: t) <= n)%nat) by lia.
  clear s He L G Es Lc. subst r.
  destruct (punct (c :: t)) as [[p r]|] eqn:Ep.
  { destruct (punct_first _ _ _ _ Ep) as [Hp N95]. destruct (punct_spec _ _ _ Ep) as [E [Hp1 Hp2]]. split.
    - split; [|intros K; exfalso; revert K; by case_bool_decide; cbn; rewrite Ee].
      apply (tok_plain _ (LPunct p) p); [done| |].
      + cbn. split_and!; [done..|]. by rewrite <- E.
      + intros ->. revert Hp1. apply (bool_decide_unpack _). by vm_compute.
    - unfold space_or_punct. rewrite Hp, orb_true_r. cbn. lia. }
  destruct (N.eqb_spec c 125) as [->|N1].
  { split; [|done]. destruct (cont fl) eqn:Ec.
    - apply lex_string_good; [done|done|]. intros _. split; [done|by right].
    - split; [|by rewrite Ee]. apply (tok_plain _ (LPunct _) [125]); [done| |done].
      do 3 (split; [done|]). longest_tac. }
  destruct (N.eqb_spec c 47) as [->|N2].
  { split; [|done].
    assert (One : (forall u, t <> 61 :: u) -> good (47 :: t) (LGot (LTok (LPunct [47]) (47 :: t) t) t fl)).
    { intros Ht. split; [|by rewrite Ee]. apply (tok_plain _ (LPunct _) [47]); [done| |done].
      do 3 (split; [done|]). cbn [app]. split; [apply (bool_decide_unpack _); by vm_compute|].
      apply by_head. match goal with |- Forall _ ?l => let v := eval vm_compute in l in change l with v end.
      repeat apply List.Forall_cons; [| |exact (List.Forall_nil _)]; cbn beta.
      - intros _. cbn. lia.
      - intros [k E]. injection E as E. by destruct (Ht k). }
    destruct t as [|d t']; [by apply One|]. destruct (N.eqb_spec d 47) as [->|N3].
    { destruct (skip_line_spec t') as (b & E & F & Hh). set (v := skip_line t') in *. clearbody v. subst t'. apply (good_gap _ v).
      - apply G_line; [done|exact Hh|constructor].
      - apply HA; [by rewrite Ee|done|]. cbn in L2. rewrite app_length in L2. lia. }
    destruct (N.eqb_spec d 42) as [->|N4].
    { destruct (skip_comment 0 t') as [r|] eqn:E.
      - apply skip_comment_iff in E. eapply good_gap.
        + eapply G_block; [done|constructor].
        + destruct (Com_app _ _ E) as (x & -> & _). apply HA; [by rewrite Ee|done|]. cbn in L2. rewrite app_length in L2. lia.
      - split; [|by rewrite Ee]. apply (tok_err _ (47 :: 42 :: t')); [|done]. by rewrite app_nil_r. }
    destruct (N.eqb_spec d 61) as [->|N5].
    - split; [|by rewrite Ee]. apply (tok_plain _ (LPunct _) [47; 61]); [done| |done].
      do 3 (split; [done|]). longest_tac.
    - apply One. naive_solver. }
  destruct (N.eqb_spec c 34) as [->|N3].
  { split; [|done]. assert (K : good (34 :: t) (lex_string true fl (34 :: t) t)) by (by apply lex_string_good).
    destruct t as [|d [|e t']]; [done..|].
    destruct (N.eqb_spec d 34) as [->|]; [destruct (N.eqb_spec e 34) as [->|]|]; cbn [andb]; [|done..].
    pose proof (multiline_spec t') as M. destruct (multiline t') as [[e' r]|].
    - destruct M as (-> & b & -> & Hb). split; [|by rewrite Ee]. right.
      exists LStr, [34; 34], (34 :: b ++ [34]), [34; 34]. split_and!.
      + f_equal. cbn. by rewrite <- app_assoc.
      + cbn. rewrite <- app_assoc. constructor.
      + right. left. split_and!; [done..|]. by exists b.
      + done.
    - split; [|by rewrite Ee]. right. exists LErr, [34; 34], (34 :: t'), []. split_and!.
      + f_equal. cbn. by rewrite app_nil_r.
      + cbn. rewrite app_nil_r. constructor.
      + cbn. auto.
      + done. }
  destruct (N.eqb_spec c 39) as [->|N4]; [split; [by apply lex_char_good|done]|].
  assert (Hc : space_or_punct c = false -> c <> 10) by (unfold isspace in Sc; lia).
  destruct (_ && _) eqn:Ef.
  { apply andb_prop in Ef as [Ec Et]. apply N.eqb_eq in Ec as ->.
    destruct t as [|d t]; [done|]. apply N.eqb_eq in Et as ->. cbn [orb].
    destruct (cont fl).
    - split; [split; [|by rewrite Ee]; by apply (tok_err _ [102])|]. intros _. split; [done|]. intros K. by eapply safe_tail.
    - split; [split; [|done]; by apply (tok_plain _ LFStart [102])|]. intros _. split; [done|]. intros K. by eapply safe_tail. }
  clear Ef. destruct (_ || _) eqn:Ew.
  { cbn zeta. destruct (run_dec wordchar word_next t wordchar_iff) as (w & E & R). split.
    - split; [|by rewrite Ee]. apply (tok_plain _ LWord (c :: w)); [by cbn; f_equal| |done].
      split_and!; [done..|]. exists c, w. split_and!; [done| |done].
      unfold word_first, letter. unfold isalpha in Ew. lia.
    - intros _. split; [done|]. intros K. apply safe_skip_while; [done|]. eapply safe_tail; [done|].
      unfold isspace in Sc. lia. }
  destruct (isdigit c) eqn:Ed.
  { assert (Dc : digit c) by (by apply isdigit_iff).
    assert (D : good (c :: t) (lex_decimal fl (c :: t) t) /\ (space_or_punct c = false -> calm (c :: t) (lex_decimal fl (c :: t) t))).
    { destruct (lex_decimal_good fl c t Ee Dc) as (H1 & tt & s' & E & H2). split; [done|]. intros _. by rewrite E. }
    destruct (N.eqb_spec c 48) as [->|]; [|done].
    assert (B2 : forall x, (x =? 48) || (x =? 49) = true <-> base_digit 2 x) by (unfold base_digit; cbn; lia).
    assert (B8 : forall x, isodigit x = true <-> base_digit 8 x) by (unfold base_digit, isodigit; cbn; lia).
    assert (B16 : forall x, isxdigit x = true <-> base_digit 16 x) by (unfold base_digit, isxdigit, digit, isdigit; cbn; lia).
    unfold accept. destruct t as [|d t]; [done|]. cbn in L2.
    destruct (N.eqb_spec d 98) as [->|]; [|destruct (N.eqb_spec d 120) as [->|]; [|destruct (N.eqb_spec d 111) as [->|]; [|done]]].
    - destruct (based_ok n fl 2 _ t HS Ee Hq ltac:(lia) B2 ltac:(lia)). split; auto.
    - destruct (based_ok n fl 16 _ t HS Ee Hq ltac:(lia) B16 ltac:(lia)). split; auto.
    - destruct (based_ok n fl 8 _ t HS Ee Hq ltac:(lia) B8 ltac:(lia)). split; auto. }
  split; [split; [|by rewrite Ee]; by apply (tok_err _ [c])|]. intros Hs. split; [done|]. intros K. eapply safe_tail; [done|auto].
Qed.
Lemma good_len s t s' fl : good s (LGot t s' fl) -> (exists x, s = x ++ s') /\ (s <> [] -> (length s' < length s)%nat).
Proof.
  intros [[(-> & -> & G)|(tag & pre & text & post & -> & G & _ & N0)] _].
  - destruct (Gap_app _ _ G) as [x ->]. rewrite app_nil_r. split; [exists x; by rewrite app_nil_r|]. destruct x; cbn; [done|lia].
  - destruct (Gap_app _ _ G) as [x ->]. split; [exists (x ++ pre ++ text ++ post); by rewrite <- !app_assoc|].
    intros _. rewrite !app_length. destruct text; [done|cbn; lia].
Qed.
Lemma skip_step n : scan_ok n -> skip_ok n -> skip_ok (S n).
Proof.
  intros HA HS fl s He Hq L. cbn [skip_until]. destruct s as [|c t]; [apply safe_nil|].
  destruct (space_or_punct c) eqn:Ec; [split_and!; [done..|by exists []]|].
  assert (E : enter fl = false).
  { destruct (enter fl); [|done]. specialize (He eq_refl). injection He as ->. done. }
  unfold advance_with. destruct Hq as [Hq1 Hq2]. rewrite Hq1, Hq2.
  set (fl1 := if isdigit c || (c =? 46) then fl else set_notfloat false fl).
  assert (E1 : enter fl1 = false) by (unfold fl1; by destruct (_ || _)).
  assert (Q1 : quiet fl1) by (unfold fl1; by destruct (_ || _)).
  destruct (HA fl1 (c :: t)) as [G C]; [by rewrite E1|done|lia|]. specialize (C c eq_refl Ec). clearbody fl1.
  destruct (scan n fl1 (c :: t)) as [tk s' fl'| | | |].
  - destruct (good_len _ _ _ _ G) as [[x Ex] Ln]. specialize (Ln ltac:(done)). destruct C as [Cq Cs].
    assert (K : skipped s' (skip_until n fl' s')) by (apply HS; [by apply G|done|lia]).
    assert (As : ascii (c :: t) -> ascii s') by (intros H; rewrite Ex in H; by apply Forall_app in H as [_ H]).
    destruct (skip_until n fl' s') as [t2 s2 fl2| | | |]; cbn in *; [|naive_solver..].
    destruct K as (K1 & K2 & K3 & y & ->). split_and!; [done|done|auto|]. exists (x ++ y). by rewrite Ex, app_assoc.
  - cbn in *. intros H. apply G. by right.
  - cbn in *. intros [? ?]. apply G. split; [by right|done].
  - cbn in *. intros [? ?]. apply G. split; [by right|done].
  - done.
Qed.
Lemma scan_skip n : scan_ok n /\ skip_ok n.
Proof.
  induction n as [|n [IH1 IH2]].
  - split; intros fl s ? ? ?; lia.
  - split; [by apply scan_step|by apply skip_step].
Qed.

(** ** The whole file *)
Definition pend (fl : lflags) : nat := (if exit fl then 1 else 0) + (if lstrfmt fl then 1 else 0).
Definition inv (fl : lflags) (s : list N) : Prop := enter fl = true -> head s = Some 34.
Lemma lex_loop_ok n : forall fl s, inv fl s -> (3 * length s + pend fl < n)%nat ->
  match lex_loop n fl s with
  | AToks ts => Covers s ts
  | AStop r => match r with
    | LFuel | LGot _ _ _ => False
    | LHang => ~ safe0 s
    | LAbort | LUb => ~ (safe0 s /\ ascii s)
    end
  end.
Proof.
  induction n as [|n IH]; intros fl s Hi L; [lia|]. cbn [lex_loop]. unfold advance, advance_with.
  assert (Z : forall t fl', inv fl' s -> (pend fl' < pend fl)%nat -> t = LFmt \/ t = LFEnd ->
    match match lex_loop n fl' s with AToks ts => AToks (LTok t s s :: ts) | r => r end with
    | AToks ts => Covers s ts
    | AStop r => match r with
      | LFuel | LGot _ _ _ => False
      | LHang => ~ safe0 s
      | LAbort | LUb => ~ (safe0 s /\ ascii s)
      end
    end).
  { intros t fl' Hi' Lp Ht. specialize (IH fl' s Hi' ltac:(lia)). destruct (lex_loop n fl' s) as [ts|r]; [|done].
    apply (Cov_tok s t [] [] [] s); [constructor| |done]. by destruct Ht as [-> | ->]. }
  destruct (exit fl) eqn:E1.
  { cbn [tk_tag]. apply Z; [done| |auto]. unfold pend. cbn. rewrite E1. lia. }
  destruct (lstrfmt fl) eqn:E2.
  { cbn [tk_tag]. apply Z; [done| |auto]. unfold pend. cbn. rewrite E1, E2. lia. }
  set (fl1 := if match s with [] => false | c :: _ => isdigit c || (c =? 46) end then fl else set_notfloat false fl).
  assert (Hi1 : enter fl1 = true -> head s = Some 34) by (unfold fl1; by case_match).
  assert (Q1 : quiet fl1) by (unfold fl1; by case_match). clearbody fl1.
  destruct (proj1 (scan_skip (2 * length s + 2)) fl1 s Hi1 Q1 ltac:(lia)) as [G _].
  destruct (scan (2 * length s + 2) fl1 s) as [t s' fl'| | | |]; cbn in G |- *; try done.
  destruct G as [T Hi'].
  destruct T as [(-> & -> & G)|(tag & pre & text & post & -> & G & Lx & N0)]; [by apply Cov_eof|].
  cbn [tk_tag].
  assert (Ns : tag <> LEof) by (by intros ->).
  assert (Lt : (length s' < length s)%nat).
  { destruct (Gap_app _ _ G) as [x ->]. rewrite !app_length. destruct text; [done|cbn; lia]. }
  specialize (IH fl' s' Hi'). assert (pend fl' <= 2)%nat by (unfold pend; by repeat case_match; lia).
  specialize (IH ltac:(lia)).
  assert (R : match match lex_loop n fl' s' with AToks ts => AToks (LTok tag (text ++ post ++ s') (post ++ s') :: ts) | r => r end with
    | AToks ts => Covers s ts
    | AStop r => match r with
      | LFuel | LGot _ _ _ => False
      | LHang => ~ safe0 s
      | LAbort | LUb => ~ (safe0 s /\ ascii s)
      end
    end).
  { destruct (lex_loop n fl' s') as [ts|r]; [by eapply Cov_tok|].
    assert (S0 : safe0 s -> safe0 s').
    { destruct (Gap_app _ _ G) as [x ->]. intros K. apply (safe0_app (x ++ pre ++ text ++ post)). by rewrite <- !app_assoc. }
    assert (A0 : ascii s -> ascii s').
    { destruct (Gap_app _ _ G) as [x ->]. unfold ascii. rewrite !Forall_app. naive_solver. }
    destruct r; naive_solver. }
  by destruct tag.
Qed.
Lemma lex_ok s :
  match lex s with
  | AToks ts => Covers s ts
  | AStop r => match r with
    | LFuel | LGot _ _ _ => False
    | LHang => ~ safe0 s
    | LAbort | LUb => ~ (safe0 s /\ ascii s)
    end
  end.
Proof. apply lex_loop_ok; [done|]. cbn. lia. Qed.
Lemma Covers_ordered s ts : Covers s ts -> ordered (length s) ts.
Proof.
  assert (M : forall ts n m, (n <= m)%nat -> ordered n ts -> ordered m ts) by (intros [|? ?] n m ?; cbn; [done|]; intuition lia).
  induction 1 as [s G|s tag pre text post s' ts G _ _ IH]; cbn.
  - lia.
  - destruct (Gap_app _ _ G) as [x ->]. split_and!; [rewrite !app_length; lia..|].
    eapply M; [|done]. rewrite app_length. lia.
Qed.
Lemma Covers_last s ts : Covers s ts -> exists us, ts = us ++ [LTok LEof [] []] /\ Forall (fun t => tk_tag t <> LEof) us.
Proof.
  induction 1 as [s G|s tag pre text post s' ts G L _ (us & -> & F)]; [by exists []|].
  exists (LTok tag (text ++ post ++ s') (post ++ s') :: us). split; [done|]. constructor; [|done]. cbn. by intros ->.
Qed.
