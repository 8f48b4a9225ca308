From stdpp Require Import list numbers.
From Coq Require Import ZifyBool ZifyNat ZifyN.
From Verif Require Import HTableModel KTableModel KTableProofs ScopeModel ScopeSpec.

Section proofs.
Context (P : program) (hashp : N → N).
Notation reps := (@reps N symbol N.eqb hashp).
Notation srun := (srun P hashp).
Notation sstep := (sstep P hashp).

Lemma eqb_ok a b : N.eqb a b = true ↔ a = b.
Proof. apply N.eqb_eq. Qed.
Lemma tag_eqb_ok a b : tag_eqb a b = true ↔ a = b.
Proof. destruct a, b; cbn; split; congruence. Qed.
Lemma tag_eqb_no a b : tag_eqb a b = false ↔ a ≠ b.
Proof. destruct a, b; cbn; split; congruence. Qed.

Definition sym_ok (s : symbol) (l : list N) : Prop :=
  head l = Some (s_node s) ∧
  (tag_of P (s_node s) = TgFunc →
     s_last s = list.last l ∧ s_index s = (N.of_nat (length l) mod 2 ^ 16)%N).
Definition agrees (m : N → option symbol) (f : N → option (list N)) : Prop :=
  ∀ x, match m x, f x with
       | None, None => True
       | Some s, Some l => sym_ok s l
       | _, _ => False
       end.
Definition srep (sc : scope) (fr : frame) : Prop :=
  sc_node sc = fst fr ∧ ∃ m, reps (sc_syms sc) m ∧ agrees m (snd fr).
Fixpoint frames_ok (chain : list scope) (fs : list frame) : Prop :=
  match fs with
  | [] => True
  | fr :: rest => (∃ sc, chain !! length rest = Some sc ∧ srep sc fr) ∧ frames_ok chain rest
  end.
Definition R (e : env) (fs : list frame) : Prop :=
  e_depth e = length fs ∧ (1 ≤ length (e_chain e))%nat ∧
  (∀ j sc, e_chain e !! j = Some sc → (length fs ≤ j)%nat → reps (sc_syms sc) (λ _, None)) ∧
  frames_ok (e_chain e) fs.

Lemma frames_ok_insert chain fs j sc : (length fs ≤ j)%nat →
  frames_ok chain fs → frames_ok (<[j := sc]> chain) fs.
Proof.
  induction fs as [|fr fs IH]; [done|]. cbn. intros L [(sc' & E & H) H2]. split; [|apply IH; [lia|done]].
  exists sc'. rewrite list_lookup_insert_ne by lia. done.
Qed.
Lemma frames_ok_app chain fs more : frames_ok chain fs → frames_ok (chain ++ more) fs.
Proof.
  induction fs as [|fr fs IH]; [done|]. cbn. intros [(sc' & E & H) H2]. split; [|by apply IH].
  exists sc'. split; [|done]. by apply lookup_app_l_Some.
Qed.

Lemma current_R e fr fs : R e (fr :: fs) →
  ∃ sc, current e = Some sc ∧ srep sc fr ∧ e_chain e !! length fs = Some sc.
Proof. intros (D & _ & _ & (sc & E & H) & _). exists sc. unfold current. by rewrite D. Qed.

(** Writing the table of the current scope. *)
Lemma put_R e fr fs sc t m f : R e (fr :: fs) → e_chain e !! length fs = Some sc → srep sc fr →
  reps t m → agrees m f → R (put_syms e sc t) ((fst fr, f) :: fs).
Proof.
  intros (D & L & C & _ & F) E [Sn _] Rt A. unfold put_syms. rewrite D. cbn [length pred].
  assert (Hl : (length fs < length (e_chain e))%nat) by (by eapply lookup_lt_Some).
  split; [|split; [|split]]; cbn [e_depth e_chain length].
  - done.
  - by rewrite insert_length.
  - intros j sc' Hj Lj. rewrite list_lookup_insert_ne in Hj by lia. apply (C j); [done|]. cbn. lia.
  - split; [|by apply frames_ok_insert]. exists (Scope t (sc_node sc)).
    rewrite list_lookup_insert by lia. split; [done|]. split; [done|]. cbn. eauto.
Qed.
Lemma put_fields_R e fs fl : R e fs → R (put_fields e fl) fs.
Proof. done. Qed.

Lemma push_R e fs n : R e fs → R (push_scope e n) (empty_frame n :: fs).
Proof.
  intros (D & L & C & F). unfold push_scope. rewrite D.
  destruct (e_chain e !! length fs) as [sc|] eqn:E.
  - assert (Hl : (length fs < length (e_chain e))%nat) by (by eapply lookup_lt_Some).
    split; [|split; [|split]]; cbn [e_depth e_chain length].
    + done.
    + by rewrite insert_length.
    + intros j sc' Hj Lj. rewrite list_lookup_insert_ne in Hj by lia. apply (C j); [done|]. lia.
    + split; [|by apply frames_ok_insert]. exists (Scope (sc_syms sc) n).
      rewrite list_lookup_insert by lia. split; [done|]. split; [done|].
      exists (λ _, None). split; [|done]. cbn. apply (C (length fs)); [done|lia].
  - apply lookup_ge_None in E.
    assert (EQ : length (e_chain e) = length fs).
    { destruct fs as [|fr fs']; [cbn in *; lia|]. destruct F as [(sc & E' & _) _].
      apply lookup_lt_Some in E'. cbn in *. lia. }
    split; [|split; [|split]]; cbn [e_depth e_chain length].
    + done.
    + rewrite app_length. cbn. lia.
    + intros j sc' Hj Lj. apply lookup_lt_Some in Hj. rewrite app_length in Hj. cbn in Hj. lia.
    + split; [|by apply frames_ok_app]. exists (new_scope n). rewrite <- EQ.
      rewrite lookup_app_r, Nat.sub_diag by lia. split; [done|]. split; [done|].
      exists (λ _, None). split; [|done]. apply kt_new_reps. 
Qed.

Lemma pop_R e fr fs : R e (fr :: fs) → ∃ e', pop_scope e = SOk e' ∧ R e' fs ∧ e_fields e' = e_fields e.
Proof.
  intros HR. destruct (current_R e fr fs HR) as (sc & E & (Sn & m & Rm & A) & Ec). unfold pop_scope.
  rewrite E. eexists. split; [done|]. destruct HR as (D & L & C & _ & F).
  unfold put_syms. rewrite D. cbn [length pred e_chain e_fields]. split; [|done].
  assert (Hl : (length fs < length (e_chain e))%nat) by (by eapply lookup_lt_Some).
  split; [|split; [|split]]; cbn [e_depth e_chain length].
  - done.
  - by rewrite insert_length.
  - intros j sc' Hj Lj. destruct (decide (j = length fs)) as [->|].
    + rewrite list_lookup_insert in Hj by lia. simplify_eq. cbn. by eapply kt_clear_reps.
    + rewrite list_lookup_insert_ne in Hj by lia. apply (C j); [done|]. cbn. lia.
  - by apply frames_ok_insert.
Qed.

Lemma init_R n : R (env_init n) [empty_frame n].
Proof.
  apply push_R. split; [done|]. split; [cbn; lia|]. split; [|done].
  intros j sc Hj _. destruct j as [|j]; [|done]. cbn in Hj. simplify_eq. cbn. apply kt_new_reps.
Qed.

Lemma insert_R sc (fr : frame) x s m : reps (sc_syms sc) m → agrees m (snd fr) →
  match m x with
  | Some old => ∃ t l, syms_insert hashp (sc_syms sc) x s = SOk (t, false) ∧ reps t m ∧
       snd fr x = Some l ∧ sym_ok old l
  | None => ∃ t, syms_insert hashp (sc_syms sc) x s = SOk (t, true) ∧
       reps t (upd N.eqb x s m) ∧ snd fr x = None
  end.
Proof.
  intros Rm A. destruct (kt_insert_reps N.eqb hashp eqb_ok (sc_syms sc) m x s Rm) as (t & E & Rt).
  unfold syms_insert. specialize (A x). destruct (m x) as [old|] eqn:Em; rewrite E; cbn [of_table].
  - destruct (snd fr x) as [l|] eqn:El; [|done]. by exists t, l.
  - destruct (snd fr x) as [l|] eqn:El; [done|]. by exists t.
Qed.
Lemma find_R t m x s : reps t m →
  match m x with
  | Some old => ∃ i, syms_find hashp t x s = SOk (Some (i, old)) ∧
                     ∀ s', reps (kt_store t i (x, s')) (upd N.eqb x s' m)
  | None => syms_find hashp t x s = SOk None
  end.
Proof.
  intros Rm. pose proof (kt_find_reps N.eqb hashp eqb_ok t m x s Rm) as H. unfold syms_find.
  destruct (m x) as [old|]; [|by rewrite H]. destruct H as (i & -> & Hs). by exists i.
Qed.
Lemma agrees_upd m f x s l : agrees m f → sym_ok s l →
  agrees (upd N.eqb x s m) (λ y, if (y =? x)%N then Some l else f y).
Proof.
  intros A S y. unfold upd. rewrite (N.eqb_sym y x). destruct (x =? y)%N; [done|]. apply A.
Qed.
Lemma find_in_R chain fs x : frames_ok chain fs → (length fs ≤ length chain)%nat →
  find_in P hashp (rev (take (length fs) chain)) x = SOk (meaning P fs x).
Proof.
  revert chain. induction fs as [|fr fs IH]; intros chain F L; [done|].
  cbn [length frames_ok] in *. destruct F as [(sc & E & Sn & m & Rm & A) F].
  rewrite (take_S_r _ _ _ E), rev_app_distr. cbn [rev app find_in meaning].
  pose proof (find_R _ m x (Symbol 0 0 None) Rm) as H. specialize (A x).
  destruct (m x) as [s|].
  - destruct H as (i & -> & _). cbn [sbind]. destruct (snd fr x) as [l|]; [|done].
    destruct A as [-> _]. done.
  - rewrite H. cbn [sbind]. destruct (snd fr x) as [l|]; [done|]. apply IH; [done|lia].
Qed.
Lemma enclosing_R chain fs want : frames_ok chain fs → (length fs ≤ length chain)%nat →
  match List.find (λ sc, want (tag_of P (sc_node sc))) (rev (take (length fs) chain)) with
  | Some sc => Some (sc_node sc) | None => None end = innermost P want fs.
Proof.
  revert chain. induction fs as [|fr fs IH]; intros chain F L; [done|].
  cbn [length frames_ok] in *. destruct F as [(sc & E & Sn & m & Rm & A) F].
  rewrite (take_S_r _ _ _ E), rev_app_distr. cbn [rev app List.find innermost]. rewrite Sn.
  destruct (want (tag_of P (fst fr))); [by rewrite Sn|]. apply IH; [done|lia].
Qed.
Lemma R_len e fs : R e fs → (length fs ≤ length (e_chain e))%nat.
Proof.
  intros (_ & L & _ & F). destruct fs as [|fr fs]; [cbn; lia|]. destruct F as [(sc & E & _) _].
  apply lookup_lt_Some in E. cbn. lia.
Qed.

(** The fields of function nodes. *)
Definition node_ok (fl : fields) (own : N → option (nat * N)) (U : list N) (lev : nat) (x : N)
    (l : list N) (h : N) : Prop :=
  NoDup l ∧ ∀ i n, l !! i = Some n →
    own n = Some (lev, x) ∧ n ∈ U ∧ f_first fl n = Some h ∧ f_link fl n = l !! S i ∧
    f_index fl n = (N.of_nat i mod 2 ^ 16)%N.
Fixpoint fields_ok (fl : fields) (own : N → option (nat * N)) (U : list N) (fs : list frame) : Prop :=
  match fs with
  | [] => True
  | fr :: rest =>
    (∀ x l h, snd fr x = Some l → head l = Some h → tag_of P h = TgFunc →
       node_ok fl own U (length rest) x l h) ∧ fields_ok fl own U rest
  end.
Definition FI (fl : fields) (U : list N) (fs : list frame) : Prop :=
  (∃ own, fields_ok fl own U fs) ∧ ∀ n, n ∉ U → f_link fl n = None ∧ f_index fl n = 0%N.

Lemma declare_func fs x n :
  fstep P fs (OFunction x n) =
  match fs with
  | [] => None
  | fr :: outer =>
    if ignored P x then Some (fs, RBool true) else
    match snd fr x with
    | None => Some (with_entry fr x [n] :: outer, RBool true)
    | Some l =>
      if first_is (λ m, tag_eqb (tag_of P m) TgFunc) l
      then Some (with_entry fr x (l ++ [n]) :: outer, RBool true)
      else Some (fs, RBool false)
    end
  end.
Proof.
  cbn. unfold declare. destruct fs as [|fr fs]; [done|]. destruct (ignored P x); [done|].
  destruct (snd fr x) as [l|]; [|done]. by destruct (first_is _ l).
Qed.

Lemma define_R e fs x n : R e fs → tag_of P n ≠ TgFunc →
  match fstep P fs (ODefine x n) with
  | None => sstep e (ODefine x n) = SAssert
  | Some (fs', out) => ∃ e', sstep e (ODefine x n) = SOk (e', out) ∧ R e' fs' ∧ e_fields e' = e_fields e
  end.
Proof.
  intros HR T. cbn [fstep sstep]. unfold declare, define_symbol. destruct fs as [|fr fs].
  { destruct HR as (D & _). unfold current. by rewrite D. }
  destruct (current_R e fr fs HR) as (sc & -> & (Sn & m & Rm & A) & Ec).
  destruct (ignored P x); [by exists e|].
  pose proof (insert_R sc fr x (Symbol 0 n None) m Rm A) as H. destruct (m x) as [old|] eqn:Em.
  - destruct H as (t & l & -> & Rt & El & _). rewrite El. cbn [sbind fst snd].
    eexists. split; [done|]. split; [|done].
    replace (fr :: fs) with ((fst fr, snd fr) :: fs) by (by destruct fr).
    by eapply put_R; [| |split; [|exists m]| |].
  - destruct H as (t & -> & Rt & El). rewrite El. cbn [sbind fst snd].
    eexists. split; [done|]. split; [|done]. unfold with_entry.
    eapply put_R; [done|done|by split; [|exists m]|exact Rt|]. apply agrees_upd; [done|].
    split; [done|]. done.
Qed.

Lemma forward_R e fs x n : forwards_completable P → R e fs → tag_of P n ≠ TgFunc →
  match fstep P fs (OForward x n) with
  | None => sstep e (OForward x n) = SAssert
  | Some (fs', out) => ∃ e', sstep e (OForward x n) = SOk (e', out) ∧ R e' fs' ∧
      f_link (e_fields e') = f_link (e_fields e) ∧ f_first (e_fields e') = f_first (e_fields e) ∧
      f_index (e_fields e') = f_index (e_fields e)
  end.
Proof.
  intros FC HR T. cbn [fstep sstep]. unfold declare, define_forward. destruct fs as [|fr fs].
  { destruct HR as (D & _). unfold current. by rewrite D. }
  destruct (current_R e fr fs HR) as (sc & -> & (Sn & m & Rm & A) & Ec).
  destruct (ignored P x); [by exists e|].
  pose proof (insert_R sc fr x (Symbol 0 n None) m Rm A) as H. destruct (m x) as [old|] eqn:Em.
  - destruct H as (t & l & -> & Rt & El & Hd & _). rewrite El. cbn [sbind fst snd].
    pose proof (find_R t m x (Symbol 0 n None) Rt) as F. rewrite Em in F. destruct F as (i & -> & St).
    cbn [sbind]. destruct l as [|h l]; [done|]. cbn in Hd. injection Hd as Hd. cbn [first_is]. rewrite Hd.
    destruct (is_fwd P (s_node old)) eqn:Fw; cbn [negb].
    + assert (HT : ∀ A (a b : A), match tag_of P (s_node old) with
          | TgFunc | TgMacro | TgType => a | _ => b end = a).
      { intros. by destruct (FC _ Fw) as [-> | [-> | ->]]. }
      rewrite HT. cbn [sbind fst snd]. eexists. split; [done|]. split; [|done].
      apply put_fields_R. unfold with_entry. eapply put_R; [done|done|by split; [|exists m]|apply St|].
      apply agrees_upd; [done|]. split; done.
    + eexists. split; [done|]. split; [|done].
      replace (fr :: fs) with ((fst fr, snd fr) :: fs) by (by destruct fr).
      by eapply put_R; [| |split; [|exists m]| |].
  - destruct H as (t & -> & Rt & El). rewrite El. cbn [sbind fst snd].
    eexists. split; [done|]. split; [|done]. unfold with_entry.
    eapply put_R; [done|done|by split; [|exists m]|exact Rt|]. apply agrees_upd; [done|].
    split; [done|]. done.
Qed.

Lemma update_R e fs x n : R e fs → tag_of P n ≠ TgFunc →
  match fstep P fs (OUpdate x n) with
  | None => sstep e (OUpdate x n) = SAssert
  | Some (fs', out) => ∃ e', sstep e (OUpdate x n) = SOk (e', out) ∧ R e' fs' ∧ e_fields e' = e_fields e
  end.
Proof.
  intros HR T. cbn [fstep sstep]. unfold declare, update_symbol. destruct fs as [|fr fs].
  { destruct HR as (D & _). unfold current. by rewrite D. }
  destruct (current_R e fr fs HR) as (sc & -> & (Sn & m & Rm & A) & Ec).
  destruct (ignored P x); [by exists e|].
  pose proof (insert_R sc fr x (Symbol 0 n None) m Rm A) as H. destruct (m x) as [old|] eqn:Em.
  - destruct H as (t & l & -> & Rt & El & Hd & _). cbn [sbind fst snd].
    pose proof (find_R t m x (Symbol 0 n None) Rt) as F. rewrite Em in F. destruct F as (i & -> & St).
    cbn [sbind]. eexists. split; [done|]. split; [|done].
    unfold with_entry. eapply put_R; [done|done|by split; [|exists m]|apply St|].
    apply agrees_upd; [done|]. split; done.
  - destruct H as (t & -> & Rt & El). cbn [sbind fst snd].
    eexists. split; [done|]. split; [|done]. unfold with_entry.
    eapply put_R; [done|done|by split; [|exists m]|exact Rt|]. apply agrees_upd; [done|].
    split; [done|]. done.
Qed.

Lemma index_next k : (((k mod 2 ^ 16) + 1) mod 2 ^ 16 = (k + 1) mod 2 ^ 16)%N.
Proof. rewrite N.add_mod_idemp_l; [done|]. done. Qed.

Lemma upd_twice (m : N → option symbol) x s s' y :
  upd N.eqb x s' (upd N.eqb x s m) y = upd N.eqb x s' m y.
Proof. unfold upd. by destruct (x =? y)%N. Qed.

Lemma function_R e fs x n : R e fs → tag_of P n = TgFunc →
  match fstep P fs (OFunction x n) with
  | None => sstep e (OFunction x n) = SAssert
  | Some (fs', out) => ∃ e', sstep e (OFunction x n) = SOk (e', out) ∧ R e' fs' ∧
      (ignored P x = true → e_fields e' = e_fields e) ∧
      (∀ fr rest, fs = fr :: rest → ignored P x = false →
        let fl := e_fields e in let fl' := e_fields e' in
        (∀ p, p ≠ n → f_first fl' p = f_first fl p) ∧
        (∀ p, p ≠ n → f_index fl' p = f_index fl p) ∧
        match snd fr x with
        | None => f_first fl' n = Some n ∧ f_link fl' = f_link fl ∧ f_index fl' = f_index fl
        | Some l =>
          match head l with
          | Some h =>
            if tag_eqb (tag_of P h) TgFunc then
              f_first fl' n = Some h ∧ f_index fl' n = (N.of_nat (length l) mod 2 ^ 16)%N ∧
              ∃ la, list.last l = Some la ∧ f_link fl' la = Some n ∧
                 ∀ p, p ≠ la → f_link fl' p = f_link fl p
            else f_link fl' = f_link fl ∧ f_index fl' = f_index fl
          | None => False
          end
        end)
  end.
Proof.
  intros HR T. rewrite declare_func. cbn [sstep]. unfold define_function.
  destruct fs as [|fr fs].
  { destruct HR as (D & _). unfold current. by rewrite D. }
  destruct (current_R e fr fs HR) as (sc & -> & (Sn & m & Rm & A) & Ec).
  destruct (ignored P x) eqn:Ig.
  { exists e. cbn. split; [done|]. split; [done|]. split; [done|]. done. }
  pose proof (insert_R sc fr x (Symbol 0 n None) m Rm A) as H. destruct (m x) as [old|] eqn:Em.
  - destruct H as (t & l & -> & Rt & El & Hd & Hf). rewrite El. cbn [sbind fst snd].
    pose proof (find_R t m x (Symbol 0 n None) Rt) as F. rewrite Em in F. destruct F as (i & -> & St).
    cbn [sbind]. destruct l as [|h l]; [done|]. cbn in Hd. injection Hd as Hd. cbn [first_is]. subst h.
    destruct (tag_eqb (tag_of P (s_node old)) TgFunc) eqn:Tg; cbn [negb].
    + apply tag_eqb_ok in Tg. destruct (Hf Tg) as [HL HI].
      destruct (list.last (s_node old :: l)) as [la|] eqn:EL; [|by apply last_None in EL].
      rewrite HL. cbn [sbind fst snd]. eexists. split; [done|]. split; [|split].
      * apply put_fields_R. unfold with_entry. eapply put_R; [done|done|by split; [|exists m]|apply St|].
        apply agrees_upd; [done|]. split; [done|]. intros _. cbn [s_last s_index].
        split; [by rewrite last_snoc|]. rewrite HI, index_next, app_length. f_equal. cbn. lia.
      * done.
      * intros fr' rest ? _. simplify_eq. rewrite El. cbn [head]. rewrite Tg. cbn [tag_eqb].
        cbn [e_fields put_fields f_first f_index f_link]. unfold set_at. split; [|split].
        -- intros p Np. by destruct (N.eqb_spec p n).
        -- intros p Np. by destruct (N.eqb_spec p n).
        -- rewrite N.eqb_refl. split; [done|]. split; [done|]. exists la. split; [done|].
           rewrite N.eqb_refl. split; [done|]. intros p Np. by destruct (N.eqb_spec p la).
    + cbn [sbind fst snd]. eexists. split; [done|]. split; [|split].
      * apply put_fields_R.
        replace (fr :: fs) with ((fst fr, snd fr) :: fs) by (by destruct fr).
        eapply put_R; [done|done|by split; [|exists m]|apply St|].
        intros y. specialize (A y). unfold upd. destruct (N.eqb_spec x y) as [<-|]; [|done].
        rewrite El. split; [done|]. cbn [s_node]. apply tag_eqb_no in Tg. done.
      * done.
      * intros fr' rest ? _. simplify_eq. rewrite El. cbn [head]. rewrite Tg.
        cbn [e_fields put_fields f_first f_index f_link]. unfold set_at. split; [|split; [|done]].
        -- intros p Np. by destruct (N.eqb_spec p n).
        -- done.
  - destruct H as (t & -> & Rt & El). rewrite El. cbn [sbind fst snd].
    pose proof (find_R t _ x (Symbol 0 n None) Rt) as F. rewrite (upd_eq N.eqb eqb_ok) in F.
    destruct F as (i & -> & St). cbn [sbind fst snd s_node s_index s_last].
    eexists. split; [done|]. split; [|split].
    + apply put_fields_R. unfold with_entry. eapply put_R; [done|done|by split; [|exists m]| |].
      * eapply reps_ext; [|apply St]. intros y. apply upd_twice.
      * apply agrees_upd; [done|]. split; [done|]. intros _. split; [done|]. done.
    + done.
    + intros fr' rest ? _. simplify_eq. rewrite El.
      cbn [e_fields put_fields f_first f_index f_link]. unfold set_at. split; [|split].
      * intros p Np. by destruct (N.eqb_spec p n).
      * done.
      * by rewrite N.eqb_refl.
Qed.

(** One step agrees with the frames. *)
Definition good (o : sop) : Prop := functions_as_functions P o.
Lemma step_R e fs o : forwards_completable P → R e fs → good o →
  match fstep P fs o with
  | None => sstep e o = SAssert
  | Some (fs', out) => ∃ e', sstep e o = SOk (e', out) ∧ R e' fs'
  end.
Proof.
  intros FC HR G. destruct o as [n| |x n|x n|x n|x n|x|a b c].
  - cbn. eexists. split; [done|]. by apply push_R.
  - destruct fs as [|fr fs].
    + destruct HR as (D & _). cbn. unfold pop_scope, current. by rewrite D.
    + destruct (pop_R e fr fs HR) as (e' & E & HR' & _). cbn. rewrite E. by exists e'.
  - pose proof (define_R e fs x n HR G) as H. destruct (fstep P fs _) as [[fs' out]|]; [|done].
    destruct H as (e' & E & HR' & _). eauto.
  - pose proof (forward_R e fs x n FC HR G) as H. destruct (fstep P fs _) as [[fs' out]|]; [|done].
    destruct H as (e' & E & HR' & _). eauto.
  - pose proof (update_R e fs x n HR G) as H. destruct (fstep P fs _) as [[fs' out]|]; [|done].
    destruct H as (e' & E & HR' & _). eauto.
  - pose proof (function_R e fs x n HR G) as H. destruct (fstep P fs _) as [[fs' out]|]; [|done].
    destruct H as (e' & E & HR' & _). eauto.
  - pose proof (R_len e fs HR) as L. destruct HR as (D & HR). cbn. unfold find_symbol, open_scopes.
    rewrite D, find_in_R; [|apply HR|done]. exists e. done.
  - pose proof (R_len e fs HR) as L. destruct HR as (D & HR). cbn. unfold find_enclosing, open_scopes.
    rewrite D.
    rewrite (enclosing_R _ fs (λ t, tag_eqb t a || tag_eqb t b || tag_eqb t c)); [|apply HR|done].
    exists e. done.
Qed.
Lemma run_R ops : ∀ e fs, forwards_completable P → R e fs → Forall good ops →
  match frun P fs ops with
  | None => srun e ops = SAssert
  | Some (fs', outs) => ∃ e', srun e ops = SOk (e', outs) ∧ R e' fs'
  end.
Proof.
  induction ops as [|o ops IH]; intros e fs FC HR G; [cbn; by exists e|].
  inversion G as [|? ? Go Gs]; subst.
  cbn [frun ScopeModel.srun]. pose proof (step_R e fs o FC HR Go) as H.
  destruct (fstep P fs o) as [[fs1 out]|].
  - destruct H as (e1 & E1 & R1). rewrite E1. cbn [sbind fst snd]. specialize (IH e1 fs1 FC R1 Gs).
    destruct (frun P fs1 ops) as [[fs2 outs]|].
    + destruct IH as (e2 & -> & R2). cbn. eauto.
    + rewrite IH. done.
  - rewrite H. done.
Qed.

(** * Overload chains *)
Lemma node_ok_same fl fl' own own' U U' lev x l h n :
  node_ok fl own U lev x l h → (∀ p, p ∈ U → p ∈ U') → n ∉ l →
  (∀ p, p ∈ l → f_link fl' p = f_link fl p) →
  (∀ p, p ≠ n → f_first fl' p = f_first fl p) → (∀ p, p ≠ n → f_index fl' p = f_index fl p) →
  (∀ p, p ≠ n → own' p = own p) → node_ok fl' own' U' lev x l h.
Proof.
  intros [ND H] HU Hn HL HF HI HO. split; [done|]. intros i p Hi.
  assert (Hp : p ∈ l) by (by apply elem_of_list_lookup_2 in Hi).
  assert (Np : p ≠ n) by (by intros ->).
  destruct (H i p Hi) as (H1 & H2 & H3 & H4 & H5).
  rewrite HO, HF, HL, HI by done. split; [done|]. split; [by apply HU|]. done.
Qed.
Lemma fields_ok_same fl fl' own own' U U' fs n la (dis : nat * N) :
  fields_ok fl own U fs → (∀ p, p ∈ U → p ∈ U') → n ∉ U →
  (length fs ≤ fst dis)%nat → (∀ p, la = Some p → own p = Some dis) →
  (∀ p, la ≠ Some p → f_link fl' p = f_link fl p) →
  (∀ p, p ≠ n → f_first fl' p = f_first fl p) → (∀ p, p ≠ n → f_index fl' p = f_index fl p) →
  (∀ p, p ≠ n → own' p = own p) → fields_ok fl' own' U' fs.
Proof.
  intros H HU Hn. revert H. induction fs as [|fr fs IH]; [done|].
  cbn [fields_ok length]. intros [H1 H2] L HD HL HF HI HO.
  split; [|by apply IH; [..|lia| | | | |]].
  intros x l h El Hh Th. specialize (H1 x l h El Hh Th).
  eapply node_ok_same; [done|done| | |done|done|done].
  - intros Hin. apply Hn. destruct H1 as [_ H1]. apply elem_of_list_lookup in Hin as [i Hi].
    by destruct (H1 i n Hi) as (_ & ? & _).
  - intros p Hp. apply HL. intros E. apply HD in E. apply elem_of_list_lookup in Hp as [i Hi].
    destruct H1 as [_ H1]. destruct (H1 i p Hi) as (E' & _). rewrite E in E'. injection E' as ->. cbn in L. lia.
Qed.

Lemma step_F e fs o U e' fs' out : forwards_completable P → R e fs → good o →
  FI (e_fields e) U fs → fstep P fs o = Some (fs', out) → sstep e o = SOk (e', out) →
  (∀ x n, o = OFunction x n → n ∉ U) →
  FI (e_fields e') (match o with OFunction _ n => n :: U | _ => U end) fs'.
Proof.
  intros FC HR G [[own F] Hz] Ef Es Fresh.
  assert (Keep : ∀ fl, f_link fl = f_link (e_fields e) → f_first fl = f_first (e_fields e) →
     f_index fl = f_index (e_fields e) → ∀ gs, fields_ok (e_fields e) own U gs → fields_ok fl own U gs).
  { intros fl E1 E2 E3. induction gs as [|g gs IH]; [done|]. cbn. intros [A B]. split; [|by apply IH].
    intros x l h Q1 Q2 Q3. destruct (A x l h Q1 Q2 Q3) as [ND A']. split; [done|]. intros i p Hp.
    rewrite E1, E2, E3. by apply A'. }
  assert (Single : ∀ fr gs x n, fs = fr :: gs → tag_of P n ≠ TgFunc →
     fields_ok (e_fields e) own U (with_entry fr x [n] :: gs)).
  { intros fr gs x n -> Tn. cbn in F |- *. destruct F as [A B]. split; [|done].
    intros y l h. destruct (N.eqb_spec y x).
    - intros Q1 Q2 Q3. simplify_eq. cbn in Q2. by simplify_eq.
    - apply A. }
  destruct o as [n| |x n|x n|x n|x n|x|a b c].
  - cbn in Ef, Es. simplify_eq. split.
    + exists own. unfold push_scope. destruct (e_chain e !! e_depth e); cbn; (split; [done|]); exact F.
    + intros p Hp. unfold push_scope. destruct (e_chain e !! e_depth e); cbn; by apply Hz.
  - destruct fs as [|fr fs]; [done|]. cbn in Ef. simplify_eq.
    destruct (pop_R e fr fs' HR) as (e1 & E1 & _ & E3). cbn in Es. rewrite E1 in Es. cbn in Es. simplify_eq.
    rewrite E3. split; [exists own; by destruct F|done].
  - pose proof (define_R e fs x n HR G) as H. rewrite Ef in H. destruct H as (e1 & E1 & _ & E3).
    rewrite E1 in Es. injection Es as <-. rewrite E3. split; [exists own|done].
    cbn in Ef. unfold declare in Ef. destruct fs as [|fr fs]; [done|].
    destruct (ignored P x); [by simplify_eq|]. destruct (snd fr x); simplify_eq; [done|]. by apply Single.
  - pose proof (forward_R e fs x n FC HR G) as H. rewrite Ef in H. destruct H as (e1 & E1 & _ & E3 & E4 & E5).
    rewrite E1 in Es. injection Es as <-. split.
    + exists own. apply Keep; [done..|].
      cbn in Ef. unfold declare in Ef. destruct fs as [|fr fs]; [done|].
      destruct (ignored P x); [by simplify_eq|]. destruct (snd fr x) as [l|]; simplify_eq; [|by apply Single].
      destruct (first_is (is_fwd P) l); simplify_eq; [by apply Single|done].
    + intros p Hp. rewrite E3, E5. by apply Hz.
  - pose proof (update_R e fs x n HR G) as H. rewrite Ef in H. destruct H as (e1 & E1 & _ & E3).
    rewrite E1 in Es. injection Es as <-. rewrite E3. split; [exists own|done].
    cbn in Ef. unfold declare in Ef. destruct fs as [|fr fs]; [done|].
    destruct (ignored P x); [by simplify_eq|]. simplify_eq. by apply Single.
  - pose proof (function_R e fs x n HR G) as H. rewrite Ef in H. destruct H as (e1 & E1 & _ & E3 & E4).
    rewrite E1 in Es. injection Es as <-. specialize (Fresh x n eq_refl).
    assert (HU : ∀ p, p ∈ U → p ∈ n :: U) by (intros; by right).
    rewrite declare_func in Ef. destruct fs as [|fr fs]; [done|].
    destruct (ignored P x) eqn:Ig.
    { injection Ef as <- <-. rewrite (E3 eq_refl). split.
      - exists own. eapply (fields_ok_same (e_fields e) _ own own U _ (fr :: fs) n None (length (fr :: fs), 0%N)); done.
      - intros p Hp. apply Hz. intros ?. apply Hp. by right. }
    specialize (E4 fr fs eq_refl eq_refl). cbn zeta in E4. destruct E4 as (F1 & F2 & F3).
    set (own' := set_at own n (Some (length fs, x))).
    assert (HO : ∀ p, p ≠ n → own' p = own p).
    { intros p Np. unfold own', set_at. by destruct (N.eqb_spec p n). }
    assert (On : own' n = Some (length fs, x)) by (unfold own', set_at; by rewrite N.eqb_refl).
    destruct F as [FA FB]. destruct (snd fr x) as [l|] eqn:El.
    + destruct (head l) as [h|] eqn:Eh; [|done]. destruct l as [|h' l]; [done|]. cbn in Eh. injection Eh as ->.
      cbn [first_is] in Ef. destruct (tag_eqb (tag_of P h) TgFunc) eqn:Tg.
      * injection Ef as <- <-. apply tag_eqb_ok in Tg. destruct F3 as (G1 & G2 & la & G3 & G4 & G5).
        pose proof (FA x _ h El eq_refl Tg) as [ND Hl].
        assert (Hla : la ∈ h :: l) by (by apply last_Some_elem_of).
        assert (HlaU : own la = Some (length fs, x) ∧ la ∈ U).
        { apply elem_of_list_lookup in Hla as [i Hi]. destruct (Hl i la Hi) as (? & ? & _). done. }
        assert (Hnl : n ∉ h :: l).
        { intros Hin. apply elem_of_list_lookup in Hin as [i Hi]. destruct (Hl i n Hi) as (_ & ? & _). done. }
        assert (Nla : n ≠ la) by (intros ->; done).
        split.
        -- exists own'. cbn [fields_ok with_entry snd fst]. split.
           ++ intros y k g Ek Hg Tgg. destruct (N.eqb_spec y x) as [->|Ny].
              ** injection Ek as <-. cbn in Hg. injection Hg as <-. split.
                 { rewrite app_comm_cons. apply NoDup_app. split; [done|]. split; [|apply NoDup_singleton].
                   intros p Hp1 Hp2. apply elem_of_list_singleton in Hp2 as ->. done. }
                 intros i p Hi. rewrite app_comm_cons in Hi |- *.
                 destruct (decide (i < length (h :: l))%nat) as [Hlt|Hge].
                 --- rewrite lookup_app_l in Hi by done. destruct (Hl i p Hi) as (K1 & K2 & K3 & K4 & K5).
                     assert (Np : p ≠ n) by (intros ->; apply Hnl; by apply elem_of_list_lookup_2 in Hi).
                     rewrite HO, F1, F2 by done. split; [done|]. split; [by right|]. split; [done|].
                     split; [|done]. destruct (decide (p = la)) as [->|Npl].
                     +++ rewrite G4. rewrite last_lookup in G3.
                         assert (i = pred (length (h :: l))) as ->.
                         { eapply NoDup_lookup; [exact ND|exact Hi|exact G3]. }
                         replace (S (pred (length (h :: l)))) with (length (h :: l)) by (cbn; lia).
                         rewrite lookup_app_r, Nat.sub_diag by lia. done.
                     +++ rewrite G5 by done. rewrite K4.
                         destruct (decide (S i < length (h :: l))%nat).
                         { by rewrite lookup_app_l. }
                         exfalso. apply Npl. rewrite last_lookup in G3.
                         replace i with (pred (length (h :: l))) in Hi by lia. congruence.
                 --- assert (i = length (h :: l)) as ->.
                     { apply lookup_lt_Some in Hi. rewrite app_length in Hi. cbn in *. lia. }
                     rewrite lookup_app_r, Nat.sub_diag in Hi by lia. cbn in Hi. injection Hi as <-.
                     split; [done|]. split; [by left|]. split; [done|]. split; [|done].
                     rewrite G5 by done. destruct (Hz n Fresh) as [-> _]. symmetry. apply lookup_ge_None.
                     rewrite app_length. cbn. lia.
              ** pose proof (FA y k g Ek Hg Tgg) as HN. eapply (node_ok_same _ _ _ _ _ _ _ _ _ _ n HN); try done.
                 { intros Hin. destruct HN as [_ HN]. apply elem_of_list_lookup in Hin as [i Hi].
                   destruct (HN i n Hi) as (_ & ? & _). done. }
                 intros p Hp. apply G5. intros ->. destruct HN as [_ HN].
                 apply elem_of_list_lookup in Hp as [i Hi]. destruct (HN i la Hi) as (E & _).
                 destruct HlaU as [E' _]. congruence.
           ++ eapply (fields_ok_same (e_fields e) _ own own' U _ fs n (Some la) (length fs, x)); try done.
              { intros p Hp. simplify_eq. by destruct HlaU. }
              intros p Hp. apply G5. congruence.
        -- intros p Hp. assert (Np : p ≠ n) by (intros ->; apply Hp; by left).
           assert (Npl : p ≠ la) by (intros ->; apply Hp; right; by destruct HlaU).
           rewrite G5, F2 by done. apply Hz. intros ?. apply Hp. by right.
      * injection Ef as <- <-. destruct F3 as [G1 G2]. split.
        -- exists own. eapply (fields_ok_same (e_fields e) _ own own U _ (fr :: fs) n None (length (fr :: fs), 0%N)); try done.
           intros p _. by rewrite G1.
        -- intros p Hp. rewrite G1, G2. apply Hz. intros ?. apply Hp. by right.
    + injection Ef as <- <-. destruct F3 as (G1 & G2 & G3). split.
      * exists own'. cbn [fields_ok with_entry snd fst]. split.
        -- intros y k g Ek Hg Tgg. destruct (N.eqb_spec y x) as [->|Ny].
           ++ injection Ek as <-. cbn in Hg. injection Hg as <-. split; [apply NoDup_singleton|].
              intros i p Hi. destruct i as [|i]; [|done]. cbn in Hi. injection Hi as <-.
              destruct (Hz n Fresh) as [Z1 Z2]. rewrite G2, G3, Z1, Z2.
              split; [done|]. split; [by left|]. done.
           ++ pose proof (FA y k g Ek Hg Tgg) as HN. eapply (node_ok_same _ _ _ _ _ _ _ _ _ _ n HN); try done.
              { intros Hin. destruct HN as [_ HN]. apply elem_of_list_lookup in Hin as [i Hi].
                destruct (HN i n Hi) as (_ & ? & _). done. }
              intros p _. by rewrite G2.
        -- eapply (fields_ok_same (e_fields e) _ own own' U _ fs n None (length fs, x)); try done.
           intros p _. by rewrite G2.
      * intros p Hp. rewrite G2, G3. apply Hz. intros ?. apply Hp. by right.
  - cbn in Ef, Es. destruct (find_symbol P hashp e x) eqn:Q; try done. cbn in Es. by simplify_eq; split; [exists own|].
  - cbn in Ef, Es. by simplify_eq; split; [exists own|].
Qed.

Lemma run_F ops : ∀ e fs U e' fs' outs, forwards_completable P → R e fs → Forall good ops →
  FI (e_fields e) U fs → frun P fs ops = Some (fs', outs) → srun e ops = SOk (e', outs) →
  NoDup (functions_of ops) → (∀ n, n ∈ functions_of ops → n ∉ U) →
  ∃ U', FI (e_fields e') U' fs'.
Proof.
  induction ops as [|o ops IH]; intros e fs U e' fs' outs FC HR G F Ef Es ND Fr.
  { cbn in *. simplify_eq. by exists U. }
  inversion G as [|? ? Go Gs]; subst. cbn [frun ScopeModel.srun] in Ef, Es.
  pose proof (step_R e fs o FC HR Go) as H. destruct (fstep P fs o) as [[fs1 out]|] eqn:E1; [|done].
  destruct H as (e1 & E2 & R1). rewrite E2 in Es. cbn [sbind fst snd] in Es.
  destruct (frun P fs1 ops) as [[fs2 outs2]|] eqn:E3; [|done]. simplify_eq.
  destruct (srun e1 ops) as [[e2 outs3]| | |] eqn:E4; try done. cbn in Es. simplify_eq.
  assert (F1 := step_F e fs o U e1 fs1 out FC HR Go F E1 E2).
  eapply (IH e1 fs1 _ e' fs' _ FC R1 Gs); [apply F1|done..| |].
  - intros x n ->. apply Fr. cbn. by left.
  - destruct o; try done. cbn in ND. inversion ND; done.
  - intros n Hn. destruct o as [| | | | |x p| |]; try (apply Fr; done). cbn in ND, Fr.
    inversion ND as [|? ? ND1 ND2]; subst.
    intros Hin. apply elem_of_cons in Hin as [->|Hin]; [done|]. apply (Fr n); [by right|done].
Qed.

Lemma along_ok fl l fuel : (∀ i n, l !! i = Some n → f_link fl n = l !! S i) → (length l ≤ fuel)%nat →
  ∀ i n, l !! i = Some n → (length l - i ≤ fuel)%nat →
  along fuel fl (Some n) = Some (drop i l).
Proof.
  intros HL _. induction fuel as [|fuel IH]; intros i n Hi Lf.
  { apply lookup_lt_Some in Hi. lia. }
  cbn [along]. rewrite (HL i n Hi).
  destruct (l !! S i) as [n'|] eqn:E.
  - rewrite (IH (S i) n' E) by lia. by rewrite (drop_S _ _ _ Hi).
  - assert (EQ : drop (S i) l = []) by (by apply drop_ge, lookup_ge_None).
    destruct fuel; cbn [along]; by rewrite (drop_S _ _ _ Hi), EQ.
Qed.

(** * Closing a scope *)
Lemma frun_app fs ops1 ops2 : frun P fs (ops1 ++ ops2) =
  match frun P fs ops1 with
  | None => None
  | Some (fs1, o1) => match frun P fs1 ops2 with None => None | Some (fs2, o2) => Some (fs2, o1 ++ o2) end
  end.
Proof.
  revert fs. induction ops1 as [|o ops1 IH]; intros fs; cbn.
  - by destruct (frun P fs ops2) as [[]|].
  - destruct (fstep P fs o) as [[fs1 out]|]; [|done]. rewrite IH.
    destruct (frun P fs1 ops1) as [[fs2 o1]|]; [|done]. by destruct (frun P fs2 ops2) as [[]|].
Qed.
Lemma inside_frun ops : inside ops → ∀ fr fs fs' outs,
  frun P (fr :: fs) ops = Some (fs', outs) → ∃ fr', fs' = fr' :: fs.
Proof.
  induction 1 as [|o ops N1 N2 _ IH|n ops1 ops2 _ IH1 _ IH2]; intros fr fs fs' outs E.
  - cbn in E. simplify_eq. eauto.
  - cbn in E. destruct (fstep P (fr :: fs) o) as [[fs1 out]|] eqn:E1; [|done].
    assert (∃ fr1, fs1 = fr1 :: fs) as [fr1 ->].
    { destruct o as [n| |x n|x n|x n|x n|x|a b c]; cbn in E1; try by (simplify_eq; eauto).
      - by destruct (N1 n).
      - destruct (ignored P x); [simplify_eq; eauto|]. destruct (snd fr x); simplify_eq; eauto.
      - destruct (ignored P x); [simplify_eq; eauto|]. destruct (snd fr x) as [l|]; [|simplify_eq; eauto].
        destruct (first_is _ l); simplify_eq; eauto.
      - destruct (ignored P x); simplify_eq; eauto.
      - destruct (ignored P x); [simplify_eq; eauto|]. destruct (snd fr x) as [l|]; [|simplify_eq; eauto].
        destruct (first_is _ l); simplify_eq; eauto. }
    destruct (frun P (fr1 :: fs) ops) as [[fs2 outs2]|] eqn:E2; [|done]. simplify_eq. eauto.
  - cbn in E. rewrite frun_app in E.
    destruct (frun P (empty_frame n :: fr :: fs) ops1) as [[fs1 o1]|] eqn:E1; [|done].
    apply IH1 in E1 as [fr1 ->]. cbn in E. destruct (frun P (fr :: fs) ops2) as [[fs2 o2]|] eqn:E2; [|done].
    simplify_eq. eauto.
Qed.
End proofs.
