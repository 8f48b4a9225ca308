From Coq Require Import Strings.String ZArith Lia ZifyBool ZifyNat ZifyN.
From stdpp Require Import numbers list tactics.
From Verif Require Import LexSpec FormatModel FormatSpec FormatProofs Utf8Spec MangleModel MangleSpec.
Local Open Scope N_scope.

Section ind.
  Variable P : sty -> Prop.
  Hypothesis HPrim : forall p, P (SPrim p).
  Hypothesis HStr : P SStr.
  Hypothesis HArr : forall n e, P e -> P (SArr n e).
  Hypothesis HTup : forall l, Forall P l -> P (STup l).
  Hypothesis HUni : forall l, Forall P l -> P (SUni l).
  Hypothesis HFn : forall l r, Forall P l -> P r -> P (SFn l r).
  Hypothesis HPtr : forall t, P t -> P (SPtr t).
  Hypothesis HRef : forall t, P t -> P (SRef t).
  Hypothesis HLit : forall l, P (SLit l).
  Hypothesis HNamed : forall d, P (SNamed d).
  Hypothesis HInst : forall d l, Forall P l -> P (SInst d l).
  Hypothesis HConst : forall t, P t -> P (SConst t).
  Fixpoint sty_ind' (t : sty) : P t :=
    let all := fix all (l : list sty) : Forall P l :=
      match l with [] => Forall_nil_2 P | x :: l => Forall_cons_2 P x l (sty_ind' x) (all l) end in
    match t with
    | SPrim p => HPrim p | SStr => HStr | SArr n e => HArr n e (sty_ind' e) | STup l => HTup l (all l)
    | SUni l => HUni l (all l) | SFn l r => HFn l r (all l) (sty_ind' r) | SPtr t => HPtr t (sty_ind' t)
    | SRef t => HRef t (sty_ind' t) | SLit l => HLit l | SNamed d => HNamed d | SInst d l => HInst d l (all l)
    | SConst t => HConst t (sty_ind' t)
    end.
End ind.
Lemma good_all cc ds l : foldr (fun t P => good cc ds t /\ P) True l <-> Forall (good cc ds) l.
Proof. induction l as [|x l IH]; cbn; [by split; constructor|]. rewrite list.Forall_cons, IH. done. Qed.

(** The text written. *)
Fixpoint mm (idx : list sty -> N) (t : sty) : list N :=
  match t with
  | SPrim p => match p with Bool | WChar | CChar => take 1 (prim_name p) | _ => prim_name p end
  | SStr => [115]
  | SArr n e => 65 :: print_unsigned 64 n ++ mm idx e
  | STup l => 84 :: concat (map (mm idx) l) ++ [95]
  | SUni l => 85 :: (if (3 <? length l)%nat then print_unsigned 64 (idx l) else 95 :: concat (map (mm idx) l)) ++ [95]
  | SFn ps r => 70 :: concat (map (mm idx) ps) ++ mm idx r ++ [95]
  | SPtr t => 80 :: mm idx t
  | SRef t => 82 :: mm idx t
  | SLit l => mangleAstNode l
  | SNamed d => 90 :: text d ++ [95]
  | SInst d args => 90 :: text d ++ 95 :: concat (map (mm idx) args) ++ [69; 95]
  | SConst t => 99 :: mm idx t
  end.

Lemma cons_eq_inj {A} (x y : A) a b : x :: a = y :: b -> x = y /\ a = b.
Proof. by intros [= -> ->]. Qed.
Ltac dec := apply (bool_decide_unpack _); vm_compute; exact I.
Ltac decin H := exfalso; revert H; apply (bool_decide_unpack (_ ∉ _)); vm_compute; exact I.
Lemma c_string_id s : 0 ∉ s -> c_string s = s.
Proof.
  induction s as [|c s IH]; cbn; [done|]. rewrite not_elem_of_cons. intros [A B].
  replace (c =? 0) with false by lia. by rewrite IH.
Qed.
Lemma digits_nz k n : 0 ∉ digits k n.
Proof.
  revert n. induction k as [|k IH]; intros n; cbn.
  - rewrite elem_of_list_singleton. lia.
  - destruct (n <? 10); [rewrite elem_of_list_singleton; lia|]. rewrite elem_of_app, elem_of_list_singleton. intros [H|H]; [by apply (IH _ H)|lia].
Qed.
Lemma utf8_nz c : 0 < c -> 0 ∉ utf8 c.
Proof. intros H. unfold utf8. repeat case_match; rewrite ?elem_of_cons, elem_of_nil; lia. Qed.
Lemma lit_nz l : good_lit l -> 0 ∉ mangleAstNode l.
Proof.
  intros G. destruct l as [|[]|c|[] v|i|i]; cbn [mangleAstNode]; [dec|dec|dec|..]; rewrite ?elem_of_app.
  - cbn in G. rewrite utf8_text_ok by lia. intros [H|H]; [decin H|].
    cbn in H. by apply (utf8_nz c); [lia|].
  - intros [H|H]; [decin H|]. revert H. unfold print_signed.
    destruct (_ <? _); [apply digits_nz|]. rewrite elem_of_cons. intros [|H]; [done|]. by apply digits_nz in H.
  - intros [H|H]; [decin H|]. by apply digits_nz in H.
  - intros [H|H]; [decin H|]. by apply digits_nz in H.
  - intros [H|H]; [decin H|]. by apply digits_nz in H.
Qed.
Lemma text_plain ds d : good_decls ds -> d ∈ ds -> 95 ∉ text d /\ 0 ∉ text d.
Proof.
  intros [A _] H. eapply list.Forall_forall in A; [|exact H]. destruct A as [A B]. unfold plain_name in *.
  unfold text. rewrite !elem_of_app.
  assert (forall x, x ∈ codes match d_kind d with Plain => "" | Generic false => "I" | Generic true => "Ic" end -> x <> 95 /\ x <> 0) as C.
  { apply (list.Forall_forall (fun x => x <> 95 /\ x <> 0)). destruct (d_kind d) as [|[]]; dec. }
  rewrite list.Forall_forall in A, B. split; intros [X|[X|X]]; naive_solver.
Qed.
Lemma concat_nz {A} (f : A -> list N) l : Forall (fun t => 0 ∉ f t) l -> 0 ∉ concat (map f l).
Proof. induction l as [|x l IH]; cbn; [intros _; apply not_elem_of_nil|]. rewrite list.Forall_cons, elem_of_app. tauto. Qed.

Section inj.
Context (cc : bool) (ds : list decl) (idx : list sty -> N) (GD : good_decls ds) (GI : good_index idx).
Lemma mm_nz t : good cc ds t -> 0 ∉ mm idx t.
Proof.
  induction t as [p| |n e IH|l IH|l IH|l r IH IHr|t IH|t IH|l|d|d l IH|t IH] using sty_ind'; cbn [good mm]; rewrite ?good_all; intros G.
  - destruct p; dec.
  - by rewrite elem_of_list_singleton.
  - destruct G as [L G]. rewrite elem_of_cons, elem_of_app. intros [|[H|H]]; [done|by apply digits_nz in H|by apply IH].
  - rewrite elem_of_cons, elem_of_app, elem_of_list_singleton. intros [|[H|]]; [done| |done]. revert H. apply concat_nz.
    rewrite list.Forall_forall in *. eauto.
  - rewrite elem_of_cons, elem_of_app, elem_of_list_singleton. intros [|[H|]]; [done| |done]. revert H.
    destruct (_ <? _)%nat; [apply digits_nz|]. rewrite elem_of_cons. intros [|H]; [done|]. revert H. apply concat_nz.
    rewrite list.Forall_forall in *. eauto.
  - destruct G as [G Gr]. rewrite elem_of_cons, !elem_of_app, elem_of_list_singleton. intros [|[H|[H|]]]; [done| |by apply IHr|done].
    revert H. apply concat_nz. rewrite list.Forall_forall in *. eauto.
  - rewrite elem_of_cons. intros [|H]; [done|by apply IH].
  - rewrite elem_of_cons. intros [|H]; [done|by apply IH].
  - by apply lit_nz.
  - destruct G as [G _]. destruct (text_plain _ _ GD G). rewrite elem_of_cons, elem_of_app, elem_of_list_singleton. naive_solver.
  - destruct G as (G & _ & F). destruct (text_plain _ _ GD G). rewrite elem_of_cons, elem_of_app, elem_of_cons, elem_of_app, !elem_of_cons, elem_of_nil.
    assert (0 ∉ concat (map (mm idx) l)); [|naive_solver]. apply concat_nz. rewrite list.Forall_forall in *. eauto.
  - destruct G as (_ & _ & G). rewrite elem_of_cons. intros [|H]; [done|by apply IH].
Qed.
Lemma codes_kind d : codes (if match d_kind d with Generic c => c | Plain => false end then "Ic_" else "I_") =
  codes (if match d_kind d with Generic c => c | Plain => false end then "Ic" else "I") ++ [95].
Proof. by destruct (match d_kind d with Generic c => c | Plain => false end). Qed.
Definition writes (t : sty) : Prop := good cc ds t -> forall k, (k = true -> is_const t = false) ->
  mangle false k (erase idx t) = (if k then [99] else []) ++ mm idx t.
Lemma map_mm l : Forall writes l -> Forall (good cc ds) l -> map (mangle false false) (map (erase idx) l) = map (mm idx) l.
Proof.
  induction l as [|x l IH]; cbn; [done|]. rewrite !list.Forall_cons. intros [A B] [C D]. f_equal; [|by apply IH].
  apply (A C false). done.
Qed.
Lemma mangle_mm t : writes t.
Proof.
  induction t as [p| |n e IH|l IH|l IH|l r IH IHr|t IH|t IH|l|d|d l IH|t IH] using sty_ind'; unfold writes in *; cbn [good mm erase mangle]; rewrite ?good_all; intros G k K.
  all: try (replace (codes "c") with [99] by done).
  - done.
  - done.
  - destruct G as [L G]. by rewrite (IH G false).
  - by rewrite map_mm.
  - rewrite map_mm by done. rewrite map_length. destruct (_ <? _)%nat; cbn; by rewrite <- ?app_assoc.
  - destruct G as [G Gr]. rewrite (IHr Gr false) by done. by rewrite map_mm.
  - by rewrite (IH G false).
  - by rewrite (IH G false).
  - done.
  - destruct G as [G E]. unfold text. rewrite E. cbn. by rewrite app_nil_r, <- app_assoc.
  - pose proof G as G'. destruct G as (G & [c E] & F).
    pose proof (map_mm l IH F) as M.
    unfold makeMangledName. change mangleType with (mangle false false). rewrite M. rewrite codes_kind, E.
    destruct (text_plain _ _ GD G) as [_ Z]. unfold text in *. rewrite E in *.
    assert (0 ∉ concat (map (mm idx) l)) as Zc.
    { apply concat_nz. rewrite list.Forall_forall in *. intros x X. by apply mm_nz, F. }
    rewrite c_string_id.
    + f_equal. cbn. f_equal. rewrite <- !app_assoc. by destruct c.
    + rewrite !elem_of_app in *. intros [H|[[H|H]|[H|H]]]; [tauto| |by apply elem_of_list_singleton in H|tauto|decin H].
      destruct c; decin H.
  - destruct G as (_ & NC & G). destruct k; [by specialize (K eq_refl)|]. cbn [orb]. by rewrite (IH G true).
Qed.

(** ** Reading it back *)
Definition isdigit (c : N) : Prop := 48 <= c <= 57.
(** What may stand behind a type. *)
Definition sep (r : list N) : Prop := match r with [] => True | c :: _ => ~ isdigit c end.
Lemma digits_app (a b r s : list N) : Forall isdigit a -> Forall isdigit b -> sep r -> sep s -> a ++ r = b ++ s -> a = b /\ r = s.
Proof.
  intros A. revert b. induction A as [|x a X A IH]; intros b B R S' E.
  - destruct B as [|y b Y B]; [done|]. cbn in E. subst r. done.
  - destruct B as [|y b Y B]; [cbn in E; subst s; done|]. cbn in E. injection E as -> E. destruct (IH b B R S' E) as [-> ->]. done.
Qed.
Lemma unsigned_digits n : Forall isdigit (print_unsigned 64 n).
Proof.
  unfold print_unsigned. assert (n mod 2 ^ 64 < 2 ^ 64) by (apply N.mod_lt; done).
  destruct (digits_is_decimal 20 (n mod 2 ^ 64)) as (_ & F & _); [apply small_bound; lia|exact F].
Qed.
Lemma digits_inj n m : n < 2 ^ 64 -> m < 2 ^ 64 -> digits 20 n = digits 20 m -> n = m.
Proof.
  intros A B E. destruct (digits_is_decimal 20 n) as (_ & _ & V & _); [apply small_bound; lia|].
  destruct (digits_is_decimal 20 m) as (_ & _ & W & _); [apply small_bound; lia|]. congruence.
Qed.
Lemma unsigned_inj n m : n < 2 ^ 64 -> m < 2 ^ 64 -> print_unsigned 64 n = print_unsigned 64 m -> n = m.
Proof. intros A B. unfold print_unsigned. rewrite !N.mod_small by done. by apply digits_inj. Qed.
Lemma unsigned_app n m r s : n < 2 ^ 64 -> m < 2 ^ 64 -> sep r -> sep s ->
  print_unsigned 64 n ++ r = print_unsigned 64 m ++ s -> n = m /\ r = s.
Proof.
  intros A B R S' E. destruct (digits_app _ _ _ _ (unsigned_digits n) (unsigned_digits m) R S' E) as [X Y].
  split; [by apply unsigned_inj|done].
Qed.
Lemma signed_app n m r s : 2 ^ 63 <= n < 2 ^ 64 -> 2 ^ 63 <= m < 2 ^ 64 -> sep r -> sep s ->
  print_signed 64 n ++ r = print_signed 64 m ++ s -> n = m /\ r = s.
Proof.
  intros A B R S'. unfold print_signed. rewrite !N.mod_small by lia. change (2 ^ (64 - 1)) with (2 ^ 63).
  replace (n <? 2 ^ 63) with false by lia. replace (m <? 2 ^ 63) with false by lia. cbn [app]. intros [_ E]%cons_eq_inj.
  destruct (digits_app (digits 20 (2 ^ 64 - n)) (digits 20 (2 ^ 64 - m)) r s) as [X Y]; [..|done|done|done|].
  - destruct (digits_is_decimal 20 (2 ^ 64 - n)) as (_ & F & _); [apply small_bound; lia|exact F].
  - destruct (digits_is_decimal 20 (2 ^ 64 - m)) as (_ & F & _); [apply small_bound; lia|exact F].
  - apply digits_inj in X; [|lia|lia]. split; [lia|done].
Qed.
Lemma utf8_app c d r s : c < 0x110000 -> d < 0x110000 -> utf8 c ++ r = utf8 d ++ s -> c = d /\ r = s.
Proof.
  intros A B. unfold utf8.
  destruct (c <? 128) eqn:C1; [|destruct (c <? 2048) eqn:C2; [|destruct (c <? 65536) eqn:C3]];
  (destruct (d <? 128) eqn:D1; [|destruct (d <? 2048) eqn:D2; [|destruct (d <? 65536) eqn:D3]]); cbn [app]; intros E;
    injection E; clear E; intros; (split; [|done]) || idtac.
  all: try (exfalso; lia). all: lia.
Qed.
Lemma first_app (x : N) a b r s : x ∉ a -> x ∉ b -> a ++ x :: r = b ++ x :: s -> a = b /\ r = s.
Proof.
  revert b. induction a as [|c a IH]; intros b A B E; destruct b as [|d b]; cbn in E.
  - by injection E as <-.
  - injection E as <- E. by apply not_elem_of_cons in B as [B _].
  - injection E as -> E. by apply not_elem_of_cons in A as [A _].
  - injection E as -> E. apply not_elem_of_cons in A as [_ A], B as [_ B]. by destruct (IH b A B E) as [-> ->].
Qed.
Definition start (c : N) : Prop := ~ isdigit c /\ c <> 95 /\ c <> 69.
Lemma starts t : exists c x, mm idx t = c :: x /\ start c.
Proof.
  unfold start, isdigit. destruct t; cbn [mm]; try (eexists _, _; split; [reflexivity|lia]).
  - destruct p; (eexists _, _; split; [vm_compute; reflexivity|lia]).
  - destruct l as [|[]|?|[] ?|?|?]; (eexists 76, _; split; [reflexivity|lia]).
Qed.
Definition stop (c : N) : Prop := c = 95 \/ c = 69.
Lemma sep_start t r : sep (mm idx t ++ r).
Proof. destruct (starts t) as (c & x & -> & S' & _). exact S'. Qed.
Lemma sep_stop c r : stop c -> sep (c :: r).
Proof. unfold stop, sep, isdigit. lia. Qed.
Lemma sep_concat l c r : stop c -> sep (concat (map (mm idx) l) ++ c :: r).
Proof. destruct l as [|t l]; [apply sep_stop|]. intros _. cbn. rewrite <- app_assoc. apply sep_start. Qed.

Definition reads (t : sty) : Prop := good cc ds t -> forall t' r s, good cc ds t' -> sep r -> sep s ->
  mm idx t ++ r = mm idx t' ++ s -> t = t' /\ r = s.
Lemma reads_list l : Forall reads l -> Forall (good cc ds) l -> forall l' c d r s, Forall (good cc ds) l' -> stop c -> stop d ->
  concat (map (mm idx) l) ++ c :: r = concat (map (mm idx) l') ++ d :: s -> l = l' /\ c = d /\ r = s.
Proof.
  induction l as [|t l IH]; intros R G l' c d r s G' C D E.
  - destruct l' as [|t' l']; [cbn in E; naive_solver|]. exfalso. cbn in E. rewrite <- app_assoc in E.
    destruct (starts t') as (e & x & X & S'). rewrite X in E. cbn in E. injection E as -> E. unfold stop, start in *. lia.
  - apply list.Forall_cons in R as [R Rl], G as [G Gl]. destruct l' as [|t' l'].
    + exfalso. cbn in E. rewrite <- app_assoc in E.
      destruct (starts t) as (e & x & X & S'). rewrite X in E. cbn in E. injection E as -> E. unfold stop, start in *. lia.
    + apply list.Forall_cons in G' as [G' Gl']. cbn in E. rewrite <- !app_assoc in E.
      apply R in E as [-> E]; [|done..|by apply sep_concat|by apply sep_concat].
      apply IH in E as (-> & -> & ->); done.
Qed.
Lemma reads_lit l m r s : good_lit l -> good_lit m -> sep r -> sep s -> mangleAstNode l ++ r = mangleAstNode m ++ s -> l = m /\ r = s.
Proof.
  intros G G' R S' E. destruct l as [|b|c|[] v|i|i], m as [|b'|c'|[] v'|i'|i']; cbn [mangleAstNode] in E; rewrite <- ?app_assoc in E; try discriminate E; cbn in G, G'.
  - injection E as ->. done.
  - destruct b, b'; try discriminate E; injection E as ->; done.
  - rewrite !utf8_text_ok in E by lia. cbn [default codes app] in E. injection E as E. apply utf8_app in E as [-> ->]; [done|lia|lia].
  - do 3 apply cons_eq_inj in E as [_ E]. apply signed_app in E as [-> ->]; done.
  - do 3 apply cons_eq_inj in E as [_ E]. apply unsigned_app in E as [-> ->]; done.
  - do 3 apply cons_eq_inj in E as [_ E]. rewrite !(N.mod_small _ (2 ^ 32)) in E by done. apply unsigned_app in E as [-> ->]; [done|..|done|done]; eapply N.lt_trans; eauto; reflexivity.
  - do 3 apply cons_eq_inj in E as [_ E]. rewrite !(N.mod_small _ (2 ^ 32)) in E by done. apply unsigned_app in E as [-> ->]; [done|..|done|done]; eapply N.lt_trans; eauto; reflexivity.
Qed.
Lemma reads_text d e r s : d ∈ ds -> e ∈ ds -> text d ++ 95 :: r = text e ++ 95 :: s -> d = e /\ r = s.
Proof.
  intros D E H. destruct (text_plain _ _ GD D) as [A _], (text_plain _ _ GD E) as [B _].
  apply first_app in H as [H ->]; [|done|done]. split; [|done]. by apply GD.
Qed.
Lemma mm_reads t : reads t.
Proof.
  assert (stop 95) as St by by left. assert (stop 69) as Se by by right.
  induction t as [p| |n e IH|l IH|l IH|l q IH IHq|t IH|t IH|l|d|d l IH|t IH] using sty_ind'; intros G t' r s G' R S' E.
  - destruct t' as [p'| |n' e'|l'|l'|l' q'|t'|t'|l'|d'|d' l'|t']; cbn [mm] in E.
    + destruct p, p'; try discriminate E; injection E as ->; done.
    + destruct p; discriminate E.
    + destruct p; discriminate E.
    + destruct p; discriminate E.
    + destruct p; discriminate E.
    + destruct p; discriminate E.
    + destruct p; discriminate E.
    + destruct p; discriminate E.
    + destruct p, l' as [|[]|?|[] ?|?|?]; discriminate E.
    + destruct p; discriminate E.
    + destruct p; discriminate E.
    + destruct p; try discriminate E. cbn in G, G'. destruct G' as [-> _]. by specialize (G eq_refl).
  - destruct t' as [p'| |n' e'|l'|l'|l' q'|t'|t'|l'|d'|d' l'|t']; cbn [mm] in E; try discriminate E.
    + destruct p'; discriminate E.
    + injection E as ->. done.
    + destruct l' as [|[]|?|[] ?|?|?]; discriminate E.
  - destruct t' as [p'| |n' e'|l'|l'|l' q'|t'|t'|l'|d'|d' l'|t']; cbn [mm] in E; try discriminate E.
    + destruct p'; discriminate E.
    + cbn in G, G'. destruct G as [L G], G' as [L' G']. cbn [app] in E. apply cons_eq_inj in E as [_ E]. rewrite <- !app_assoc in E.
      apply unsigned_app in E as [-> E]; [|done|done|apply sep_start|apply sep_start].
      apply IH in E as [-> ->]; done.
    + destruct l' as [|[]|?|[] ?|?|?]; discriminate E.
  - destruct t' as [p'| |n' e'|l'|l'|l' q'|t'|t'|l'|d'|d' l'|t']; cbn [mm] in E; try discriminate E.
    + destruct p'; discriminate E.
    + cbn [good] in G, G'. rewrite good_all in G, G'. cbn [app] in E. apply cons_eq_inj in E as [_ E]. rewrite <- !app_assoc in E.
      apply (reads_list l) in E as (-> & _ & ->); done.
    + destruct l' as [|[]|?|[] ?|?|?]; discriminate E.
  - destruct t' as [p'| |n' e'|l'|l'|l' q'|t'|t'|l'|d'|d' l'|t']; cbn [mm] in E; try discriminate E.
    + destruct p'; discriminate E.
    + cbn [good] in G, G'. rewrite good_all in G, G'. cbn [app] in E. apply cons_eq_inj in E as [_ E]. rewrite <- !app_assoc in E.
      destruct GI as [GI1 GI2].
      destruct (3 <? length l)%nat eqn:L1, (3 <? length l')%nat eqn:L2.
      * apply unsigned_app in E as [E E']; [|done|done|by apply sep_stop|by apply sep_stop]. apply GI2 in E as ->; [|lia|lia]. by injection E' as ->.
      * exfalso. pose proof (unsigned_digits (idx l)) as U. cbn [app] in E. destruct (print_unsigned 64 (idx l)) as [|x u] eqn:P.
        -- unfold print_unsigned in P. by apply (f_equal length) in P; destruct (digits_is_decimal 20 (idx l mod 2 ^ 64)) as (NE & _); [apply small_bound; assert (idx l mod 2 ^ 64 < 2 ^ 64) by (apply N.mod_lt; done); lia|]; destruct (digits 20 (idx l mod 2 ^ 64)).
        -- injection E as -> E. apply list.Forall_cons in U as [U _]. unfold isdigit in U. lia.
      * exfalso. pose proof (unsigned_digits (idx l')) as U. cbn [app] in E. destruct (print_unsigned 64 (idx l')) as [|x u] eqn:P.
        -- unfold print_unsigned in P. by apply (f_equal length) in P; destruct (digits_is_decimal 20 (idx l' mod 2 ^ 64)) as (NE & _); [apply small_bound; assert (idx l' mod 2 ^ 64 < 2 ^ 64) by (apply N.mod_lt; done); lia|]; destruct (digits 20 (idx l' mod 2 ^ 64)).
        -- injection E as <- E. apply list.Forall_cons in U as [U _]. unfold isdigit in U. lia.
      * cbn [app] in E. apply cons_eq_inj in E as [_ E]. apply (reads_list l) in E as (-> & _ & ->); done.
    + destruct l' as [|[]|?|[] ?|?|?]; discriminate E.
  - destruct t' as [p'| |n' e'|l'|l'|l' q'|t'|t'|l'|d'|d' l'|t']; cbn [mm] in E; try discriminate E.
    + destruct p'; discriminate E.
    + cbn [good] in G, G'. rewrite good_all in G, G'. destruct G as [G Gq], G' as [G' Gq']. cbn [app] in E. apply cons_eq_inj in E as [_ E].
      assert (concat (map (mm idx) (l ++ [q])) ++ 95 :: r = concat (map (mm idx) (l' ++ [q'])) ++ 95 :: s) as E'.
      { rewrite !map_app, !concat_app. cbn. rewrite !app_nil_r. by rewrite <- !app_assoc in *. }
      apply (reads_list (l ++ [q])) in E' as (E' & _ & ->).
      * apply app_inj_tail in E' as [-> ->]. done.
      * apply list.Forall_app. split; [done|]. by apply list.Forall_singleton.
      * apply list.Forall_app. split; [done|]. by apply list.Forall_singleton.
      * apply list.Forall_app. split; [done|]. by apply list.Forall_singleton.
      * done.
      * done.
    + destruct l' as [|[]|?|[] ?|?|?]; discriminate E.
  - destruct t' as [p'| |n' e'|l'|l'|l' q'|t'|t'|l'|d'|d' l'|t']; cbn [mm] in E; try discriminate E.
    + destruct p'; discriminate E.
    + cbn [app] in E. apply cons_eq_inj in E as [_ E]. apply IH in E as [-> ->]; done.
    + destruct l' as [|[]|?|[] ?|?|?]; discriminate E.
  - destruct t' as [p'| |n' e'|l'|l'|l' q'|t'|t'|l'|d'|d' l'|t']; cbn [mm] in E; try discriminate E.
    + destruct p'; discriminate E.
    + cbn [app] in E. apply cons_eq_inj in E as [_ E]. apply IH in E as [-> ->]; done.
    + destruct l' as [|[]|?|[] ?|?|?]; discriminate E.
  - destruct t' as [p'| |n' e'|l'|l'|l' q'|t'|t'|l'|d'|d' l'|t']; cbn [mm] in E.
    9:{ apply reads_lit in E as [-> ->]; done. }
    1: destruct p', l as [|[]|?|[] ?|?|?]; discriminate E.
    all: destruct l as [|[]|?|[] ?|?|?]; discriminate E.
  - destruct t' as [p'| |n' e'|l'|l'|l' q'|t'|t'|l'|d'|d' l'|t']; cbn [mm] in E; try discriminate E.
    + destruct p'; discriminate E.
    + destruct l' as [|[]|?|[] ?|?|?]; discriminate E.
    + cbn in G, G'. cbn [app] in E. apply cons_eq_inj in E as [_ E]. rewrite <- !app_assoc in E. apply reads_text in E as [-> ->]; tauto.
    + exfalso. cbn [good] in G, G'. destruct G as [D K], G' as (D' & [c K'] & _). cbn [app] in E. apply cons_eq_inj in E as [_ E]. rewrite <- !app_assoc in E.
      apply reads_text in E as [-> _]; [congruence|done|done].
  - destruct t' as [p'| |n' e'|l'|l'|l' q'|t'|t'|l'|d'|d' l'|t']; cbn [mm] in E; try discriminate E.
    + destruct p'; discriminate E.
    + destruct l' as [|[]|?|[] ?|?|?]; discriminate E.
    + exfalso. cbn [good] in G, G'. destruct G' as [D K], G as (D' & [c K'] & _). cbn [app] in E. apply cons_eq_inj in E as [_ E]. rewrite <- !app_assoc in E.
      apply reads_text in E as [-> _]; [congruence|done|done].
    + cbn [good] in G, G'. rewrite good_all in G, G'. destruct G as (D & _ & G), G' as (D' & _ & G'). cbn [app] in E. apply cons_eq_inj in E as [_ E]. rewrite <- !app_assoc in E.
      apply reads_text in E as [-> E]; [|done|done]. change (fix app (l m : list N) {struct l} : list N := match l with [] => m | a :: l1 => a :: app l1 m end) with (@app N) in E. rewrite <- !app_assoc in E. apply (reads_list l) in E as (-> & _ & E); [|done..]. by injection E as ->.
  - destruct t' as [p'| |n' e'|l'|l'|l' q'|t'|t'|l'|d'|d' l'|t']; cbn [mm] in E; try discriminate E.
    + destruct p'; try discriminate E. cbn in G, G'. destruct G as [-> _]. by specialize (G' eq_refl).
    + destruct l' as [|[]|?|[] ?|?|?]; discriminate E.
    + cbn [app] in E. apply cons_eq_inj in E as [_ E]. cbn in G, G'. apply IH in E as [-> ->]; tauto.
Qed.

(** ** The whole name *)
Lemma mangled name ts k : plain_name name \/ 0 ∉ name -> Forall (good cc ds) ts ->
  makeMangledName name (map (erase idx) ts) k = name ++ codes (if k then "Ic" else "I") ++ 95 :: concat (map (mm idx) ts) ++ [69].
Proof.
  intros P G. unfold makeMangledName. change mangleType with (mangle false false). rewrite map_mm; [|apply list.Forall_forall; intros x _; apply mangle_mm|done].
  assert (0 ∉ name) as Z. { destruct P as [P|P]; [|done]. intros Z. unfold plain_name in P. rewrite list.Forall_forall in P. naive_solver. }
  rewrite c_string_id.
  - f_equal. by destruct k.
  - rewrite !elem_of_app. intros [H|[H|[H|H]]]; [done|destruct k; decin H| |decin H]. revert H. apply concat_nz. rewrite list.Forall_forall in *. intros x X. by apply mm_nz, G.
Qed.
Lemma list_inj ts us : Forall (good cc ds) ts -> Forall (good cc ds) us ->
  concat (map (mm idx) ts) ++ [69] = concat (map (mm idx) us) ++ [69] -> ts = us.
Proof.
  intros A B E. apply reads_list in E as [E _]; [done|apply list.Forall_forall; intros x _; apply mm_reads|done|done|by right|by right].
Qed.
Lemma name_inj n m k k' ts us : plain_name n -> plain_name m -> Forall (good cc ds) ts -> Forall (good cc ds) us ->
  makeMangledName n (map (erase idx) ts) k = makeMangledName m (map (erase idx) us) k' -> n = m /\ k = k' /\ ts = us.
Proof.
  intros N M A B. rewrite !mangled by auto. rewrite !(app_assoc _ (codes _)). intros E.
  assert (forall n k, plain_name n -> 95 ∉ n ++ codes (if k : bool then "Ic" else "I")) as U.
  { intros x b X. rewrite elem_of_app. intros [H|H]; [|destruct b; decin H]. unfold plain_name in X. rewrite list.Forall_forall in X. naive_solver. }
  apply first_app in E as [E F]; [|by apply U|by apply U]. apply list_inj in F; [|done|done]. subst us.
  destruct k, k'.
  - change (codes "Ic") with ([73] ++ [99]) in E. rewrite !app_assoc in E. apply app_inj_tail in E as [E _]. apply app_inj_tail in E as [-> _]. done.
  - exfalso. change (codes "Ic") with ([73] ++ [99]) in E. change (codes "I") with [73] in E. rewrite !app_assoc in E. apply app_inj_tail in E as [_ E]. done.
  - exfalso. change (codes "Ic") with ([73] ++ [99]) in E. change (codes "I") with [73] in E. rewrite !app_assoc in E. apply app_inj_tail in E as [_ E]. done.
  - change (codes "I") with [73] in E. apply app_inj_tail in E as [-> _]. done.
Qed.
Lemma overload_inj n k k' ts us : 0 ∉ n -> Forall (good cc ds) ts -> Forall (good cc ds) us ->
  makeMangledName n (map (erase idx) ts) k = makeMangledName n (map (erase idx) us) k' -> k = k' /\ ts = us.
Proof.
  intros Z A B. rewrite !mangled by auto. intros E. apply app_inv_head in E.
  destruct k, k'; cbn in E; try discriminate E; injection E as E; (split; [done|]); by apply list_inj.
Qed.
End inj.
