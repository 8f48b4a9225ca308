From Coq Require Import List Bool Arith Lia.
From stdpp Require Import tactics.
From Verif Require Import DeferModel DeferSpec.
Import ListNotations.

Section ind.
  Variable P : stmt -> Prop.
  Hypothesis HAct : forall n, P (Act n).
  Hypothesis HDefer : forall n, P (Defer n).
  Hypothesis HReturn : forall n, P (Return n).
  Hypothesis HBreak : P Break.
  Hypothesis HContinue : P Continue.
  Hypothesis HNoop : P Noop.
  Hypothesis HBlock : forall l, Forall P l -> P (Block l).
  Hypothesis HIf : forall c a b, P a -> P b -> P (If c a b).
  Hypothesis HWhile : forall c b, P b -> P (While c b).
  Hypothesis HFor : forall c b, P b -> P (For c b).
  Hypothesis HSwitch : forall c l, Forall P l -> P (Switch c l).
  Fixpoint stmt_ind' (s : stmt) : P s :=
    let all := fix all (l : list stmt) : Forall P l :=
      match l with [] => Forall_nil P | x :: l => @Forall_cons _ P x l (stmt_ind' x) (all l) end in
    match s with
    | Act n => HAct n | Defer n => HDefer n | Return n => HReturn n | Break => HBreak | Continue => HContinue | Noop => HNoop
    | Block l => HBlock l (all l) | If c a b => HIf c a b (stmt_ind' a) (stmt_ind' b)
    | While c b => HWhile c b (stmt_ind' b) | For c b => HFor c b (stmt_ind' b) | Switch c l => HSwitch c l (all l)
    end.
End ind.

(** ** The runs, in pieces *)
Definition run := list nat -> list event * outcome * list nat.
Section pieces.
  Variables (N : nat) (c : nat) (body : run) (f : stmt -> run) (ch0 : list nat).
Fixpoint loop0 (k : nat) (ch : list nat) : list event * outcome * list nat :=
  match k with
  | 0 => ([], Cut, ch)
  | S k => let '(t, o, ch) := body ch in
           match o with
           | Norm | Cont => let '(t', o', ch') := loop0 k ch in (t ++ t', o', ch')
           | Brk => (t, Norm, ch)
           | _ => (t, o, ch)
           end
  end.
Fixpoint loop1 (k : nat) (ch : list nat) : list event * outcome * list nat :=
  match k with
  | 0 => ([], Cut, ch)
  | S k =>
    match ch with
    | [] => ([], Cut, [])
    | b :: ch =>
      if b =? 0 then ([T c b], Norm, ch)
      else let '(t, o, ch) := body ch in
           match o with
           | Norm | Cont => let '(t', o', ch') := loop1 k ch in (T c b :: t ++ t', o', ch')
           | Brk => (T c b :: t, Norm, ch)
           | _ => (T c b :: t, o, ch)
           end
    end
  end.
Fixpoint pick (i : nat) (l : list stmt) {struct l} : list event * outcome * list nat :=
  match l with [] => ([], Norm, ch0) | s :: l => match i with 0 => f s ch0 | S i => pick i l end end.
Fixpoint src_list (l : list stmt) (p ch : list nat) : list event * outcome * list nat * list nat :=
  match l with
  | [] => ([], Norm, p, ch)
  | s :: l =>
    let '(t, o, p, ch) := src N s p ch in
    if norm o then let '(t', o', p', ch') := src_list l p ch in (t ++ t', o', p', ch') else (t, o, p, ch)
  end.
Fixpoint tgt_list (l : list stmt) (ch : list nat) : list event * outcome * list nat :=
  match l with
  | [] => ([], Norm, ch)
  | s :: l =>
    let '(t, o, ch) := tgt N s ch in
    if norm o then let '(t', o', ch') := tgt_list l ch in (t ++ t', o', ch') else (t, o, ch)
  end.
End pieces.
Definition src_body (N : nat) (s : stmt) : run := fun ch => let '(t, o, q, ch) := src N s [] ch in (t ++ leave o q, o, ch).
Lemma src_block N l p ch : src N (Block l) p ch = let '(t, o, q, ch) := src_list N l [] ch in (t ++ leave o q, o, p, ch).
Proof. reflexivity. Qed.
Lemma src_if N c a b p ch : src N (If c a b) p ch =
  match ch with [] => ([], Cut, p, []) | k :: ch => let '(t, o, ch) := src_body N (if k =? 0 then b else a) ch in (T c k :: t, o, p, ch) end.
Proof. reflexivity. Qed.
Lemma src_while N c s p ch : src N (While c s) p ch =
  let '(t, o, ch) := match c with None => loop0 (src_body N s) N ch | Some c => loop1 c (src_body N s) N ch end in (t, o, p, ch).
Proof. destruct c; reflexivity. Qed.
Lemma src_for N c s p ch : src N (For c s) p ch = let '(t, o, ch) := loop1 c (src_body N s) N ch in (t, o, p, ch).
Proof. reflexivity. Qed.
Lemma src_switch N c l p ch : src N (Switch c l) p ch =
  match ch with [] => ([], Cut, p, []) | k :: ch => let '(t, o, ch) := pick (src_body N) ch k l in (T c k :: t, o, p, ch) end.
Proof. reflexivity. Qed.
Lemma tgt_block N l ch : tgt N (Block l) ch = tgt_list N l ch.
Proof. reflexivity. Qed.
Lemma tgt_if N c a b ch : tgt N (If c a b) ch =
  match ch with [] => ([], Cut, []) | k :: ch => let '(t, o, ch) := (if k =? 0 then tgt N b ch else tgt N a ch) in (T c k :: t, o, ch) end.
Proof. reflexivity. Qed.
Lemma tgt_while N c s ch : tgt N (While c s) ch = match c with None => loop0 (tgt N s) N ch | Some c => loop1 c (tgt N s) N ch end.
Proof. destruct c; reflexivity. Qed.
Lemma tgt_for N c s ch : tgt N (For c s) ch = loop1 c (tgt N s) N ch.
Proof. reflexivity. Qed.
Lemma tgt_switch N c l ch : tgt N (Switch c l) ch =
  match ch with [] => ([], Cut, []) | k :: ch => let '(t, o, ch) := pick (tgt N) ch k l in (T c k :: t, o, ch) end.
Proof. reflexivity. Qed.

Lemma loop0_ext f g k : (forall ch, f ch = g ch) -> forall ch, loop0 f k ch = loop0 g k ch.
Proof.
  intros H. induction k as [|k IH]; intros ch; [done|]. cbn. rewrite H. destruct (g ch) as [[t o] ch']. destruct o; try done; by rewrite IH.
Qed.
Lemma loop1_ext c f g k : (forall ch, f ch = g ch) -> forall ch, loop1 c f k ch = loop1 c g k ch.
Proof.
  intros H. induction k as [|k IH]; intros ch; [done|]. cbn. destruct ch as [|b ch]; [done|]. destruct (b =? 0); [done|].
  rewrite H. destruct (g ch) as [[t o] ch']. destruct o; try done; by rewrite IH.
Qed.

(** ** Wrapping keeps the meaning *)
Lemma body_block1 N s ch : src_body N (Block [s]) ch = src_body N s ch.
Proof.
  unfold src_body. rewrite src_block. cbn. destruct (src N s [] ch) as [[[t o] q] ch']. destruct o; cbn; rewrite ?app_nil_r; done.
Qed.
Lemma body_boxed N s ch : src_body N (boxed s) ch = src_body N s ch.
Proof. unfold boxed. destruct (isBlock s); [done|]. apply body_block1. Qed.
Lemma while_loop (N : nat) c f : forall k ch,
  loop0 (fun ch => match ch with [] => ([], Cut, []) | b :: ch => if b =? 0 then ([T c b], Brk, ch) else let '(t, o, ch) := f ch in (T c b :: t, o, ch) end) k ch =
  loop1 c f k ch.
Proof.
  clear N. induction k as [|k IH]; intros ch; [done|]. cbn. destruct ch as [|b ch]; [done|]. destruct (b =? 0); [done|].
  destruct (f ch) as [[t o] ch']. destruct o; try done; rewrite IH; destruct (loop1 c f k ch') as [[t' o'] ch'']; done.
Qed.
Lemma shake_src N s : forall p ch, src N (shake s) p ch = src N s p ch.
Proof.
  induction s as [n|n|n| | | |l IH|c a b IHa IHb|c b IHb|c b IHb|c l IH] using stmt_ind'; intros p ch; try done.
  - cbn [shake]. rewrite !src_block. enough (forall q ch, src_list N (map shake l) q ch = src_list N l q ch) as -> by done.
    induction IH as [|s l H _ IH]; intros q ch'; [done|]. cbn. rewrite H. destruct (src N s q ch') as [[[t o] q'] ch'']. destruct (norm o); [|done]. by rewrite IH.
  - cbn [shake]. rewrite !src_if. destruct ch as [|k ch]; [done|].
    assert (src_body N (boxed (shake a)) ch = src_body N a ch) as Ha.
    { rewrite body_boxed. unfold src_body. by rewrite IHa. }
    assert (src_body N (match b with Noop => Noop | If _ _ _ => shake b | _ => boxed (shake b) end) ch = src_body N b ch) as Hb.
    { assert (src_body N (boxed (shake b)) ch = src_body N b ch) as H1. { rewrite body_boxed. unfold src_body. by rewrite IHb. }
      assert (src_body N (shake b) ch = src_body N b ch) as H2. { unfold src_body. by rewrite IHb. }
      destruct b; done. }
    destruct (k =? 0); [by rewrite Hb|by rewrite Ha].
  - cbn [shake]. destruct c as [c|]; rewrite !src_while.
    + erewrite loop0_ext; [rewrite (while_loop N c (src_body N (shake b)))|].
      * by rewrite (loop1_ext c (src_body N (shake b)) (src_body N b)) by (intros ?; unfold src_body; by rewrite IHb).
      * intros ch'. rewrite body_block1. unfold src_body at 1. rewrite src_if. destruct ch' as [|k ch']; [done|].
        destruct (k =? 0); [done|]. rewrite body_boxed. destruct (src_body N (shake b) ch') as [[t o] ch'']. unfold leave. destruct (cut o); cbn; by rewrite app_nil_r.
    + rewrite (loop0_ext (src_body N (boxed (shake b))) (src_body N b)); [done|]. intros ch'. rewrite body_boxed. unfold src_body. by rewrite IHb.
  - cbn [shake]. rewrite !src_for. rewrite (loop1_ext c (src_body N (boxed (shake b))) (src_body N b)); [done|].
    intros ch'. rewrite body_boxed. unfold src_body. by rewrite IHb.
  - cbn [shake]. rewrite !src_switch. destruct ch as [|k ch]; [done|].
    enough (pick (src_body N) ch k (map shake l) = pick (src_body N) ch k l) as -> by done. revert k.
    induction IH as [|s l H _ IH]; intros k; [done|]. cbn. destruct k; [|done]. unfold src_body. by rewrite H.
Qed.

(** ** The shape after it *)
Definition else_part (s : stmt) : bool := match s with Block _ | If _ _ _ | Noop => true | _ => false end.
Fixpoint shaped (s : stmt) : bool :=
  match s with
  | Block l => forallb shaped l
  | If _ a b => isBlock a && else_part b && shaped a && shaped b
  | While _ s | For _ s => isBlock s && shaped s
  | Switch _ l => forallb (fun s => negb (bare s) && shaped s) l
  | _ => true
  end.
Lemma boxed_block s : isBlock (boxed s) = true.
Proof. unfold boxed. by destruct (isBlock s) eqn:E. Qed.
Lemma boxed_shaped s : shaped s = true -> shaped (boxed s) = true.
Proof. unfold boxed. destruct (isBlock s); [done|]. cbn. intros ->. done. Qed.
Lemma shake_bare s : bare (shake s) = bare s.
Proof. destruct s; try done. destruct c; done. Qed.
Lemma shake_shaped s : no_bare_case s = true -> shaped (shake s) = true.
Proof.
  induction s as [n|n|n| | | |l IH|c a b IHa IHb|c b IHb|c b IHb|c l IH] using stmt_ind'; try done.
  - cbn. induction IH as [|s l H _ IH]; [done|]. cbn. rewrite !andb_true_iff. naive_solver.
  - cbn [no_bare_case shake shaped]. rewrite andb_true_iff. intros [A B]. rewrite boxed_block, (boxed_shaped _ (IHa A)). cbn [andb].
    pose proof (boxed_shaped _ (IHb B)) as Q. pose proof (boxed_block (shake b)) as Q'. specialize (IHb B).
    assert (else_part (boxed (shake b)) = true) as Q2 by (by destruct (boxed (shake b))).
    destruct b; try (rewrite Q2, Q; done); [done|]. cbn [else_part shake]. cbn [shake] in IHb. rewrite IHb. done.
  - cbn [no_bare_case]. intros H. specialize (IHb H). destruct c as [c|]; cbn [shake shaped].
    + cbn [isBlock forallb shaped else_part]. rewrite boxed_block, (boxed_shaped _ IHb). done.
    + by rewrite boxed_block, (boxed_shaped _ IHb).
  - cbn [no_bare_case]. intros H. specialize (IHb H). cbn [shake shaped]. by rewrite boxed_block, (boxed_shaped _ IHb).
  - cbn. induction IH as [|s l H _ IH]; [done|]. cbn. rewrite !andb_true_iff, shake_bare. naive_solver.
Qed.

(** ** Leaving scopes *)
Fixpoint upto (scopes : list scope) : list nat :=
  match scopes with [] => [] | s :: rest => if loop s then defers s else defers s ++ upto rest end.
Definition exits (o : outcome) (scopes : list scope) : list nat :=
  match o with Norm | Cut => [] | Ret _ => concat (map defers scopes) | Brk | Cont => upto scopes end.
Definition open (s : scope) : Prop := sealed s = false.
Lemma need_open s : open s -> (if needsSealing s then sealed_list s else []) = map Act (defers s).
Proof. unfold open, needsSealing, sealed_list. intros ->. by destruct (defers s). Qed.
Lemma return_open scopes : Forall open scopes -> at_return scopes = map Act (concat (map defers scopes)).
Proof.
  unfold at_return. induction 1 as [|s l H _ IH]; [done|]. cbn [map concat]. rewrite need_open by done. by rewrite IH, map_app.
Qed.
Lemma break_open scopes : Forall open scopes -> at_break scopes = map Act (upto scopes).
Proof.
  induction 1 as [|s l H _ IH]; [done|]. cbn [at_break upto]. destruct (loop s); [done|]. rewrite need_open by done. by rewrite IH, map_app.
Qed.
Lemma added_nil l : added [] l = l.
Proof. by destruct l. Qed.

(** ** The visit, in pieces *)
Section visits.
  Variables (scopes outer : list scope).
Fixpoint visit_list (l : list stmt) (top : scope) : list stmt :=
  if sealed top then l
  else match l with
       | [] => if needsSealing top then sealed_list top else []
       | s :: l => let '(s', top', pre) := visit s top scopes [] in pre ++ s' :: visit_list l top'
       end.
Fixpoint visit_cases (l : list stmt) (top : scope) (pre : list stmt) : list stmt * scope * list stmt :=
  match l with
  | [] => ([], top, pre)
  | s :: l =>
    let '(s', top, pre) := visit s top outer pre in
    let '(l', top, pre) := visit_cases l top pre in (s' :: l', top, pre)
  end.
Definition visit_block (isLoop : bool) (l : list stmt) : stmt :=
  Block (List.filter (fun s => negb (isNoop s)) (visit_list l (Scope isLoop false []))).
End visits.
Lemma visit_Block l top outer pre : visit (Block l) top outer pre = (visit_block (top :: outer) false l, top, pre).
Proof. reflexivity. Qed.
Lemma visit_While c l top outer pre : visit (While c (Block l)) top outer pre = (While c (visit_block (top :: outer) true l), top, pre).
Proof. reflexivity. Qed.
Lemma visit_For c l top outer pre : visit (For c (Block l)) top outer pre = (For c (visit_block (top :: outer) true l), top, pre).
Proof. reflexivity. Qed.
Lemma visit_Switch c l top outer pre : visit (Switch c l) top outer pre = let '(cs, top, pre) := visit_cases outer l top pre in (Switch c cs, top, pre).
Proof. reflexivity. Qed.

Lemma tgt_drop N l : forall ch, tgt_list N (List.filter (fun s => negb (isNoop s)) l) ch = tgt_list N l ch.
Proof.
  induction l as [|s l IH]; intros ch; [done|]. cbn [List.filter]. destruct (isNoop s) eqn:E; cbn [negb].
  - destruct s; try done. rewrite IH. cbn. by destruct (tgt_list N l ch) as [[? ?] ?].
  - cbn [tgt_list]. destruct (tgt N s ch) as [[t o] ch']. destruct (norm o); [|done]. by rewrite IH.
Qed.
Lemma tgt_acts N l r : forall ch, tgt_list N (map Act l ++ r) ch = let '(t, o, ch) := tgt_list N r ch in (map A l ++ t, o, ch).
Proof.
  induction l as [|n l IH]; intros ch; cbn [map app tgt_list]; [by destruct (tgt_list N r ch) as [[? ?] ?]|].
  cbn. rewrite IH. by destruct (tgt_list N r ch) as [[? ?] ?].
Qed.

(** Loops whose bodies agree except for what is run on the way out. *)
Lemma loop0_rel (E : outcome -> list event) f g : E Norm = [] -> E Brk = [] -> E Cont = [] -> E Cut = [] ->
  (forall ch t o ch', f ch = (t, o, ch') -> g ch = (t ++ E o, o, ch')) ->
  forall k ch t o ch', loop0 f k ch = (t, o, ch') -> o <> Brk /\ o <> Cont /\ loop0 g k ch = (t ++ E o, o, ch').
Proof.
  intros H1 H2 H3 H4 H. induction k as [|k IH]; intros ch t o ch'; cbn [loop0].
  - intros [= <- <- <-]. rewrite H4. done.
  - destruct (f ch) as [[t1 o1] ch1] eqn:F. apply H in F. rewrite F.
    destruct o1.
    + destruct (loop0 f k ch1) as [[t2 o2] ch2] eqn:G. apply IH in G as (? & ? & G). intros [= <- <- <-]. split_and!; try done.
      rewrite G, H1, app_nil_r, app_assoc. done.
    + intros [= <- <- <-]. done.
    + intros [= <- <- <-]. split_and!; try done. rewrite H1, H2, !app_nil_r. done.
    + destruct (loop0 f k ch1) as [[t2 o2] ch2] eqn:G. apply IH in G as (? & ? & G). intros [= <- <- <-]. split_and!; try done.
      rewrite G, H3, app_nil_r, app_assoc. done.
    + intros [= <- <- <-]. done.
Qed.
Lemma loop1_rel (E : outcome -> list event) c f g : E Norm = [] -> E Brk = [] -> E Cont = [] -> E Cut = [] ->
  (forall ch t o ch', f ch = (t, o, ch') -> g ch = (t ++ E o, o, ch')) ->
  forall k ch t o ch', loop1 c f k ch = (t, o, ch') -> o <> Brk /\ o <> Cont /\ loop1 c g k ch = (t ++ E o, o, ch').
Proof.
  intros H1 H2 H3 H4 H. induction k as [|k IH]; intros ch t o ch'; cbn [loop1].
  - intros [= <- <- <-]. rewrite H4. done.
  - destruct ch as [|b ch]; [intros [= <- <- <-]; rewrite H4; done|]. destruct (b =? 0); [intros [= <- <- <-]; rewrite H1; done|].
    destruct (f ch) as [[t1 o1] ch1] eqn:F. apply H in F. rewrite F.
    destruct o1.
    + destruct (loop1 c f k ch1) as [[t2 o2] ch2] eqn:G. apply IH in G as (? & ? & G). intros [= <- <- <-]. split_and!; try done.
      rewrite G, H1, app_nil_r. cbn. rewrite app_assoc. done.
    + intros [= <- <- <-]. done.
    + intros [= <- <- <-]. split_and!; try done. rewrite H1, H2, !app_nil_r. done.
    + destruct (loop1 c f k ch1) as [[t2 o2] ch2] eqn:G. apply IH in G as (? & ? & G). intros [= <- <- <-]. split_and!; try done.
      rewrite G, H3, app_nil_r. cbn. rewrite app_assoc. done.
    + intros [= <- <- <-]. done.
Qed.

(** ** The visit keeps the meaning *)
Definition good (N : nat) (s : stmt) : Prop :=
  shaped s = true -> bare s = false ->
  forall top outer pre, Forall open (top :: outer) ->
  exists s', visit s top outer pre = (s', top, pre) /\
  forall p ch t o q ch', src N s p ch = (t, o, q, ch') -> q = p /\ tgt N s' ch = (t ++ map A (exits o (top :: outer)), o, ch').
Definition final (o : outcome) (isLoop : bool) (q : list nat) (scopes : list scope) : list nat :=
  if norm o then q else exits o (Scope isLoop false q :: scopes).
Lemma list_good N l : Forall (good N) l -> forallb shaped l = true -> forall isLoop p scopes, Forall open scopes ->
  forall ch t o q ch', src_list N l p ch = (t, o, q, ch') ->
  tgt_list N (visit_list scopes l (Scope isLoop false p)) ch = (t ++ map A (final o isLoop q scopes), o, ch').
Proof.
  intros Hl. induction Hl as [|s l H _ IH]; intros Hs isLoop p scopes Ho ch t o q ch' Hrun.
  - injection Hrun as <- <- <- <-. cbn [visit_list sealed]. rewrite need_open by done. cbn [defers]. rewrite <- (app_nil_r (map Act p)), tgt_acts. cbn.
    by rewrite app_nil_r.
  - cbn in Hs. apply andb_true_iff in Hs as [Hs1 Hs2].
    assert (Forall open (Scope isLoop false p :: scopes)) as Ho'. { constructor; [done|exact Ho]. }
    cbn [visit_list sealed]. cbn [src_list] in Hrun.
    destruct (bare s) eqn:B.
    + destruct s; try done.
      * (* defer *) cbn in Hrun. destruct (src_list N l (n :: p) ch) as [[[t1 o1] q1] ch1] eqn:R. injection Hrun as <- <- <- <-.
        cbn [visit]. cbn [app]. cbn [tgt_list tgt norm]. cbn [loop sealed defers]. rewrite (IH Hs2 isLoop (n :: p) scopes Ho _ _ _ _ _ R). done.
      * cbn in Hrun. injection Hrun as <- <- <- <-. cbn [visit]. rewrite added_nil, return_open by exact Ho'. rewrite tgt_acts. cbn [tgt_list tgt norm].
        rewrite app_nil_r. done.
      * cbn in Hrun. injection Hrun as <- <- <- <-. cbn [visit]. rewrite added_nil, break_open by exact Ho'. rewrite tgt_acts. cbn [tgt_list tgt norm].
        rewrite app_nil_r. done.
      * cbn in Hrun. injection Hrun as <- <- <- <-. cbn [visit]. rewrite added_nil, break_open by exact Ho'. rewrite tgt_acts. cbn [tgt_list tgt norm].
        rewrite app_nil_r. done.
    + destruct (H Hs1 B _ _ [] Ho') as (s' & -> & Hr). destruct (src N s p ch) as [[[t1 o1] q1] ch1] eqn:R. destruct (Hr _ _ _ _ _ _ R) as [-> Ht].
      cbn [app tgt_list]. rewrite Ht. destruct (norm o1) eqn:No.
      * destruct o1; try done. destruct (src_list N l p ch1) as [[[t2 o2] q2] ch2] eqn:R2. injection Hrun as <- <- <- <-.
        rewrite (IH Hs2 isLoop p scopes Ho _ _ _ _ _ R2). cbn [exits map]. by rewrite app_nil_r, app_assoc.
      * injection Hrun as <- <- <- <-. unfold final. by rewrite No.
Qed.
Lemma block_good N l : Forall (good N) l -> forallb shaped l = true -> forall isLoop scopes, Forall open scopes ->
  forall p ch t o q ch', src N (Block l) p ch = (t, o, q, ch') ->
  q = p /\ tgt N (visit_block scopes isLoop l) ch =
  (t ++ map A (match o with Norm | Cut => [] | Ret _ => exits o scopes | _ => if isLoop then [] else exits o scopes end), o, ch').
Proof.
  intros Hl Hs isLoop scopes Ho p ch t o q ch'. rewrite src_block. destruct (src_list N l [] ch) as [[[t1 o1] q1] ch1] eqn:R.
  intros [= <- <- <- <-]. split; [done|]. unfold visit_block. rewrite tgt_block, tgt_drop.
  rewrite (list_good N l Hl Hs isLoop [] scopes Ho _ _ _ _ _ R). f_equal. f_equal. rewrite <- app_assoc. f_equal.
  unfold final, leave. destruct o1; cbn; rewrite ?app_nil_r, ?map_app; try done; destruct isLoop; rewrite ?map_app, ?app_nil_r; done.
Qed.
Lemma body_nil N s ch t o q ch' : src N s [] ch = (t, o, q, ch') -> q = [] -> src_body N s ch = (t, o, ch').
Proof. unfold src_body. intros -> ->. unfold leave. destruct (cut o); by rewrite app_nil_r. Qed.
(** The body of a loop. *)
Lemma loop_body N l scopes : Forall (good N) l -> forallb shaped l = true -> Forall open scopes ->
  forall ch t o ch', src_body N (Block l) ch = (t, o, ch') ->
  tgt N (visit_block scopes true l) ch = (t ++ map A (match o with Ret _ => exits o scopes | _ => [] end), o, ch').
Proof.
  intros Hl Hs Ho ch t o ch' R. destruct (src N (Block l) [] ch) as [[[t1 o1] q1] ch1] eqn:E.
  destruct (block_good N l Hl Hs true scopes Ho _ _ _ _ _ _ E) as [-> Ht].
  rewrite (body_nil _ _ _ _ _ _ _ E) in R by done. injection R as <- <- <-. rewrite Ht. by destruct o1.
Qed.
Definition parts (N : nat) (s : stmt) : Prop := match s with Block l => Forall (good N) l | _ => True end.
Lemma all_good' N s : good N s /\ parts N s.
Proof.
  induction s as [n|n|n| | | |l IH|c a b IHa IHb|c b IHb|c b IHb|c l IH] using stmt_ind';
    (split; [|try exact I; try (apply (List.Forall_impl _ (fun s H => proj1 H) IH))]); intros Hs Hb top outer pre Ho; try done.
  - exists (Act n). split; [done|]. intros p ch t o q ch' [= <- <- <- <-]. done.
  - exists Noop. split; [done|]. intros p ch t o q ch' [= <- <- <- <-]. done.
  - exists (visit_block (top :: outer) false l). split; [apply visit_Block|]. intros p ch t o q ch' R.
    destruct (block_good N l (List.Forall_impl _ (fun s H => proj1 H) IH) Hs false (top :: outer) Ho _ _ _ _ _ _ R) as [-> Ht]. split; [done|]. rewrite Ht. by destruct o.
  - cbn [shaped] in Hs. rewrite !andb_true_iff in Hs. destruct Hs as [[[Ba Eb] Sa] Sb].
    assert (bare a = false) as Na by (by destruct a). assert (bare b = false) as Nb by (by destruct b).
    apply proj1 in IHa, IHb. destruct (IHa Sa Na top outer pre Ho) as (a' & Va & Ra). destruct (IHb Sb Nb top outer pre Ho) as (b' & Vb & Rb).
    exists (If c a' b'). split; [cbn [visit]; by rewrite Va, Vb|]. intros p ch t o q ch'. rewrite src_if, tgt_if.
    destruct ch as [|k ch]; [intros [= <- <- <- <-]; done|].
    destruct (k =? 0).
    + destruct (src N b [] ch) as [[[t1 o1] q1] ch1] eqn:E. destruct (Rb _ _ _ _ _ _ E) as [-> Ht]. rewrite (body_nil _ _ _ _ _ _ _ E) by done.
      intros [= <- <- <- <-]. by rewrite Ht.
    + destruct (src N a [] ch) as [[[t1 o1] q1] ch1] eqn:E. destruct (Ra _ _ _ _ _ _ E) as [-> Ht]. rewrite (body_nil _ _ _ _ _ _ _ E) by done.
      intros [= <- <- <- <-]. by rewrite Ht.
  - cbn [shaped] in Hs. apply andb_true_iff in Hs as [Bb Sb]. destruct b as [| | | | | |l| | | |]; try done.
    exists (While c (visit_block (top :: outer) true l)). split; [apply visit_While|]. intros p ch t o q ch'. rewrite src_while, tgt_while.
    apply proj2 in IHb. cbn [parts] in IHb.
    pose (E := fun o => map A (match o with Ret _ => exits o (top :: outer) | _ => [] end)).
    destruct c as [c|].
    + destruct (loop1 c (src_body N (Block l)) N ch) as [[t1 o1] ch1] eqn:R. intros [= <- <- <- <-]. split; [done|].
      destruct (loop1_rel E c _ (tgt N (visit_block (top :: outer) true l)) eq_refl eq_refl eq_refl eq_refl (loop_body N l _ IHb Sb Ho) _ _ _ _ _ R) as (? & ? & ->).
      by destruct o1.
    + destruct (loop0 (src_body N (Block l)) N ch) as [[t1 o1] ch1] eqn:R. intros [= <- <- <- <-]. split; [done|].
      destruct (loop0_rel E _ (tgt N (visit_block (top :: outer) true l)) eq_refl eq_refl eq_refl eq_refl (loop_body N l _ IHb Sb Ho) _ _ _ _ _ R) as (? & ? & ->).
      by destruct o1.
  - cbn [shaped] in Hs. apply andb_true_iff in Hs as [Bb Sb]. destruct b as [| | | | | |l| | | |]; try done.
    exists (For c (visit_block (top :: outer) true l)). split; [apply visit_For|]. intros p ch t o q ch'. rewrite src_for, tgt_for.
    apply proj2 in IHb. cbn [parts] in IHb.
    pose (E := fun o => map A (match o with Ret _ => exits o (top :: outer) | _ => [] end)).
    destruct (loop1 c (src_body N (Block l)) N ch) as [[t1 o1] ch1] eqn:R. intros [= <- <- <- <-]. split; [done|].
    destruct (loop1_rel E c _ (tgt N (visit_block (top :: outer) true l)) eq_refl eq_refl eq_refl eq_refl (loop_body N l _ IHb Sb Ho) _ _ _ _ _ R) as (? & ? & ->).
    by destruct o1.
  - enough (exists l', visit_cases outer l top pre = (l', top, pre) /\ forall i ch t o ch',
              pick (src_body N) ch i l = (t, o, ch') -> pick (tgt N) ch i l' = (t ++ map A (exits o (top :: outer)), o, ch')) as (l' & V & R).
    { exists (Switch c l'). split; [rewrite visit_Switch, V; done|]. intros p ch t o q ch'. rewrite src_switch, tgt_switch.
      destruct ch as [|k ch]; [intros [= <- <- <- <-]; done|]. destruct (pick (src_body N) ch k l) as [[t1 o1] ch1] eqn:E. apply R in E. rewrite E.
      intros [= <- <- <- <-]. done. }
    clear Hb. cbn in Hs. induction IH as [|s l H _ IH]; [exists []; split; [done|]; intros i ch t o ch' [= <- <- <-]; done|].
    cbn in Hs. rewrite !andb_true_iff in Hs. destruct Hs as [[Nb Ss] Sl]. apply negb_true_iff in Nb.
    destruct (proj1 H Ss Nb top outer pre Ho) as (s' & V & R). destruct (IH Sl) as (l' & V' & R').
    exists (s' :: l'). split; [cbn; by rewrite V, V'|]. intros i ch t o ch'. cbn. destruct i; [|apply R'].
    destruct (src N s [] ch) as [[[t1 o1] q1] ch1] eqn:E. destruct (R _ _ _ _ _ _ E) as [-> Ht]. rewrite (body_nil _ _ _ _ _ _ _ E) by done.
    intros [= <- <- <-]. done.
Qed.
Lemma all_good N s : good N s.
Proof. apply all_good'. Qed.

Theorem lower_runs N l ch : forallb no_bare_case l = true -> tgt N (lower l) ch = run_src N l ch.
Proof.
  intros H. assert (shaped (shake (Block l)) = true) as Hs. { apply shake_shaped. exact H. }
  unfold lower, run_src. rewrite <- (shake_src N (Block l)).
  destruct (all_good N (shake (Block l)) Hs eq_refl (Scope false false []) [] []) as (s' & V & R); [by repeat constructor|].
  rewrite V. destruct (src N (shake (Block l)) [] ch) as [[[t o] q] ch'] eqn:E. destruct (R _ _ _ _ _ _ E) as [_ ->].
  f_equal. f_equal. by destruct o; cbn; rewrite app_nil_r.
Qed.
