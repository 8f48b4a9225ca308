From Coq Require Import Lia ZifyBool ZifyNat ZifyN.
From stdpp Require Import numbers list.
From Verif Require Import FormatModel FormatSpec FormatProofs DiagModel DiagSpec.

Lemma last_line_spec data n :
  match last_line data n with
  | Some i => i < n /\ data !! i = Some 10%N /\ forall j, i < j < n -> data !! j <> Some 10%N
  | None => forall j, j < n -> data !! j <> Some 10%N
  end.
Proof.
  induction n as [|n IH]; cbn [last_line]; [lia|]. case_bool_decide as E.
  - split; [lia|]. split; [done|]. lia.
  - destruct (last_line data n) as [i|].
    + destruct IH as (H1 & H2 & H3). split; [lia|]. split; [done|]. intros j Hj.
      destruct (decide (j = n)) as [->|]; [done|]. apply H3. lia.
    + intros j Hj. destruct (decide (j = n)) as [->|]; [done|]. apply IH. lia.
Qed.
(** [b] is where the line of [off] begins. *)
Definition begins (f : list N) (off b : nat) : Prop :=
  b <= off /\ (b = 0 \/ f !! (b - 1) = Some 10%N) /\ forall j, b <= j < off -> f !! j <> Some 10%N.
Lemma fread_lookup f off n j : j < n -> fread f off n !! j = f !! (off + j).
Proof. intros H. unfold fread. rewrite lookup_take by done. by rewrite lookup_drop. Qed.
Lemma find_line_begin_spec fuel f off : off < fuel -> off <= length f ->
  exists b, find_line_begin fuel f off = Some b /\ begins f off b.
Proof.
  revert off. induction fuel as [|fuel IH]; intros off H1 H2; [lia|]. cbn [find_line_begin].
  destruct (Nat.eqb_spec off 0) as [->|N0].
  { exists 0. split; [done|]. split; [lia|]. split; [by left|]. lia. }
  set (range := if 64 <? off then 64 else off).
  assert (Hr : 0 < range <= off) by (unfold range; destruct (Nat.ltb_spec 64 off); lia).
  assert (Hl : length (fread f (off - range) range) = range).
  { unfold fread. rewrite take_length, drop_length. lia. }
  destruct (Nat.ltb_spec (length (fread f (off - range) range)) range); [lia|].
  pose proof (last_line_spec (fread f (off - range) range) range) as L.
  destruct (last_line (fread f (off - range) range) range) as [i|].
  - destruct L as (L1 & L2 & L3). exists (off - range + i + 1). split; [done|]. split; [lia|]. split.
    + right. rewrite fread_lookup in L2 by done. rewrite <- L2. f_equal. lia.
    + intros j Hj. specialize (L3 (j - (off - range)) ltac:(lia)). rewrite fread_lookup in L3 by lia.
      intros E. apply L3. rewrite <- E. f_equal. lia.
  - destruct (IH (off - range)) as (b & Eb & B1 & B2 & B3); [lia|lia|]. exists b. split; [done|].
    split; [lia|]. split; [done|]. intros j Hj. destruct (decide (j < off - range)); [apply B3; lia|].
    specialize (L (j - (off - range)) ltac:(lia)). rewrite fread_lookup in L by lia.
    intros E. apply L. rewrite <- E. f_equal. lia.
Qed.
Lemma findLineBegin_spec f off : off <= length f -> exists b, findLineBegin f off = Some b /\ begins f off b.
Proof. intros H. apply find_line_begin_spec; lia. Qed.

Lemma first_line_spec data i :
  match first_line data i with
  | Some k => exists pre post, data = pre ++ 10%N :: post /\ 10%N ∉ pre /\ k = i + length pre
  | None => 10%N ∉ data
  end.
Proof.
  revert i. induction data as [|c t IH]; intros i; cbn [first_line]; [apply not_elem_of_nil|].
  destruct (N.eqb_spec c 10) as [->|N0].
  - exists [], t. split; [done|]. split; [apply not_elem_of_nil|cbn; lia].
  - specialize (IH (S i)). destruct (first_line t (S i)) as [k|].
    + destruct IH as (pre & post & -> & H1 & ->). exists (c :: pre), post. split; [done|].
      split; [rewrite not_elem_of_cons; split; [congruence|done]|cbn; lia].
    + rewrite not_elem_of_cons. split; [congruence|done].
Qed.
(** The part up to the next line break. *)
Fixpoint upto (s : list N) : list N :=
  match s with c :: t => if (c =? 10)%N then [] else c :: upto t | [] => [] end.
Lemma upto_app pre post : 10%N ∉ pre -> upto (pre ++ post) = pre ++ upto post.
Proof.
  induction pre as [|c pre IH]; [done|]. rewrite not_elem_of_cons. intros [H1 H2]. cbn.
  destruct (N.eqb_spec c 10); [congruence|]. by rewrite IH.
Qed.
Lemma upto_none s : 10%N ∉ s -> upto s = s.
Proof. intros H. rewrite <- (app_nil_r s) at 1. rewrite upto_app by done. cbn. by rewrite app_nil_r. Qed.
Lemma upto_spec s : exists post, s = upto s ++ post /\ 10%N ∉ upto s /\ (post = [] \/ head post = Some 10%N).
Proof.
  induction s as [|c t (p & E & H1 & H2)]; cbn [upto].
  - exists []. split_and!; [done|apply not_elem_of_nil|by left].
  - destruct (N.eqb_spec c 10) as [->|N0].
    + exists (10%N :: t). split_and!; [done|apply not_elem_of_nil|by right].
    + exists p. cbn. rewrite <- E. split_and!; [done| |done]. rewrite not_elem_of_cons. split; [congruence|done].
Qed.
Lemma find_line_end_spec fuel f off : length f < fuel + off -> off <= length f ->
  find_line_end fuel f off = Some (off + length (upto (drop off f))).
Proof.
  revert off. induction fuel as [|fuel IH]; intros off H1 H2; [lia|]. cbn [find_line_end]. unfold fread.
  pose proof (first_line_spec (take 64 (drop off f)) 0) as L.
  replace (upto (drop off f)) with (upto (take 64 (drop off f) ++ drop 64 (drop off f))) by (by rewrite take_drop).
  destruct (first_line (take 64 (drop off f)) 0) as [k|].
  - destruct L as (pre & post & -> & H & ->). rewrite <- app_assoc, upto_app by done. cbn. by rewrite app_nil_r.
  - rewrite upto_app by done. destruct (Nat.ltb_spec (length (take 64 (drop off f))) 64) as [Hs|Hs].
    + rewrite take_length in Hs. rewrite (drop_ge (drop off f)) by lia. cbn. by rewrite app_nil_r.
    + rewrite take_length in Hs. assert (length (drop off f) >= 64) by lia. rewrite drop_length in *.
      rewrite take_length, drop_length. rewrite IH by lia. rewrite app_length, take_length, drop_length, drop_drop.
      f_equal. replace (64 `min` (length f - off)) with 64 by lia. lia.
Qed.
Lemma findLineEnd_spec f off : off <= length f -> findLineEnd f off = Some (off + length (upto (drop off f))).
Proof. intros H. apply find_line_end_spec; lia. Qed.

Lemma begins_line f off b : off <= length f -> begins f off b -> is_line f off b (upto (drop b f)).
Proof.
  intros Ho (H1 & H2 & H3). destruct (upto_spec (drop b f)) as (post & E & Hn & Hp).
  exists (take b f), post. split; [by rewrite <- E, take_drop|]. split; [rewrite take_length; lia|].
  split.
  { destruct H2 as [->|H2]; [by left|]. destruct (decide (b = 0)) as [->|]; [by left|]. right.
    rewrite last_lookup, take_length. replace (pred (b `min` length f)) with (b - 1) by lia.
    by rewrite lookup_take by lia. }
  split; [done|]. split; [done|]. split; [done|].
  destruct (decide (off <= b + length (upto (drop b f)))); [done|].
  destruct Hp as [->|Hp].
  - rewrite app_nil_r in E. rewrite <- E, drop_length in *. lia.
  - exfalso. apply (H3 (b + length (upto (drop b f)))); [lia|]. rewrite <- lookup_drop, E.
    rewrite lookup_app_r by (rewrite <- E; lia). rewrite <- E, Nat.sub_diag. destruct post; [done|]. by injection Hp as ->.
Qed.
Lemma is_line_upto f off b text : is_line f off b text -> upto (drop b f) = text.
Proof.
  intros (pre & post & -> & -> & _ & H1 & H2 & _). rewrite drop_app. rewrite upto_app by done.
  destruct H2 as [->|H2]; [by rewrite app_nil_r|]. destruct post as [|c post]; [done|]. injection H2 as ->. cbn. by rewrite app_nil_r.
Qed.
Lemma is_line_begin f off b b' text text' : is_line f off b text -> is_line f off b' text' -> b <= b'.
Proof.
  intros (pre & post & E & -> & P & _ & _ & L) (pre' & post' & E' & -> & P' & N' & _ & L').
  destruct (decide (length pre <= length pre')); [done|]. exfalso.
  destruct P as [->|P]; [cbn in *; lia|].
  rewrite last_lookup in P. assert (K : f !! pred (length pre) = Some 10%N) by (rewrite E; by rewrite lookup_app_l by lia).
  rewrite E' in K. rewrite lookup_app_r in K by lia. rewrite lookup_app_l in K by lia.
  apply elem_of_list_lookup_2 in K. done.
Qed.
Lemma is_line_unique f off b b' text text' : is_line f off b text -> is_line f off b' text' -> b = b' /\ text = text'.
Proof.
  intros H H'. assert (b = b') as -> by (pose proof (is_line_begin _ _ _ _ _ _ H H'); pose proof (is_line_begin _ _ _ _ _ _ H' H); lia).
  split; [done|]. by rewrite <- (is_line_upto _ _ _ _ H), <- (is_line_upto _ _ _ _ H').
Qed.

(** ** The printed line *)
Lemma c_string_id s : 0%N ∉ s -> c_string s = s.
Proof.
  induction s as [|c t IH]; [done|]. rewrite not_elem_of_cons. intros [H1 H2]. cbn.
  destruct (N.eqb_spec c 0); [congruence|]. by rewrite IH.
Qed.
Lemma fgets_spec n s : exists r, s = fgets n s ++ r /\
  ((10%N ∉ fgets n s /\ (r = [] \/ length (fgets n s) = n)) \/ exists p, fgets n s = p ++ [10%N] /\ 10%N ∉ p).
Proof.
  revert s. induction n as [|n IH]; intros s.
  - exists s. split; [done|]. left. split; [apply not_elem_of_nil|by right].
  - destruct s as [|c t]; cbn [fgets]; [exists []; split; [done|]; left; split; [apply not_elem_of_nil|by left]|].
    destruct (N.eqb_spec c 10) as [->|N0].
    + exists t. split; [done|]. right. exists []. split; [done|apply not_elem_of_nil].
    + destruct (IH t) as (r & E & H). exists r. cbn. rewrite <- E. split; [done|].
      destruct H as [[H1 H2]|(p & -> & Hp)].
      * left. split; [rewrite not_elem_of_cons; split; [congruence|done]|]. destruct H2 as [->|H2]; [by left|right; lia].
      * right. exists (c :: p). split; [done|]. rewrite not_elem_of_cons. split; [congruence|done].
Qed.
Lemma last_index_none s n : 10%N ∉ s -> last_index s n = None.
Proof.
  intros H. induction n as [|n IH]; cbn; [done|]. case_bool_decide as E; [|done]. by apply elem_of_list_lookup_2 in E.
Qed.
Lemma last_index_end p : last_index (p ++ [10%N]) (length (p ++ [10%N])) = Some (length p).
Proof.
  rewrite app_length, Nat.add_comm. cbn. by rewrite lookup_app_r, Nat.sub_diag by lia.
Qed.
Lemma print_file_line_spec fuel s : length s < fuel -> 0%N ∉ s -> print_file_line fuel s = upto s.
Proof.
  revert s. induction fuel as [|fuel IH]; intros s H H0; [lia|]. cbn [print_file_line].
  destruct (fgets_spec 63 s) as (r & E & K). remember (fgets 63 s) as buf eqn:Eb.
  destruct buf as [|c buf].
  { destruct s as [|c t]; [done|]. cbn in Eb. by destruct (c =? 10)%N. }
  cbv beta iota zeta. rewrite E in H0. apply not_elem_of_app in H0 as [H1 H2]. rewrite c_string_id by done.
  destruct K as [[K1 K2]|(p & Ep & Hp)].
  - rewrite last_index_none by done. rewrite E at 1. rewrite drop_app. rewrite IH.
    + rewrite E. by rewrite upto_app by done.
    + rewrite E, app_length in H. cbn in H. lia.
    + done.
  - rewrite Ep, last_index_end, take_app. rewrite E, Ep, <- app_assoc, upto_app by done. cbn. by rewrite app_nil_r.
Qed.
Lemma printFileLine_spec f b : 0%N ∉ f -> printFileLine f b = upto (drop b f) ++ [10%N].
Proof.
  intros H. unfold printFileLine. rewrite print_file_line_spec; [done|rewrite drop_length; lia|].
  intros K. apply H. rewrite <- (take_drop b f). apply elem_of_app. by right.
Qed.
Lemma printEmptySpace_spec n : printEmptySpace n = blanks n.
Proof.
  unfold printEmptySpace, blanks. destruct (Nat.leb_spec 4 n); [|done]. rewrite <- replicate_add. f_equal. lia.
Qed.
Lemma count_digits_spec k n : count_digits k n = length (digits k n).
Proof.
  revert n. induction k as [|k IH]; intros n; cbn; [done|]. destruct (n <? 10)%N; [done|].
  rewrite app_length, IH. cbn. lia.
Qed.
Lemma minus_ok a b : b <= a -> minus a b = Some (a - b).
Proof. intros H. unfold minus. destruct (Nat.ltb_spec a b); [lia|done]. Qed.
Lemma count_digits_mono k n m : (n <= m)%N -> count_digits k n <= count_digits k m.
Proof.
  revert n m. induction k as [|k IH]; intros n m H; cbn; [done|].
  destruct (N.ltb_spec n 10), (N.ltb_spec m 10); [lia|lia|lia|].
  apply le_n_S, IH, N.div_le_mono; [done|done].
Qed.
