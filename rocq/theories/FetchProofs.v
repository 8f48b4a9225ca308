From Coq Require Import NArith Lia.
From stdpp Require Import numbers list.
From Verif Require Import Base64Model Base64Spec Base64Proofs Utf8Proofs FetchModel FetchSpec.
From Coq Require Import ZifyBool ZifyNat ZifyN.
Ltac Zify.zify_post_hook ::= Z.div_mod_to_equations.
Local Open Scope N_scope.
Local Arguments N.eqb : simpl never. Local Arguments N.ltb : simpl never. Local Arguments N.leb : simpl never.
Local Arguments N.add : simpl never.  Local Arguments N.mul : simpl never.  Local Arguments N.sub : simpl never.

Lemma hex_ok k : k < 16 -> hex_digit (hex_at k) k.
Proof.
  intros Hk.
  assert (A : forall k, k < 16 -> ((48 <=? hex_at k) && (hex_at k <=? 57) && (k =? hex_at k - 48))
     || ((97 <=? hex_at k) && (hex_at k <=? 102) && (k =? hex_at k - 87)) = true)
    by (apply (all_below_spec 16 (fun k => ((48 <=? hex_at k) && (hex_at k <=? 57) && (k =? hex_at k - 48))
     || ((97 <=? hex_at k) && (hex_at k <=? 102) && (k =? hex_at k - 87)))); by vm_compute).
  specialize (A k Hk). unfold hex_digit. lia.
Qed.
Lemma land_F c : N.land c 0xF = c mod 16.
Proof. change 0xF with (N.ones 4). by rewrite N.land_ones. Qed.
Lemma encode_decodes s : is_bytes s -> decodes (urlEncode s) s.
Proof.
  induction s as [|c s IH]; intros Hb; cbn [urlEncode]; [constructor|].
  apply Forall_cons_1 in Hb as [Hc Hb]. destruct (plain c) eqn:E; cbn [app].
  - constructor; [|by apply IH]. unfold plain, unreserved in *. lia.
  - rewrite N.shiftr_div_pow2, land_F. change (2 ^ 4) with 16.
    replace (c :: s) with (c / 16 * 16 + c mod 16 :: s) by (f_equal; lia).
    constructor; [apply hex_ok; lia|apply hex_ok; lia|by apply IH].
Qed.
Lemma hex_unique c x y : hex_digit c x -> hex_digit c y -> x = y.
Proof. unfold hex_digit. lia. Qed.
Lemma decodes_unique t s s' : decodes t s -> decodes t s' -> s = s'.
Proof.
  intros D. revert s'. induction D as [|c t s U D IH|h l x y t s Hh Hl D IH]; intros s' D'; inversion D'; subst; try done.
  - f_equal. by apply IH.
  - exfalso. unfold unreserved in U. lia.
  - match goal with X : unreserved 37 |- _ => exfalso; unfold unreserved in X; lia end.
  - match goal with X : hex_digit h _, Y : hex_digit l _ |- _ =>
      rewrite (hex_unique _ _ _ Hh X), (hex_unique _ _ _ Hl Y) end.
    f_equal. by apply IH.
Qed.

(** Multipart. *)
Lemma len_app a b : len (a ++ b) = len a + len b.
Proof. unfold len. rewrite app_length. lia. Qed.
Lemma len_nil : len [] = 0. Proof. done. Qed.
Lemma data_size_ok b items : forall size, data_size b items size = size + len (concat (map (data_part b) items)).
Proof.
  induction items as [|it items IH]; intros size; cbn [data_size map concat]; [rewrite len_nil; lia|].
  rewrite IH, len_app. unfold data_part. rewrite !len_app.
  change (len dashes) with 2. change (len CRLF) with 2. change (len [34]) with 1. lia.
Qed.
Lemma upload_size_ok b us : forall size, upload_size b us size = size + len (concat (map (upload_part b) us)).
Proof.
  induction us as [|u us IH]; intros size; cbn [upload_size map concat]; [rewrite len_nil; lia|].
  rewrite IH, len_app. unfold upload_part. rewrite !len_app.
  change (len dashes) with 2. change (len CRLF) with 2. change (len [34]) with 1.
  destruct (empty (u_type u)); [rewrite len_nil; lia|]. rewrite !len_app. change (len CRLF) with 2. lia.
Qed.
Lemma multipart_size f : multipartEncodeSize f = len (multipartEncode f).
Proof.
  unfold multipartEncodeSize, multipartEncode. destruct (f_uploads f) as [|u us].
  - rewrite data_size_ok, !len_app. change (len dashes) with 2. lia.
  - rewrite upload_size_ok, data_size_ok, !len_app. change (len dashes) with 2. lia.
Qed.

(** URL-encoded forms. *)
Lemma form_size_shift items : forall a b, form_size items (a + b) = a + form_size items b.
Proof.
  induction items as [|[k v] items IH]; intros a b; cbn [form_size]; [done|].
  rewrite <- IH. f_equal. lia.
Qed.
Definition item_ok (it : list N * list N) : Prop :=
  (2 <= length (fst it))%nat /\ (2 <= length (snd it))%nat.
Definition odd_item (it : list N * list N) : Prop :=
  Nat.even (length (fst it)) = false /\ Nat.even (length (snd it)) = false.
Lemma enc_len k e : urlEncodeBuffer k = DOk e -> (2 <= length k)%nat /\ len e <= 2 * len k /\
  (len e = 2 * len k <-> Nat.even (length k) = false).
Proof.
  intros E. assert (H : (2 <= length k)%nat /\ e = urlEncode_loop k).
  { destruct k as [|a [|b k]]; [done|done|]. cbn [urlEncodeBuffer] in E. injection E as <-. cbn [length]. split; [lia|done]. }
  destruct H as [H ->]. assert (L := url_length k H). unfold len. split; [done|].
  destruct (Nat.even (length k)); split; try done; try split; try done; lia.
Qed.
Lemma form_loop_len items : forall out, form_loop items false = DOk out ->
  Forall item_ok items /\ len out <= form_size items (N.of_nat (length items)) /\
  (len out = form_size items (N.of_nat (length items)) <-> Forall odd_item items).
Proof.
  induction items as [|[k v] items IH]; intros out E; cbn [form_loop] in E.
  - injection E as <-. split; [constructor|]. split; [done|]. split; [constructor|done].
  - destruct (urlEncodeBuffer k) as [ek| |] eqn:Ek; [|done..]. destruct (urlEncodeBuffer v) as [ev| |] eqn:Ev; [|done..].
    destruct (form_loop items false) as [rest| |] eqn:Er; [|done..]. injection E as <-.
    destruct (IH rest eq_refl) as (A & B & C).
    destruct (enc_len k ek Ek) as (Hk & Lk & Xk), (enc_len v ev Ev) as (Hv & Lv & Xv).
    split; [by constructor|]. rewrite Forall_cons, <- C. unfold odd_item at 1. cbn [fst snd]. rewrite <- Xk, <- Xv.
    cbn [form_size]. rewrite !url_size. change (38 :: ek ++ 61 :: ev ++ rest) with ([38] ++ ek ++ [61] ++ ev ++ rest).
    rewrite !len_app. change (len [61]) with 1. change (len [38]) with 1.
    replace (N.of_nat (length ((k, v) :: items)) + (1 + 2 * len k + 2 * len v))
      with ((2 + 2 * len k + 2 * len v) + N.of_nat (length items)) by (cbn [length]; lia).
    rewrite form_size_shift. lia.
Qed.
Lemma form_exact f out : f_data f <> [] -> formUrlEncode f = DOk out ->
  urlEncodedSize f = len out <-> Forall odd_item (f_data f).
Proof.
  intros Hne E. unfold formUrlEncode, urlEncodedSize in *. destruct (f_data f) as [|[k v] items]; [done|]. clear Hne.
  assert (E2 : form_loop ((k, v) :: items) false = DOk (38 :: out)).
  { cbn [form_loop] in *. destruct (urlEncodeBuffer k) as [ek| |]; [|done..]. destruct (urlEncodeBuffer v) as [ev| |]; [|done..].
    destruct (form_loop items false) as [rest| |]; [|done..]. injection E as <-. done. }
  destruct (form_loop_len _ _ E2) as (_ & B & C). rewrite <- C.
  change (38 :: out) with ([38] ++ out). rewrite len_app. change (len [38]) with 1.
  replace (N.of_nat (length ((k, v) :: items))) with (1 + (N.of_nat (length ((k, v) :: items)) - 1)) at 2 by (cbn [length]; lia).
  rewrite form_size_shift. lia.
Qed.
Lemma form_defined f : (exists out, formUrlEncode f = DOk out) <-> Forall item_ok (f_data f).
Proof.
  unfold formUrlEncode. generalize true. induction (f_data f) as [|[k v] items IH]; intros first; cbn [form_loop].
  - split; [constructor|by eexists].
  - rewrite Forall_cons, <- (IH false). unfold item_ok at 1. cbn [fst snd].
    assert (D : forall k, (exists e, urlEncodeBuffer k = DOk e) <-> (2 <= length k)%nat).
    { intros [|a [|b l]]; cbn [length urlEncodeBuffer]; (split; [|try lia]); try (by intros [e ?]); [lia|by eexists]. }
    rewrite <- !D. split.
    + intros [out E]. destruct (urlEncodeBuffer k) as [ek| |]; [|done..]. destruct (urlEncodeBuffer v) as [ev| |]; [|done..].
      destruct (form_loop items false) as [rest| |]; [|done..]. repeat split; by eexists.
    + intros [[[ek ->] [ev ->]] [rest ->]]. by eexists.
Qed.
