From Coq Require Import ZArith String Ascii Lia.
From stdpp Require Import numbers list.
From Verif Require Import FormatSpec OutStreamModel OutStreamSpec OutStreamProofs HttpModel HttpRespModel HttpRespSpec.
Local Open Scope nat_scope.

Lemma w_run_snoc ops o : w_run (ops ++ [o]) = w_step (w_run ops) o.
Proof. unfold w_run. by rewrite foldl_app. Qed.
Lemma w_wf ops : wf (w_run ops) /\ o_cap (w_run ops) = 1024.
Proof.
  induction ops as [|o ops IH] using rev_ind; [by split; [left|]|]. rewrite w_run_snoc. destruct IH as [W C].
  destruct o as [d|d]; cbn [w_step].
  - destruct (o_append_cases (w_run ops) d W) as (W' & C' & _). by rewrite C'.
  - destruct (sync_ok (w_run ops)) as (_ & B & C'). split; [left; exact B|]. cbn. by rewrite C'.
Qed.
Lemma w_ordered ops : no_fill ops -> all_bytes (w_run ops) = concat (map wbytes ops).
Proof.
  induction ops as [|o ops IH] using rev_ind; intros H; [done|].
  assert (IH' : all_bytes (w_run ops) = concat (map wbytes ops)).
  { apply IH. intros pre d post ->. apply (H pre d (post ++ [o])). by rewrite <- app_assoc. }
  rewrite w_run_snoc, map_app, concat_app. cbn [map concat]. rewrite app_nil_r, <- IH'.
  destruct (w_wf ops) as [W C]. destruct o as [d|d]; cbn [w_step wbytes].
  - apply (o_append_cases (w_run ops) d W). by eapply H.
  - destruct (sync_ok (w_run ops)) as (A & B & _). unfold all_bytes, flush in *. cbn. rewrite B in *.
    rewrite app_nil_r in *. by rewrite A.
Qed.
Lemma delivered_all ops : delivered ops = all_bytes (w_run ops).
Proof.
  unfold delivered. fold (w_run ops). destruct (sync_ok (w_run ops)) as (A & B & _).
  rewrite <- A. unfold all_bytes. by rewrite B, app_nil_r.
Qed.

(** The response after the reason has been put in. *)
Definition settled (r : response) : option response :=
  if negb (p_status r =? 200)%N && p_empty r then append_body r (drop 9 (statusText (p_status r))) else Some r.

Definition head_ops (f : config) (date : list N) (line : list N) (r : response) : list wop :=
      [WAppend line; WAppend crlf] ++
      (if negb (wants_close r) && (0 <? f_keepAlive f)%Z then
         [WAppend (codes "Connection: Keep-Alive" ++ crlf);
          WAppend (codes "Keep-Alive: "); WAppend (print_integer (f_keepAlive f)); WAppend crlf] else []) ++
      (if (0 <? f_hsts f)%Z then
         [WAppend (codes "Strict-Transport-Security: max-age="); WAppend (print_integer (f_hsts f));
          WAppend (codes "; includeSubdomains" ++ crlf)] else []) ++
      concat (map (fun h => [WAppend (fst h); WAppend (codes ": "); WAppend (snd h); WAppend crlf]) (p_headers r)) ++
      (match header r (codes "Server") with
       | None => [WAppend (codes "Server: "); WAppend (f_name f); WAppend crlf] | Some _ => [] end) ++
      (match header r (codes "Date") with
       | None => [WAppend (codes "Date: "); WAppend date; WAppend crlf] | Some _ => [] end) ++
      (match header r (codes "Content-Length") with
       | None => [WAppend (codes "Content-Length: "); WAppend (print_integer (Z.of_nat (p_size r))); WAppend crlf]
       | Some _ => [] end) ++
      [WAppend crlf].
Lemma send_split f date r : sendResponse f date r =
  match settled r with Some r' => Some (head_ops f date (statusText (p_status r)) r' ++ stream r') | None => None end.
Proof.
  unfold sendResponse. cbn zeta. fold (settled r). destruct (settled r) as [r'|]; [|done].
  fold (wants_close r'). unfold head_ops. by rewrite <- !app_assoc.
Qed.
Lemma head_appends f date line r : Forall (fun o => exists d, o = WAppend d) (head_ops f date line r).
Proof.
  unfold head_ops. repeat (apply Forall_app; split); repeat case_match; repeat constructor; eauto.
  induction (p_headers r) as [|h hs IH]; cbn; [constructor|]. repeat constructor; eauto.
Qed.
Definition wb (l : list wop) : list N := concat (map wbytes l).
Lemma wb_app a b : wb (a ++ b) = wb a ++ wb b.
Proof. unfold wb. by rewrite map_app, concat_app. Qed.
Lemma ft_app (a b : list (list N * list N)) : concat (map field_text (a ++ b)) = concat (map field_text a) ++ concat (map field_text b).
Proof. by rewrite map_app, concat_app. Qed.
Lemma head_bytes f date line r :
  wb (head_ops f date line r) = line ++ crlf ++ concat (map field_text (fields f date r)) ++ crlf.
Proof.
  unfold head_ops, fields. rewrite !wb_app, !ft_app, <- !app_assoc.
  replace (wb [WAppend line; WAppend crlf]) with (line ++ crlf) by by unfold wb; cbn. rewrite <- app_assoc.
  do 2 f_equal. f_equal.
  { destruct (negb _ && _); [|done]. unfold wb, field_text. cbn [map wbytes concat fst snd]. rewrite ?app_nil_r, <- ?app_assoc. done. }
  f_equal.
  { destruct (0 <? f_hsts f)%Z; [|done]. unfold wb, field_text. cbn [map wbytes concat fst snd]. rewrite ?app_nil_r, <- ?app_assoc. done. }
  f_equal.
  { induction (p_headers r) as [|h hs IH]; [done|]. cbn [map concat]. by rewrite wb_app, IH. }
  f_equal. { destruct (header r _); [done|]. unfold wb, field_text. cbn [map wbytes concat fst snd]. rewrite ?app_nil_r, <- ?app_assoc. done. }
  f_equal. { destruct (header r _); [done|]. unfold wb, field_text. cbn [map wbytes concat fst snd]. rewrite ?app_nil_r, <- ?app_assoc. done. }
  f_equal. { destruct (header r _); [done|]. unfold wb, field_text. cbn [map wbytes concat fst snd]. rewrite ?app_nil_r, <- ?app_assoc. done. }
Qed.
Lemma stream_bytes r : wb (stream r) = payload r.
Proof.
  unfold stream, payload, wb. destruct (p_body r) as [b|]; cbn; [by rewrite app_nil_r|].
  destruct (p_chunks r) as [cs|]; [|done]. induction cs as [|[t|c o n] cs IH]; [done| |]; cbn; by rewrite IH.
Qed.
Lemma p_empty_ok r : p_empty r = true <-> nothing_given r.
Proof.
  unfold p_empty, nothing_given. rewrite andb_true_iff.
  destruct (p_body r) as [[|]|], (p_chunks r) as [[|]|]; cbn; naive_solver.
Qed.
Lemma status_9 r : 9 <= length (statusText (p_status r)).
Proof.
  unfold statusText. destruct (List.find _ status_table) as [[c t]|] eqn:E; [|cbn; lia].
  apply find_some in E as [E _].
  assert (F : forallb (fun e => 9 <=? length (codes (snd e))) status_table = true) by by vm_compute.
  rewrite forallb_forall in F. apply Nat.leb_le. exact (F _ E).
Qed.
Lemma settled_ok r r' : settled r = Some r' ->
  p_headers r' = p_headers r /\ p_chunks r' = p_chunks r /\ carries r (payload r').
Proof.
  unfold settled. destruct (N.eqb_spec (p_status r) 200) as [E|E]; cbn [negb andb].
  - intros [= <-]. split; [done|]. split; [done|]. right. split; [|done]. intros [H _]. done.
  - destruct (p_empty r) eqn:Em.
    + apply p_empty_ok in Em. intros H. assert (Hb : p_headers r' = p_headers r /\ p_chunks r' = p_chunks r /\
         p_body r' = Some (drop 9 (statusText (p_status r)))).
      { unfold append_body in H. destruct Em as [[Eb|Eb] Ec]; rewrite Eb in H.
        - destruct (p_chunks r); [done|]. injection H as <-. done.
        - injection H as <-. done. }
      destruct Hb as (H1 & H2 & H3). split; [done|]. split; [done|]. left. split; [done|]. split; [done|].
      exists (take 9 (statusText (p_status r))). unfold payload. rewrite H3. split; [by rewrite take_drop|].
      rewrite take_length. assert (X := status_9 r). lia.
    + intros [= <-]. split; [done|]. split; [done|]. right. split; [|done]. intros [_ N]. apply p_empty_ok in N. congruence.
Qed.
Lemma size_ok r : files_ok r -> p_size r = length (payload r).
Proof.
  unfold files_ok, p_size, payload. destruct (p_body r) as [b|]; [done|]. destruct (p_chunks r) as [cs|]; [|done].
  intros F. assert (G : forall n, foldl (fun sz c => sz + chunk_size c) n cs = n + length (concat (map chunk_bytes cs))).
  { assert (F' : forall content off n, CFile content off n ∈ cs -> off + n <= length content) by eauto. clear F.
    induction cs as [|c cs IH]; intros n; cbn; [lia|]. rewrite IH.
    - rewrite app_length. destruct c as [t|co off k]; cbn; [lia|].
      assert (off + k <= length co) by (eapply F'; left). rewrite take_length, drop_length. lia.
    - intros co off k H. eapply F'. by right. }
  by rewrite G.
Qed.
Lemma files_settled r r' : settled r = Some r' -> files_ok r -> files_ok r'.
Proof. intros H F. apply settled_ok in H as (_ & H & _). unfold files_ok. by rewrite H. Qed.
Lemma no_abort f date r : p_chunks r <> Some [] -> exists ops, sendResponse f date r = Some ops.
Proof.
  intros H. rewrite send_split. unfold settled. destruct (_ && p_empty r) eqn:E; [|eauto].
  apply andb_true_iff in E as [_ E]. apply p_empty_ok in E as [[Eb|Eb] [Ec|Ec]]; try done;
    unfold append_body; rewrite Eb, ?Ec; eauto.
Qed.
Lemma message_ok f date r ops : sendResponse f date r = Some ops -> no_fill ops -> files_ok r ->
  exists fs content, delivered ops = message (statusText (p_status r)) fs content /\ carries r content /\
    (forall h, h ∈ p_headers r -> h ∈ fs) /\
    (header r (codes "Content-Length") = None -> (Z.of_nat (length content) < 2 ^ 63)%Z ->
       exists t, (codes "Content-Length", t) ∈ fs /\ is_decimal (N.of_nat (length content)) t).
Proof.
  rewrite send_split. destruct (settled r) as [r'|] eqn:Es; [|done]. intros [= <-] NF F.
  destruct (settled_ok _ _ Es) as (Hh & Hc & Hcar).
  exists (fields f date r'), (payload r'). split.
  { rewrite delivered_all, (w_ordered _ NF).
    change (wb (head_ops f date (statusText (p_status r)) r' ++ stream r') =
      message (statusText (p_status r)) (fields f date r') (payload r')).
    rewrite wb_app, head_bytes, stream_bytes. unfold message. by rewrite <- !app_assoc. }
  split; [done|]. split.
  { intros h Hh'. unfold fields. rewrite Hh. rewrite !elem_of_app. auto. }
  intros Hn Hl. exists (print_integer (Z.of_nat (length (payload r')))). split.
  - unfold fields. rewrite !elem_of_app. do 5 right.
    assert (header r' (codes "Content-Length") = None) as ->.
    { unfold header in *. by rewrite Hh. }
    rewrite (size_ok r' (files_settled _ _ Es F)). by left.
  - destruct (print_integer_exact (Z.of_nat (length (payload r')))) as [_ P]; [lia|].
    destruct (P Hl) as [[_ P']|[P' _]]; [|lia]. by rewrite Z_nat_N in P' || (replace (N.of_nat (length (payload r'))) with (Z.to_N (Z.of_nat (length (payload r')))) by lia).
Qed.

(** The body that exactly fills the buffer. *)
Lemma small_head ops : Forall (fun o => exists d, o = WAppend d) ops -> length (wb ops) < 1024 ->
  w_run ops = OStream 1024 (wb ops) [].
Proof.
  induction ops as [|o ops IH] using rev_ind; intros F L; [done|].
  apply Forall_app in F as [F Fo]. apply Forall_singleton in Fo as [d ->].
  rewrite wb_app, app_length in L. unfold wb in L at 2. cbn in L. rewrite app_nil_r in L.
  rewrite w_run_snoc, IH, wb_app by (done || lia). cbn [w_step]. unfold o_append. cbn [o_cap o_buf o_out].
  destruct (Nat.ltb_spec (1024 - length (wb ops)) (length d)); [lia|]. cbn [andb].
  destruct (Nat.ltb_spec (length d) (1024 - length (wb ops))); [|lia].
  unfold wb at 3. cbn. by rewrite app_nil_r.
Qed.
Lemma overtaken f date r b : p_body r = Some b -> b <> [] ->
  let head := statusText (p_status r) ++ crlf ++ concat (map field_text (fields f date r)) ++ crlf in
  length head + length b = 1024 ->
  exists ops, sendResponse f date r = Some ops /\ delivered ops = b ++ head.
Proof.
  intros Hb Hne head L. rewrite send_split.
  assert (settled r = Some r) as ->.
  { unfold settled, p_empty. rewrite Hb. destruct b; [done|]. cbn. by rewrite andb_false_r. }
  eexists. split; [done|]. unfold stream. rewrite Hb. unfold delivered. fold (w_run (head_ops f date (statusText (p_status r)) r ++ [WAppend b])).
  rewrite w_run_snoc, small_head; [|apply head_appends|].
  2: { rewrite head_bytes. fold head. destruct b; [done|]. cbn in L. lia. }
  rewrite head_bytes. fold head. cbn [w_step]. unfold o_append. cbn [o_cap o_buf o_out].
  destruct (Nat.ltb_spec (1024 - length head) (length b)); [lia|]. cbn [andb].
  destruct (Nat.ltb_spec (length b) (1024 - length head)); [lia|].
  unfold flush, sync. cbn [o_cap o_buf o_out]. destruct (Nat.ltb_spec 0 (length head)) as [|Hl]; [done|].
  exfalso. unfold head in Hl. rewrite app_length in Hl. assert (X := status_9 r). lia.
Qed.
