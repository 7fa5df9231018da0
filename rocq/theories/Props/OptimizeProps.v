(** C30, C32, C63, C64: what the outgoing optimizers do to messages. *)
From Coq Require Import String.
From Verif.Base Require Import Prelude Bytes AMap Str.
From Verif.Model Require Import Wire Optimize.
From Verif.Spec Require Import OptimizeSpec.
From Verif.Proofs Require Import OptimizeProofs.
Open Scope list_scope.
Open Scope N_scope.

(** ** C30: Immediate messages.  [O] and [step] are arbitrary: any optimizers whatever. *)
(** With any optimizers installed the output of a call starts with exactly the Immediate messages of its
    input, unchanged and in order. *)
Theorem C30_bypass : forall (O : Type) (step : O -> list OutMessage -> O * list OutMessage) os batch, os <> [] ->
  exists rest, snd (process_outgoing step os batch) = urgent_part batch ++ rest.
Proof. intros O step os batch Hne. rewrite process_outgoing_cons by auto. cbn [snd]. eexists. reflexivity. Qed.
Print Assumptions C30_bypass.
(** The optimizers neither see them nor depend on them: batches that differ only in their Immediate messages
    leave the optimizers in the same state and give the same other messages. *)
Theorem C30_unseen : forall (O : Type) (step : O -> list OutMessage -> O * list OutMessage) os b1 b2, os <> [] ->
  non_urgent b1 = non_urgent b2 ->
  fst (process_outgoing step os b1) = fst (process_outgoing step os b2)
  /\ exists rest, snd (process_outgoing step os b1) = urgent_part b1 ++ rest
                 /\ snd (process_outgoing step os b2) = urgent_part b2 ++ rest.
Proof.
  intros O step os b1 b2 Hne Hn. rewrite !process_outgoing_cons by auto. cbn [fst snd].
  assert (E : forall b, filter (fun m => negb (is_immediate m)) b = non_urgent b).
  { intros b. apply filter_ext. intros x. unfold is_immediate. destruct (om_prio x); reflexivity. }
  rewrite !E, Hn. split; auto. eexists. split; reflexivity.
Qed.
Print Assumptions C30_unseen.
(** Without optimizers a batch goes out as it is. *)
Theorem C30_no_optimizers : forall (O : Type) (step : O -> list OutMessage -> O * list OutMessage) batch,
  process_outgoing step [] batch = ([], batch).
Proof. reflexivity. Qed.
Print Assumptions C30_no_optimizers.
(** So then the Immediate messages are not ahead of the others: "ahead of all others" is refuted for the
    default configuration. *)
Definition om (t : N) (p : Priority) (payload : bytes) : OutMessage := mkOut t payload 0 1 p RelNone PodLe.
Theorem C30_ahead_refuted : exists batch out, out = snd (process_outgoing (opt_out (fun _ _ => true) 0) (from_config []) batch)
  /\ exists m, hd_error out = Some m /\ om_prio m <> Immediate /\ urgent_part batch <> [].
Proof.
  exists [om 1 Bulk [1]; om 2 Immediate [2]], [om 1 Bulk [1]; om 2 Immediate [2]]. split; [reflexivity|].
  exists (om 1 Bulk [1]). repeat split; cbn; congruence.
Qed.
Print Assumptions C30_ahead_refuted.
Example C30_ex : exists os batch, os = from_config [bs "fusion"%string; bs "delta"%string; bs "predict"%string; bs "spatial"%string] /\ os <> []
  /\ snd (process_outgoing (opt_out (fun _ _ => true) 0) os batch) = [om 2 Immediate [2]] /\ length batch = 2%nat.
Proof.
  eexists _, [om 1 Bulk [1]; om 2 Immediate [2]]. split; [reflexivity|]. split; [vm_compute; congruence|]. vm_compute. auto.
Qed.

(** ** C32: delta *)
(** The documented format is sound: a delta shorter than the payload, applied to the previous payload of the
    same size, gives the new one. *)
Theorem C32_format : forall old new, length old = length new ->
  (length (compute_delta old new) < length new)%nat ->
  apply_delta (length (compute_delta old new)) old (compute_delta old new) = Some new.
Proof. intros. apply apply_compute; auto. Qed.
Print Assumptions C32_format.
(** A receiver that applied deltas would, on a lossless link and for a topic whose payloads all have one
    size, hold exactly the last published value after every history. *)
Theorem C32_applied_partial : forall close h t n,
  (forall m, In m (given h) -> om_topic m = t -> length (om_payload m) = n /\ om_prio m <> Immediate) ->
  fold_left (rx_apply n) (on_topic t (wired (snd (export_run close (from_config [bs "delta"%string]) h)))) None
  = last_value (on_topic t (given h)).
Proof.
  intros close h t n Hn.
  change (from_config [bs "delta"%string]) with [ODelta delta_new].
  destruct (delta_wired_topic close t h delta_new) as (A & B). { intros m Hm Ht. apply (Hn m Hm Ht). }
  rewrite A. pose proof (delta_follow t n (non_urgent (given h)) delta_new) as F.
  change (lookup N.eqb t (de_last delta_new)) with (@None bytes) in F.
  rewrite F; [rewrite B; generalize (last_value (on_topic t (given h))); intros []; reflexivity| |discriminate].
  intros m Hm Ht. apply filter_In in Hm. apply (Hn m (proj1 Hm) Ht).
Qed.
Print Assumptions C32_applied_partial.
(** At least one in every 100 consecutive messages of a topic is sent in full. *)
Theorem C32_keyframes : forall close h1 h2 t,
  (100 <= length (on_topic t (non_urgent (given h2))))%nat ->
  exists m, In m (wired (snd (export_run close (fst (export_run close (from_config [bs "delta"%string]) h1)) h2)))
    /\ In m (given h2) /\ om_topic m = t.
Proof.
  intros close h1 h2 t Hl. change (from_config [bs "delta"%string]) with [ODelta delta_new].
  rewrite (proj1 (delta_run close h1 delta_new)). set (d1 := fst (retain delta_one delta_new (non_urgent (given h1)))).
  destruct (delta_run close h2 d1) as (_ & W).
  destruct (Exists_dec (fun m => In m (non_urgent (given h2)) /\ om_topic m = t) (snd (retain delta_one d1 (non_urgent (given h2))))) as [H|H].
  { intros m. destruct (N.eq_dec (om_topic m) t); [|right; tauto].
    destruct (in_dec om_eq_dec m (non_urgent (given h2))); [left|right]; tauto. }
  - apply Exists_exists in H. destruct H as (m & A & B & C). exists m. split; [apply W; auto|]. split; auto.
    apply filter_In in B. tauto.
  - exfalso. destruct (delta_fresh t (non_urgent (given h2)) d1) as [G|G].
    + intros m A B C. apply H, Exists_exists. exists m; auto.
    + assert (E : de_interval d1 = 100).
      { subst d1. rewrite delta_interval. reflexivity. }
      rewrite E in G. lia.
    + rewrite G in Hl. cbn in Hl. lia.
Qed.
Print Assumptions C32_keyframes.

(** Refuted as it stands: nothing on the receiving side applies deltas, so the subscriber is given bytes that
    were never published. *)
Definition z16 : bytes := repeat 0 16.
Definition set_at (i : nat) (v : N) (p : bytes) : bytes := firstn i p ++ [v] ++ skipn (S i) p.
Definition h_ab : list (N * list OutMessage) := [(0, [om 7 Normal z16]); (1, [om 7 Normal (set_at 0 1 z16)])].
Theorem C32_refuted : forall close, exists h m,
  In m (snd (process_incoming opt_in (from_config [bs "delta"%string])
               (wired (snd (export_run close (from_config [bs "delta"%string]) h)))))
  /\ forall m', In m' (given h) -> om_payload m' <> om_payload m.
Proof.
  intros close. exists h_ab, (om 7 Normal [0; 0; 1; 0; 1]). split.
  - vm_compute. auto.
  - intros m' [<-|[<-|[]]]; vm_compute; congruence.
Qed.
Print Assumptions C32_refuted.
(** Nor could any receiver tell: two histories that publish different last values send the same messages. *)
Theorem C32_ambiguous_refuted : forall close, exists h1 h2,
  snd (export_run close (from_config [bs "delta"%string]) h1) = snd (export_run close (from_config [bs "delta"%string]) h2)
  /\ last_value (given h1) <> last_value (given h2).
Proof.
  intros close. exists h_ab, [(0, [om 7 Normal z16]); (1, [om 7 Normal [0; 0; 1; 0; 1]])]. split.
  - reflexivity.
  - vm_compute. congruence.
Qed.
Print Assumptions C32_ambiguous_refuted.
(** "Packet loss gives an old but valid value" is refuted too, even for a receiver that applies deltas: after
    losing one message it holds a mixture that was never published. *)
Theorem C32_loss_refuted : forall close, exists h a b c v,
  wired (snd (export_run close (from_config [bs "delta"%string]) h)) = [a; b; c]
  /\ fold_left (rx_apply 16) [a; c] None = Some v
  /\ forall m, In m (given h) -> om_payload m <> v.
Proof.
  intros close. exists (h_ab ++ [(2, [om 7 Normal (set_at 8 1 (set_at 0 1 z16))])]).
  exists (om 7 Normal z16), (om 7 Normal [0; 0; 1; 0; 1]), (om 7 Normal [8; 0; 1; 0; 1]), (set_at 8 1 z16).
  split; [reflexivity|]. split; [reflexivity|].
  intros m [<-|[<-|[<-|[]]]]; vm_compute; congruence.
Qed.
Print Assumptions C32_loss_refuted.
Example C32_ex : (length (compute_delta z16 (set_at 0 1 z16)) < 16)%nat
  /\ (forall m, In m (given h_ab) -> om_topic m = 7 -> length (om_payload m) = 16%nat /\ om_prio m <> Immediate).
Proof. split; [vm_compute; lia|]. intros m [<-|[<-|[]]] _; vm_compute; split; congruence. Qed.

(** ** C63: fusion *)
(** Whatever the passes and their times: nothing is lost, duplicated, reordered or changed.  What has gone out
    followed by what is still held is what was given (Immediate messages are never held). *)
Theorem C63_conserved : forall close h, exists held,
  non_urgent (wired (snd (export_run close (from_config [bs "fusion"%string]) h))) ++ held = non_urgent (given h)
  /\ urgent_part (wired (snd (export_run close (from_config [bs "fusion"%string]) h))) = urgent_part (given h).
Proof.
  intros close h. change (from_config [bs "fusion"%string]) with [OFusion fusion_new].
  destruct (fusion_run close h fusion_new) as (f' & _ & _ & _ & C & D); [intros m []|].
  exists (fu_buffer f'). split; [exact C|exact D].
Qed.
Print Assumptions C63_conserved.
(** A message is out by the first pass, at least 500 us later, that has another message to export. *)
Theorem C63_released : forall close h1 t b h2 now b2 m,
  (forall t1 b1, In (t1, b1) h1 -> t1 <= t) ->
  In m b -> t + 500000 <= now -> non_urgent b2 <> [] ->
  In m (wired (snd (export_run close (from_config [bs "fusion"%string]) (h1 ++ (t, b) :: h2 ++ [(now, b2)])))).
Proof.
  intros close h1 t b h2 now b2 m Ht Hm Hn Hb2.
  change (from_config [bs "fusion"%string]) with [OFusion fusion_new].
  destruct (fusion_start close h1 t fusion_new Ht) as (f1 & E1 & S1); [discriminate|].
  destruct (fusion_run close h1 fusion_new) as (f1' & E1' & W1 & P1 & _); [intros x []|].
  rewrite E1 in E1'. injection E1' as <-.
  rewrite export_run_app, E1. cbn [snd]. unfold wired. rewrite concat_app. apply in_app_iff. right.
  cbn [export_run]. rewrite fusion_pass.
  set (f2 := fst (fusion_out t f1 (non_urgent b))).
  destruct (export_run close [OFusion f2] (h2 ++ [(now, b2)])) as [os outs] eqn:Er. cbn [snd concat].
  rewrite !in_app_iff.
  destruct (is_immediate m) eqn:Ei.
  { left. left. apply filter_In. auto. }
  assert (Hmb : In m (non_urgent b)).
  { apply filter_In. split; auto. unfold is_immediate in Ei. destruct (om_prio m); auto. }
  assert (W2 : fu_window f2 = 500000).
  { subst f2. unfold fusion_out. repeat case_match; exact W1. }
  assert (G : In m (snd (fusion_out t f1 (non_urgent b)))
    \/ (In m (fu_buffer f2) /\ exists s, fu_start f2 = Some s /\ s <= t)).
  { subst f2. unfold fusion_out. destruct (non_urgent b) as [|x r] eqn:Eb; [destruct Hmb|].
    destruct (fu_start f1) as [s|] eqn:Es.
    - destruct (fu_window f1 <=? t - s); cbn [fst snd fu_buffer fu_start]; rewrite in_app_iff; [auto|].
      right. split; auto. exists s. auto.
    - cbn [fst snd fu_buffer fu_start]. right. rewrite in_app_iff. split; auto. exists t. split; auto. lia. }
  destruct G as [G|(G1 & G2)]; [auto|]. right.
  change (In m (wired outs)).
  assert (Eo : outs = snd (export_run close [OFusion f2] (h2 ++ [(now, b2)]))) by (rewrite Er; auto).
  rewrite Eo, export_run_app. cbn [snd]. unfold wired. rewrite concat_app, in_app_iff.
  destruct (fusion_held close h2 m t f2 G1 G2) as [H|(f3 & E3 & G3 & s & Es & Hs)]; [left; exact H|].
  right. rewrite E3. cbn [export_run]. rewrite fusion_pass. cbn [snd concat]. rewrite app_nil_r, in_app_iff. right.
  assert (W3 : fu_window f3 = 500000).
  { clear - E3 W2. pose proof (fusion_window close h2 f2) as (f' & A & B). rewrite E3 in A. injection A as <-. congruence. }
  unfold fusion_out. destruct (non_urgent b2); [congruence|]. rewrite Es, W3.
  rewrite (proj2 (N.leb_le 500000 (now - s))) by lia. cbn [snd]. apply in_app_iff. auto.
Qed.
Print Assumptions C63_released.
(** Refuted that a message is held only for the fusion window: with no other message to export it is held for
    ever, however many passes follow. *)
Theorem C63_prompt_refuted : forall close t m h, om_prio m <> Immediate ->
  (forall t' b, In (t', b) h -> non_urgent b = []) ->
  ~ In m (wired (snd (export_run close (from_config [bs "fusion"%string]) ((t, [m]) :: h)))).
Proof.
  intros close t m h Hp Hh Hin. change (from_config [bs "fusion"%string]) with [OFusion fusion_new] in Hin.
  destruct (fusion_run close ((t, [m]) :: h) fusion_new) as (f' & A & _ & _ & C & _); [intros x []|].
  assert (N0 : non_urgent [m] = [m]).
  { unfold non_urgent. cbn. destruct (om_prio m); auto; contradiction. }
  assert (G : non_urgent (given h) = []).
  { clear - Hh. induction h as [|[t b] r IH]; auto. unfold given. cbn [flat_map snd]. fold (given r).
    rewrite non_urgent_app, (Hh t b) by (left; auto). apply IH. intros; eapply Hh; right; eauto. }
  assert (Hf : forall f, fu_buffer f = [m] ->
     exists f', fst (export_run close [OFusion f] h) = [OFusion f'] /\ fu_buffer f' = [m]).
  { clear - Hh. induction h as [|[t b] r IH]; intros f Hf; [exists f; auto|]. cbn [export_run]. rewrite fusion_pass.
    rewrite (Hh t b) by (left; auto). cbn [fusion_out fst snd]. destruct (IH ltac:(intros; eapply Hh; right; eauto) f Hf) as (f' & A & B).
    exists f'. destruct (export_run close [OFusion f] r); auto. }
  cbn [export_run] in *. rewrite fusion_pass, N0 in *. cbn [fusion_out fst snd fusion_new fu_start fu_window fu_buffer app] in *.
  destruct (Hf (mkFusion 500000 [m] (Some t)) eq_refl) as (f2 & A2 & B2).
  destruct (export_run close [OFusion (mkFusion 500000 [m] (Some t))] h) as [os outs]. cbn [fst snd] in *.
  rewrite A2 in A. injection A as <-. rewrite B2 in C.
  unfold given in C. cbn [flat_map snd] in C. fold (given h) in C. rewrite non_urgent_app, N0, G in C.
  assert (C' : non_urgent (wired ((urgents [m] ++ []) :: outs)) ++ [m] = [] ++ [m]) by (rewrite app_nil_r in *; exact C).
  apply app_inv_tail in C'.
  assert (Hw : In m (non_urgent (wired ((urgents [m] ++ []) :: outs)))).
  { apply filter_In. split; auto. destruct (om_prio m); auto. }
  rewrite C' in Hw. destruct Hw.
Qed.
Print Assumptions C63_prompt_refuted.
Example C63_ex : wired (snd (export_run (fun _ _ => true) (from_config [bs "fusion"%string])
    [(10, [om 1 Normal [1]]); (20, [om 2 Normal [2]; om 3 Immediate [3]]); (500010, [om 4 Bulk [4]])]))
  = [om 3 Immediate [3]; om 1 Normal [1]; om 2 Normal [2]; om 4 Bulk [4]].
Proof. reflexivity. Qed.

(** ** C64: prediction *)
(** Messages that go out are given messages, unchanged and in their order, for every error threshold. *)
Theorem C64_unchanged : forall close batch now,
  thinned (snd (opt_out close now (OPredict []) batch)) batch.
Proof. intros. cbn [opt_out]. pose proof (predict_thinned close batch []) as H. destruct (retain _ _ _). exact H. Qed.
Print Assumptions C64_unchanged.
(** At any time, among the next 101 messages of a topic at least one goes out, unchanged. *)
Theorem C64_freshness : forall close h1 h2 t,
  (101 <= length (on_topic t (non_urgent (given h2))))%nat ->
  exists m, In m (wired (snd (export_run close (fst (export_run close (from_config [bs "predict"%string]) h1)) h2)))
    /\ In m (given h2) /\ om_topic m = t.
Proof.
  intros close h1 h2 t Hl. change (from_config [bs "predict"%string]) with [OPredict []].
  rewrite (proj1 (predict_run close h1 [])). set (p1 := fst (retain (predict_one close) [] (non_urgent (given h1)))).
  destruct (predict_run close h2 p1) as (_ & W).
  assert (S1 : supp p1 t <= 100) by (apply predict_inv; cbn; lia).
  destruct (Exists_dec (fun m => om_topic m = t) (snd (retain (predict_one close) p1 (non_urgent (given h2))))) as [H|H].
  { intros m. apply N.eq_dec. }
  - apply Exists_exists in H. destruct H as (m & A & B). exists m. split; [apply W; auto|]. split; auto.
    pose proof (thinned_In _ _ (predict_thinned close (non_urgent (given h2)) p1) m A) as G. apply filter_In in G. tauto.
  - exfalso. pose proof (predict_fresh close t (non_urgent (given h2)) p1 S1) as G.
    assert (supp p1 t + N.of_nat (length (on_topic t (non_urgent (given h2)))) <= 100); [|lia].
    apply G. intros m A B. apply H, Exists_exists. exists m; auto.
Qed.
Print Assumptions C64_freshness.
(** Refuted that a withheld value is close to what the receiver has: a value rising steadily by one is
    withheld 100 times in a row (for any threshold test that accepts a zero error). *)
Definition ramp (n : nat) : list (N * list OutMessage) :=
  map (fun k => (N.of_nat k, [om 7 Normal [N.of_nat k]])) (seq 1 n).
Lemma ramp_tail close : (forall mag, close 0%Z mag = true) -> forall n k s seen, 5 <= seen -> s + N.of_nat n <= 100 ->
  concat (snd (export_run close [OPredict [(7, mkTS [N.of_nat k] [1%Z] s seen)]]
            (map (fun j => (N.of_nat j, [om 7 Normal [N.of_nat j]])) (seq (S k) n)))) = [].
Proof.
  intros Hc. induction n as [|n IH]; intros k s seen H5 Hs; [reflexivity|].
  cbn [seq map export_run]. rewrite export_pass_one.
  assert (E : opt_out close (N.of_nat (S k)) (OPredict [(7, mkTS [N.of_nat k] [1%Z] s seen)]) (non_urgent [om 7 Normal [N.of_nat (S k)]])
     = (OPredict [(7, mkTS [N.of_nat (S k)] [1%Z] (s + 1) (seen + 1))], [])).
  { unfold non_urgent, om. cbn [filter om_prio opt_out retain]. unfold predict_one. cbv zeta. cbn [om_topic om_payload lookup].
    change (7 =? 7) with true. cbv iota. cbn [ts_seen ts_prev ts_velocity ts_suppress length Nat.eqb negb orb].
    rewrite (proj2 (N.leb_gt (seen + 1) 5)), (proj2 (N.leb_gt 100 s)) by lia.
    cbn [error_sq]. replace (Z.of_N (N.of_nat (S k)) - (Z.of_N (N.of_nat k) + 1))%Z with 0%Z by lia.
    change (0 * 0 + 0)%Z with 0%Z. rewrite Hc. unfold velocity. cbn [combine map fst snd].
    replace (Z.of_N (N.of_nat (S k)) - Z.of_N (N.of_nat k))%Z with 1%Z by lia. reflexivity. }
  rewrite E. cbn [fst snd]. specialize (IH (S k) (s + 1) (seen + 1)).
  destruct (export_run close [OPredict [(7, mkTS [N.of_nat (S k)] [1%Z] (s + 1) (seen + 1))]] _) as [os outs].
  cbn [snd concat] in *. rewrite IH by lia. reflexivity.
Qed.
Theorem C64_drift_refuted : forall close, (forall mag, close 0%Z mag = true) ->
  wired (snd (export_run close (from_config [bs "predict"%string]) (ramp 105))) = map (fun k => om 7 Normal [k]) [1; 2; 3; 4; 5]
  /\ last_value (given (ramp 105)) = Some [105].
Proof.
  intros close Hc. split; [|reflexivity].
  assert (E : ramp 105 = ramp 5 ++ map (fun k => (N.of_nat k, [om 7 Normal [N.of_nat k]])) (seq 6 100)) by reflexivity.
  rewrite E, export_run_app. cbn [snd]. unfold wired. rewrite concat_app.
  assert (F : export_run close (from_config [bs "predict"%string]) (ramp 5) =
     ([OPredict [(7, mkTS [5] [1%Z] 0 5)]], map (fun k => [om 7 Normal [k]]) [1; 2; 3; 4; 5])) by reflexivity.
  rewrite F. cbn [fst snd]. pose proof (ramp_tail close Hc 100 5 0 5 ltac:(lia) ltac:(cbn; lia)) as T. change (N.of_nat 5) with 5 in T. rewrite T. reflexivity.
Qed.
Print Assumptions C64_drift_refuted.
Example C64_ex : let h2 := map (fun k => (k, [om 7 Normal [9]])) (map N.of_nat (seq 1 101)) in
  (101 <= length (on_topic 7 (non_urgent (given h2))))%nat
  /\ length (wired (snd (export_run (fun _ _ => true) (from_config [bs "predict"%string]) h2))) = 5%nat.
Proof. vm_compute. split; auto. Qed.
