(** C05: one fan-out channel delivers an untorn, increasing subsequence and accounts for the rest. *)
From Verif.Base Require Import Prelude.
From Verif.Model Require Import RingMem Seqlock.
From Verif.Spec Require Import SeqlockSpec.
From Verif.Proofs Require Import RingMemProofs BroadcastProofs SeqlockProofs.
Local Open Scope N_scope.

(** For every capacity, width and interleaving: what was sent splits into a part the subscriber has
    gone through and a part still ahead of it; of the first part it received, in order, once each and
    whole, all but [missed]; and the counter shows at least those. *)
Theorem C05_whole_in_order : forall k W sched,
  let tr := q_trace k W sched in
  exists seen ahead missed,
    q_sent tr = seen ++ ahead /\ skips seen missed (q_received tr) /\
    missed <= q_skipped (q_final k W sched) /\
    (q_called tr = q_sent tr \/ exists m, q_called tr = q_sent tr ++ [m]).
Proof.
  intros k W sched tr. pose proof (qinv_reach k W False sched ltac:(tauto)) as I.
  destruct (i_acc _ _ _ _ _ I) as (ms & ex & A & B & _). destruct (i_tail _ _ _ _ _ I) as (T1 & T2).
  exists (seg 0 (q_tail (q_final k W sched)) (q_sent tr)), (skipn (N.to_nat (q_tail (q_final k W sched))) (q_sent tr)), ms.
  split; [unfold seg; cbn [skipn N.to_nat]; rewrite N.sub_0_r; rewrite firstn_skipn; auto|].
  split; [auto|]. split; [lia|]. unfold tr. rewrite (called_sent k W sched).
  destruct (q_pub (q_final k W sched)); cbn [q_pc_pending]; rewrite ?app_nil_r; eauto.
Qed.
Print Assumptions C05_whole_in_order.

(** The counter is exact as long as "nothing there" was only ever answered on an empty channel.
    Missing from the full property: a poll can also give up after 16 attempts while the publisher is
    in the middle of a write, see [C05_skipped_count_refuted]. *)
Theorem C05_accounted_partial : forall k W sched, none_means_empty k W sched ->
  q_con (q_final k W sched) = KIdle ->
  exists seen ahead,
    q_sent (q_trace k W sched) = seen ++ ahead /\
    skips seen (q_skipped (q_final k W sched)) (q_received (q_trace k W sched)).
Proof.
  intros k W sched He Hc. pose proof (qinv_reach k W True sched (fun _ => He)) as I.
  destruct (i_acc _ _ _ _ _ I) as (ms & ex & A & B & C).
  exists (seg 0 (q_tail (q_final k W sched)) (q_sent (q_trace k W sched))), (skipn (N.to_nat (q_tail (q_final k W sched))) (q_sent (q_trace k W sched))).
  split; [unfold seg; cbn [skipn N.to_nat]; rewrite N.sub_0_r; rewrite firstn_skipn; auto|].
  rewrite B, C by auto. unfold q_next. rewrite Hc, N.sub_diag, !N.add_0_r. auto.
Qed.
Print Assumptions C05_accounted_partial.

(** When calls do not overlap, the channel behaves exactly as the ideal one: every answer and the
    loss count are those of [ch_run]. *)
Theorem C05_turn_by_turn : forall k W ops,
  Forall (fun o => match o with OPublish m => length m = W | OConsume => True end) ops ->
  exists sched, q_idle (q_final k W sched) /\ none_means_empty k W sched /\
    q_trace k W sched = snd (ch_run k (Chan [] 0) ops) /\
    q_skipped (q_final k W sched) = ch_lost (fst (ch_run k (Chan [] 0) ops)).
Proof.
  intros k W ops Hf.
  destruct (ops_run k W True ops Hf []) as (more & Hi & Hn & HT & HC); auto.
  - split; reflexivity.
  - intros _ pre a suf E. destruct pre; discriminate.
  - exists more. split; auto. split; auto. split; [exact HT|].
    change (chan_of (q_trace k W []) (q_final k W [])) with (Chan [] 0) in HC. cbn [app] in HC. rewrite <- HC. reflexivity.
Qed.
Print Assumptions C05_turn_by_turn.

(** After any history, once both ends are between calls, further polls return exactly the newest
    [2^k] of the messages not yet passed, in order. *)
Theorem C05_drain : forall k W sched, q_idle (q_final k W sched) ->
  exists seen ahead missed more,
    q_sent (q_trace k W sched) = seen ++ ahead /\ skips seen missed (q_received (q_trace k W sched)) /\
    Forall (eq AConsume) more /\
    q_received (q_trace k W (sched ++ more)) =
    q_received (q_trace k W sched) ++ skipn (length ahead - N.to_nat (2 ^ k)) ahead.
Proof.
  intros k W sched Hi. pose proof (qinv_reach k W False sched ltac:(tauto)) as I.
  destruct (i_acc _ _ _ _ _ I) as (ms & ex & A & B & _).
  set (t := q_tail (q_final k W sched)) in *.
  assert (Polls : forall j sched0, q_idle (q_final k W sched0) ->
    exists more, Forall (eq AConsume) more /\
      q_trace k W (sched0 ++ more) = q_trace k W sched0 ++ snd (ch_run k (chan_of (q_trace k W sched0) (q_final k W sched0)) (repeat OConsume j))).
  { induction j as [|j IH]; intros sched0 Hi0.
    - exists []. split; [constructor|]. cbn [repeat ch_run snd]. rewrite !app_nil_r. auto.
    - pose proof (qinv_reach k W False sched0 ltac:(tauto)) as I0.
      destruct (consume_alone k W _ _ _ I0 Hi0) as (n & s' & R & Hi' & Hc & _).
      destruct (q_reach_app k W sched0 (repeat AConsume n)) as (T & F). rewrite R in T, F. cbn [fst snd] in T, F.
      destruct (IH (sched0 ++ repeat AConsume n)) as (m2 & H1 & H2); [rewrite F; auto|].
      exists (repeat AConsume n ++ m2). split.
      + apply Forall_app. split; auto. apply Forall_forall. intros x Hx. apply repeat_spec in Hx. auto.
      + rewrite app_assoc, H2, T, F, chan_answer, Hc. cbn [repeat ch_run ch_op].
        destruct (ch_consume k _) as (c', o). cbn [fst snd]. destruct (ch_run k c' _) as (c2, e2). cbn [snd].
        rewrite <- app_assoc. f_equal. }
  destruct (ch_drain k (skipn (N.to_nat t) (q_sent (q_trace k W sched))) (q_skipped (q_final k W sched))) as (j & Hj).
  destruct (Polls j sched Hi) as (more & H1 & H2).
  exists (seg 0 t (q_sent (q_trace k W sched))), (skipn (N.to_nat t) (q_sent (q_trace k W sched))), ms, more.
  split; [unfold seg; cbn [skipn N.to_nat]; rewrite N.sub_0_r; rewrite firstn_skipn; auto|].
  split; [auto|]. split; [auto|]. rewrite H2, q_received_app. f_equal. exact Hj.
Qed.
Print Assumptions C05_drain.

(** A poll never blocks: whatever the publisher does, within [16 * (W + 4) + 1] steps of its own the
    subscriber has an answer. *)
Theorem C05_poll_returns : forall k W sched more,
  (16 * (W + 4) + 1 <= length (filter (fun a => match a with AConsume => true | _ => false end) more))%nat ->
  exists e, In e (snd (q_run k W (q_final k W sched) more)) /\ match e with QRecv _ | QNone => True | _ => False end.
Proof.
  intros k W sched more Hl. 
  assert (El : list_sum (map own more) = length (filter (fun a => match a with AConsume => true | _ => false end) more)).
  { clear. unfold list_sum. induction more as [|[x|] more IH]; cbn [map fold_right filter own length]; lia. }
  apply (returns_in k W more sched).
  - rewrite El. etransitivity; [|exact Hl]. apply left_le.
  - apply left_pos.
Qed.
Print Assumptions C05_poll_returns.

(** The counter is not exact: after [2^k + 1] sends and no successful receive, it can stand at any
    number whatsoever. *)
Theorem C05_skipped_count_refuted : forall k W (n : nat),
  exists sched, length (q_sent (q_trace k W sched)) = N.to_nat (2 ^ k + 1) /\
    q_received (q_trace k W sched) = [] /\ q_skipped (q_final k W sched) = N.of_nat n.
Proof.
  intros k W n.
  destruct (overcount k W (repeat (repeat 7 W) (N.to_nat (2 ^ k + 1))) (repeat 8 W) n) as (sched & A & B & C).
  - apply Forall_forall. intros x Hx. apply repeat_spec in Hx. subst. apply repeat_length.
  - rewrite repeat_length. unfold cap. lia.
  - apply repeat_length.
  - exists sched. rewrite A, repeat_length. auto.
Qed.
Print Assumptions C05_skipped_count_refuted.

(** ** Concrete cases *)

(** Capacity 2, width 2: three sends, the publisher half-way through overwriting, the subscriber
    polling in between.  The first two messages are lost and counted, the third arrives whole. *)
Definition C05_sched : list qaction :=
  repeat (APublish [1; 1]) 7 ++ repeat (APublish [2; 2]) 7 ++ repeat (APublish [3; 3]) 7 ++
  repeat AConsume 4 ++ repeat (APublish [4; 4]) 4 ++ repeat AConsume 40 ++ repeat (APublish [4; 4]) 3 ++ repeat AConsume 20.
Example C05_ex_race :
  q_sent (q_trace 1 2 C05_sched) = [[1; 1]; [2; 2]; [3; 3]; [4; 4]] /\
  q_received (q_trace 1 2 C05_sched) = [[3; 3]; [4; 4]].
Proof. vm_compute. auto. Qed.
Example C05_ex_ideal :
  snd (ch_run 1 (Chan [] 0) [OPublish [1]; OPublish [2]; OPublish [3]; OConsume; OConsume; OConsume]) =
  [QCall [1]; QSent [1]; QCall [2]; QSent [2]; QCall [3]; QSent [3]; QRecv [2]; QRecv [3]; QNone].
Proof. reflexivity. Qed.
