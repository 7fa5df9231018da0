(** C41: the action server. *)
From Coq Require Import Sorting.Permutation.
From Verif Require Import Base.Prelude Base.AMap Model.Action Spec.ActionSpec Proofs.ActionProofs.

(** A server that takes everything, with goals started at once. *)
Definition simple (m : nat) (t : option N) (p : policy) : world :=
  {| w_cfg := {| max_goals := Some m; timeout := t; pol := p |}; w_wants := fun _ => true;
     w_cancel := fun _ => true; w_exec := true; w_spawns := fun _ => true; w_order := fun l => l |}.
Definition g (id : N) : op := Goal {| r_id := id; r_prio := 0 |}.
Lemma simple_order m t p : hash_order (w_order (simple m t p)).
Proof. intros l. apply Permutation_refl. Qed.

(** Refusing or queueing servers never have more goals in progress than allowed,
    whatever arrives, is cancelled, finishes or times out, in any order. *)
Theorem C41_slots : forall w m ops s,
  max_goals (w_cfg w) = Some m ->
  pol (w_cfg w) = RejectNew \/ (exists n, pol (w_cfg w) = Queue n) ->
  after w ops = Some s -> occupied s <= m.
Proof.
  intros w m ops s Mx Pl R.
  enough (fits (w_cfg w) s) as F by (unfold fits in F; now rewrite Mx in F).
  unfold after, from in R. revert R.
  apply (run_pres (w_cfg w) (w_wants w) (w_cancel w) (w_exec w) (w_spawns w) (w_order w) (fits (w_cfg w))).
  - intros s0 o s1 F H. refine (fits_step (w_cfg w) _ _ _ _ _ s0 o s1 _ F H).
    destruct Pl as [-> | [n ->]]; exact Logic.I.
  - unfold fits. rewrite Mx. cbn. lia.
Qed.
Print Assumptions C41_slots.
Example C41_slots_ex : exists s, after (simple 2 None (Queue 1)) [g 1; g 2; g 3; g 4; Finish 1 (Some OSucceeded); Drain] = Some s
  /\ occupied s = 2 /\ map fst (active s) = [3%N; 2%N].
Proof. eexists. split; [vm_compute; reflexivity|]. vm_compute. repeat split. Qed.

(** With no timeout those are all the executions there are. *)
Theorem C41_threads : forall w m ops s,
  max_goals (w_cfg w) = Some m -> timeout (w_cfg w) = None ->
  pol (w_cfg w) = RejectNew \/ (exists n, pol (w_cfg w) = Queue n) -> hash_order (w_order w) ->
  after w ops = Some s -> NoDup (live s) /\ length (live s) <= m.
Proof.
  intros w m ops s Mx To Pl Ho R.
  pose proof (C41_slots w m ops s Mx Pl R) as L.
  pose proof (B_run _ _ _ _ _ _ _ _ R) as Bs.
  destruct (fifo_run (w_cfg w) (w_wants w) (w_cancel w) (w_exec w) (w_spawns w) (w_order w)
    ops To [] start s) as ((_ & Ng & _) & _); auto.
  - split; [constructor|]. split; [intros p []|]. intros K. now contradiction K.
  - intros K. now contradiction K.
  - rewrite (occ_all s Ng) in L. split; [apply Bs|].
    apply (Nat.le_trans _ (length (keysN (active s)))); [|unfold keysN; now rewrite map_length].
    apply NoDup_incl_length; [apply Bs|]. intros i Ji. apply (b_ta _ _ Bs), (b_lt _ _ Bs), Ji.
Qed.
Print Assumptions C41_threads.
Example C41_threads_ex : exists s, after (simple 1 None RejectNew) [g 1; g 2] = Some s /\ live s = [1%N].
Proof. eexists. split; [vm_compute; reflexivity|]. vm_compute. repeat split. Qed.

(** A preempting server may start a goal before the one it replaces has stopped:
    at most one more than allowed. *)
Theorem C41_preempt_bound : forall w m ops s,
  max_goals (w_cfg w) = Some m -> timeout (w_cfg w) = None -> pol (w_cfg w) = PreemptOld ->
  hash_order (w_order w) -> after w ops = Some s -> length (active s) <= m + 1.
Proof.
  intros w m ops s Mx To Pl Ho R.
  enough (pinv (w_cfg w) s) as [Nd Ab Q Pe Mm].
  { rewrite Mx in Mm. pose proof (cnt_split g_preempt (active s)) as Sp.
    unfold pending in Pe. fold (cnt g_preempt (active s)) in Pe. unfold fresh in Mm. lia. }
  unfold after, from in R. revert R.
  apply (run_pres (w_cfg w) (w_wants w) (w_cancel w) (w_exec w) (w_spawns w) (w_order w) (pinv (w_cfg w))).
  - intros s0 o s1 F H. exact (pinv_step (w_cfg w) _ _ _ _ _ Ho s0 o s1 Pl To F H).
  - split; cbn; auto; try tauto; try constructor. now destruct (max_goals (w_cfg w)); try lia.
Qed.
Print Assumptions C41_preempt_bound.
Example C41_preempt_bound_ex : exists s, after (simple 2 None PreemptOld) [g 1; g 2; g 3; g 4] = Some s
  /\ length (active s) = 3 /\ rejected s = 1.
Proof. eexists. split; [vm_compute; reflexivity|]. vm_compute. repeat split. Qed.

(** Goals with different ids, no shutdown: every goal received is running, or
    waiting, or over; only in the last case has a terminal status been
    published, and then one (without timeouts). *)
Theorem C41_one_outcome : forall w ops s id,
  hash_order (w_order w) -> timeout (w_cfg w) = None -> no_shutdown ops -> NoDup (goal_ids ops) ->
  after w ops = Some s -> In id (goal_ids ops) ->
  (running s id /\ ~ waiting s id /\ terminals id (out s) = 0 /\ results id (out s) = 0)
  \/ (waiting s id /\ ~ running s id /\ terminals id (out s) = 0 /\ results id (out s) = 0 /\ starts id (out s) = 0)
  \/ (~ running s id /\ ~ waiting s id /\ terminals id (out s) = 1 /\ results id (out s) <= 1).
Proof.
  intros w ops s id Ho To Ns Nd R Ji.
  pose proof (J_run _ _ _ _ _ _ Ho ops [] start s (J_start (w_cfg w) (w_cancel w)) R Ns Nd) as [A C D E F].
  destruct (E id) as (O1 & O2 & O3 & O4). unfold running, waiting, wait in *. cbn [map app] in *. rewrite app_nil_r in *.
  assert (forall i, In i (keysN (active s)) -> In i (map r_id (queue s)) -> False) as Dj.
  { intros i J1 J2. clear - C J1 J2. induction (keysN (active s)) as [|k l IH]; [destruct J1|].
    cbn [app] in C. inv C. destruct J1 as [->|J1]; [|auto]. apply H1. apply in_or_app. now right. }
  fold (keysN (active s)).
  destruct (in_dec N.eq_dec id (keysN (active s))) as [Ja|Na].
  - left. split; auto. split; [intros K; now apply (Dj id)|]. apply in_keysN in Ja as (gl & Jg).
    destruct (O1 gl Jg) as (Z1 & Z2 & _ & Z4). rewrite Z4 in Z1; auto.
  - right. destruct (in_dec N.eq_dec id (map r_id (queue s))) as [Jq|Nq].
    + left. destruct (O2 Jq) as (Z1 & Z2 & Z3). auto.
    + right. destruct (O3 Ji Na Nq) as (Z1 & Z2 & Z3 & Z4). auto.
Qed.
Print Assumptions C41_one_outcome.
Example C41_one_outcome_ex : exists s, after (simple 1 None (Queue 1))
    [g 1; g 2; g 3; Finish 1 (Some OSucceeded); Drain] = Some s
  /\ running s 2 /\ terminals 1 (out s) = 1 /\ terminals 3 (out s) = 1.
Proof. eexists. split; [vm_compute; reflexivity|]. split; [now left|]. split; reflexivity. Qed.

(** With a timeout, an abandoned goal's late end adds a second terminal status,
    never a third; results still come once at most. *)
Theorem C41_outcome_bound : forall w ops s id,
  hash_order (w_order w) -> no_shutdown ops -> NoDup (goal_ids ops) ->
  after w ops = Some s -> In id (goal_ids ops) ->
  results id (out s) <= 1 /\ starts id (out s) <= 1 /\ terminals id (out s) <= 2
  /\ (~ running s id -> ~ waiting s id -> 1 <= terminals id (out s)).
Proof.
  intros w ops s id Ho Ns Nd R Ji.
  pose proof (J_run _ _ _ _ _ _ Ho ops [] start s (J_start (w_cfg w) (w_cancel w)) R Ns Nd) as [A C D E F].
  destruct (E id) as (O1 & O2 & O3 & O4). unfold running, waiting, wait in *. cbn [map app] in *. rewrite app_nil_r in *.
  fold (keysN (active s)).
  destruct (in_dec N.eq_dec id (keysN (active s))) as [Ja|Na].
  - apply in_keysN in Ja as (gl & Jg). destruct (O1 gl Jg) as (Z1 & Z2 & Z3 & Z4).
    assert (In id (keysN (active s))) by (apply in_keysN; eauto).
    destruct (g_abandoned gl); repeat split; try lia; contradiction.
  - destruct (in_dec N.eq_dec id (map r_id (queue s))) as [Jq|Nq].
    + destruct (O2 Jq) as (Z1 & Z2 & Z3). repeat split; try lia; contradiction.
    + destruct (O3 Ji Na Nq) as (Z1 & Z2 & Z3 & Z4). repeat split; try lia.
Qed.
Print Assumptions C41_outcome_bound.

(** Nothing is ever published about a goal once it is over. *)
Theorem C41_over_is_over : forall w pre s1 post s2 id,
  hash_order (w_order w) -> after w pre = Some s1 -> from w s1 post = Some s2 ->
  ~ running s1 id -> ~ waiting s1 id -> ~ In id (goal_ids post) ->
  ~ running s2 id /\ ~ waiting s2 id
  /\ exists later, out s2 = out s1 ++ later /\ forall m, In m later -> about m <> id.
Proof.
  intros w pre s1 post s2 id Ho R1 R2 Na Nw Ni.
  pose proof (B_run _ _ _ _ _ _ _ _ R1) as Bs.
  pose proof (Z_run _ _ _ _ _ _ Ho id (out s1) post s1 s2 Bs (Z_intro id s1 Bs Na Nw) R2 Ni) as [A C D E F].
  unfold wait in C. cbn [map] in C. rewrite app_nil_r in C. auto.
Qed.
Print Assumptions C41_over_is_over.
(** In particular a goal cancelled while it waits never runs. *)
Example C41_over_ex : exists s1 s2,
  after (simple 1 None (Queue 5)) [g 1; g 2; Cancel 2] = Some s1 /\ ~ running s1 2 /\ ~ waiting s1 2
  /\ from (simple 1 None (Queue 5)) s1 [Finish 1 (Some OSucceeded); Drain; g 3] = Some s2
  /\ started (out s2) = [1; 3]%N.
Proof.
  eexists _, _. split; [vm_compute; reflexivity|]. unfold running, waiting. cbn [map active queue].
  split; [cbn; intuition discriminate|]. split; [cbn; tauto|]. split; reflexivity.
Qed.

(** The counters account for every goal. *)
Theorem C41_metrics : forall w ops s,
  hash_order (w_order w) -> no_shutdown ops -> NoDup (goal_ids ops) -> after w ops = Some s ->
  received s = rejected s + length (queue s) + length (active s)
    + succeeded s + aborted s + canceled s + preempted s.
Proof.
  intros w ops s Ho Ns Nd R.
  pose proof (J_run _ _ _ _ _ _ Ho ops [] start s (J_start (w_cfg w) (w_cancel w)) R Ns Nd) as [A C D E F].
  rewrite F. unfold wait. cbn [map]. now rewrite app_nil_r, map_length.
Qed.
Print Assumptions C41_metrics.
Example C41_metrics_ex : exists s, after (simple 1 None (Queue 1))
    [g 1; g 2; g 3; Finish 1 None; Drain; Finish 2 (Some OCanceled); Drain; g 4] = Some s
  /\ received s = 4 /\ rejected s = 1 /\ aborted s = 1 /\ canceled s = 1 /\ length (active s) = 1.
Proof. eexists. split; [vm_compute; reflexivity|]. vm_compute. repeat split. Qed.

(** Without timeouts, goals start in the order they came, no goal waits while a
    slot is free, and only a queueing server lets goals wait. *)
Theorem C41_fifo : forall w ops s,
  timeout (w_cfg w) = None -> after w ops = Some s ->
  sublist (started (out s) ++ map r_id (queue s)) (goal_ids ops)
  /\ (queue s <> [] -> (exists n, pol (w_cfg w) = Queue n)
        /\ exists m, max_goals (w_cfg w) = Some m /\ m <= occupied s).
Proof.
  intros w ops s To R.
  destruct (fifo_run (w_cfg w) (w_wants w) (w_cancel w) (w_exec w) (w_spawns w) (w_order w)
    ops To [] start s) as ((Sb & Ng & Iq) & Fu); auto.
  - split; [constructor|]. split; [intros p []|]. intros K. now contradiction K.
  - intros K. now contradiction K.
  - split.
    + unfold wait in Sb. cbn [map app] in Sb. now rewrite app_nil_r in Sb.
    + intros K. specialize (Iq K). specialize (Fu K). split.
      * unfold is_queue in Iq. destruct (pol (w_cfg w)); try contradiction. eauto.
      * unfold has_slot in Fu. destruct (max_goals (w_cfg w)) as [m|]; [|discriminate].
        exists m. split; auto. now apply Nat.ltb_ge.
Qed.
Print Assumptions C41_fifo.
Example C41_fifo_ex : exists s, after (simple 1 None (Queue 3))
    [g 5; g 4; g 3; g 2; Cancel 3; Finish 5 (Some OSucceeded); Drain] = Some s
  /\ started (out s) = [5; 4]%N /\ map r_id (queue s) = [2%N].
Proof. eexists. split; [vm_compute; reflexivity|]. vm_compute. repeat split. Qed.

(** Two timeout checks, one after the timeout and one after twice the timeout,
    take a goal that will not stop off the books; it was told to stop first. *)
Theorem C41_timeout : forall w t pre s0 mid s2 s3 id gl,
  hash_order (w_order w) -> timeout (w_cfg w) = Some t -> after w pre = Some s0 ->
  In (id, gl) (active s0) -> (t < now s0 - g_start gl)%N ->
  from w s0 (Timeouts :: mid) = Some s2 -> (2 * t < now s2 - g_start gl)%N ->
  from w s2 [Timeouts] = Some s3 ->
  forall gl', In (id, gl') (active s3) -> g_start gl' = g_start gl ->
  g_abandoned gl' = true /\ g_cancel gl' = true.
Proof.
  intros w t pre s0 mid s2 s3 id gl Ho To R0 Jg L0 R2 L2 R3 gl' Jg' Es.
  pose proof (B_run _ _ _ _ _ _ _ _ R0) as Bs.
  assert (all_said start) as Sd0 by (intros p []).
  assert (forall a b ops, all_said a -> from w a ops = Some b -> all_said b) as Sd.
  { intros a b ops Ka Rb. revert Ka Rb. apply run_pres. intros x o y. apply said_step. }
  pose proof (Sd _ _ _ Sd0 R0) as S0.
  unfold from in R2. cbn [run step] in R2. 
  pose proof (timeout_signals (w_cfg w) (w_cancel w) (w_order w) s0 t id gl To Jg (proj1 (S0 _ Jg)) L0) as Sg.
  assert (sig id (g_start gl) (check_timeouts (w_cfg w) (w_order w) s0)) as I1.
  { split; [cbn; lia|]. intros g1 J1 E1. apply (Sg g1 J1), Bs. }
  assert (sig id (g_start gl) s2) as I2.
  { revert I1 R2. apply run_pres. intros x o y. apply sig_step. }
  pose proof (Sd _ _ _ S0 (R2 : from w s0 (Timeouts :: mid) = Some s2)) as S2.
  pose proof (Sd _ _ _ S2 R3) as S3.
  unfold from in R3. cbn [run step] in R3. inv R3.
  assert (g_abandoned gl' = true) as Ab by exact (timeout_abandons (w_cfg w) (w_order w) s2 t id (g_start gl) To I2 L2 gl' Jg' Es).
  split; auto. destruct (S3 _ Jg') as [A1 A2]. auto.
Qed.
Print Assumptions C41_timeout.
Example C41_timeout_ex : exists s, after (simple 1 (Some 10%N) RejectNew)
    [g 1; Advance 11; Timeouts; Advance 11; Timeouts; g 2] = Some s
  /\ occupied s = 1 /\ started (out s) = [1; 2]%N.
Proof. eexists. split; [vm_compute; reflexivity|]. vm_compute. repeat split. Qed.

(** At any time each goal id has one execution at most, and every execution
    belongs to a running goal; shutting down leaves none. *)
Theorem C41_executions : forall w ops s,
  after w ops = Some s ->
  NoDup (live s) /\ NoDup (map fst (active s)) /\ (forall id, In id (live s) -> running s id)
  /\ live (shutdown s) = [] /\ active (shutdown s) = [] /\ queue (shutdown s) = [].
Proof.
  intros w ops s R. pose proof (B_run _ _ _ _ _ _ _ _ R) as [A C D E F G H].
  repeat split; auto. intros id J. now apply F, D.
Qed.
Print Assumptions C41_executions.

(** ** What does not hold *)
(** A timed-out goal can be reported aborted and later succeeded. *)
Theorem C41_single_status_refuted : exists w ops s,
  hash_order (w_order w) /\ NoDup (goal_ids ops) /\ no_shutdown ops /\ after w ops = Some s
  /\ out s = [MStatus 1 Active; MStatus 1 Aborted; MResult 1 Succeeded; MStatus 1 Succeeded]
  /\ aborted s = 0.
Proof.
  exists (simple 1 (Some 10%N) RejectNew),
    [g 1; Advance 11; Timeouts; Advance 11; Timeouts; Finish 1 (Some OSucceeded); Drain].
  eexists. split; [apply simple_order|]. split; [repeat constructor; cbn; tauto|].
  split; [intros K; cbn in K; intuition discriminate|]. repeat split.
Qed.
Print Assumptions C41_single_status_refuted.

(** Shutting down publishes nothing: goals that were running or waiting never get
    a terminal status. *)
Theorem C41_shutdown_reports_refuted : exists w ops s,
  hash_order (w_order w) /\ NoDup (goal_ids ops) /\ after w ops = Some s
  /\ (forall id, In id (goal_ids ops) -> ~ running s id /\ ~ waiting s id /\ terminals id (out s) = 0)
  /\ goal_ids ops <> [].
Proof.
  exists (simple 1 None (Queue 1)), [g 1; g 2; Shutdown]. eexists. split; [apply simple_order|].
  split; [repeat constructor; cbn; intuition discriminate|]. split; [vm_compute; reflexivity|]. split; [|discriminate].
  unfold running, waiting. intros id [<-|[<-|[]]]; cbn; tauto.
Qed.
Print Assumptions C41_shutdown_reports_refuted.

(** A repeated goal request asks the very goal it repeats to stop, then reports
    that running goal rejected, without counting a rejection. *)
Theorem C41_duplicate_refuted : exists w ops s,
  hash_order (w_order w) /\ after w ops = Some s /\ running s 1
  /\ out s = [MStatus 1 Active; MStatus 1 Rejected] /\ rejected s = 0
  /\ map (fun p => g_preempt (snd p)) (active s) = [true].
Proof.
  exists (simple 1 None PreemptOld), [g 1; g 1]. eexists. split; [apply simple_order|].
  split; [vm_compute; reflexivity|]. split; [now left|]. repeat split.
Qed.
Print Assumptions C41_duplicate_refuted.

(** With priorities the limit is no limit: every goal more urgent than the least
    urgent one is started, which is asked to stop again and again. *)
Theorem C41_priority_bound_refuted : forall n, exists w ops s,
  hash_order (w_order w) /\ max_goals (w_cfg w) = Some 1 /\ pol (w_cfg w) = Priority
  /\ timeout (w_cfg w) = None /\ after w ops = Some s /\ length (live s) = S n
  /\ (exists gl, In (1%N, gl) (active s) /\ forall id gl', In (id, gl') (active s) -> id <> 1%N -> g_prio gl' = 0%N).
Proof.
  intros n. destruct (flood_spec n) as (s & l & gl & R & Qa & Ll & Lv & Pg & Ab & K).
  exists {| w_cfg := pcfg; w_wants := fun _ => true; w_cancel := fun _ => true; w_exec := true;
            w_spawns := fun _ => true; w_order := fun l => l |}, (flood n), s.
  split; [intros x; apply Permutation_refl|]. repeat split; auto.
  exists gl. rewrite Qa. split; [apply in_or_app; right; now left|].
  intros id gl' J N. apply in_app_or in J as [J|[J|[]]]; [|congruence].
  now destruct (K _ J).
Qed.
Print Assumptions C41_priority_bound_refuted.

(** A preempting server can pick an abandoned goal to preempt, so that more goals
    than allowed run with none of them asked to stop. *)
Theorem C41_preempt_abandoned_refuted : exists w ops s,
  hash_order (w_order w) /\ max_goals (w_cfg w) = Some 1 /\ pol (w_cfg w) = PreemptOld
  /\ after w ops = Some s
  /\ length (filter (fun p => negb (g_abandoned (snd p)) && negb (g_preempt (snd p)) && negb (g_cancel (snd p)))
                    (active s)) = 2.
Proof.
  exists (simple 1 (Some 10%N) PreemptOld), [g 1; Advance 11; Timeouts; Advance 11; Timeouts; g 2; g 3].
  eexists. split; [apply simple_order|]. repeat split; vm_compute; reflexivity.
Qed.
Print Assumptions C41_preempt_abandoned_refuted.

(** Abandoning a goal frees its slot but starts no waiting goal: a goal that comes
    later takes the slot first. *)
Theorem C41_queue_overtaken_refuted : exists w ops s,
  hash_order (w_order w) /\ NoDup (goal_ids ops) /\ after w ops = Some s
  /\ goal_ids ops = [1; 2; 3]%N /\ started (out s) = [1; 3]%N /\ waiting s 2.
Proof.
  exists (simple 1 (Some 10%N) (Queue 5)), [g 1; g 2; Advance 11; Timeouts; Advance 11; Timeouts; g 3].
  eexists. split; [apply simple_order|]. split; [repeat constructor; cbn; intuition discriminate|].
  split; [vm_compute; reflexivity|]. repeat split. now left.
Qed.
Print Assumptions C41_queue_overtaken_refuted.

(** A running goal with the nil id makes "cancel everything" recurse without end. *)
Theorem C41_cancel_all_refuted : forall cancel_ok order s fuel,
  hash_order order -> running s 0 -> handle_cancel cancel_ok order fuel s 0 = None.
Proof. intros. now apply nil_cancel. Qed.
Print Assumptions C41_cancel_all_refuted.
Example C41_cancel_all_ex : exists s, after (simple 1 None RejectNew) [g 0] = Some s /\ running s 0.
Proof. eexists. split; [vm_compute; reflexivity|]. now left. Qed.
(** With any other ids it cancels them all. *)
Example C41_cancel_all_ok : exists s, after (simple 2 None (Queue 1)) [g 1; g 2; g 3; Cancel 0] = Some s
  /\ map (fun p => g_cancel (snd p)) (active s) = [true; true] /\ queue s = [].
Proof. eexists. split; [vm_compute; reflexivity|]. vm_compute. repeat split. Qed.

(** A server without an execute callback accepts goals that never end. *)
Theorem C41_no_executor_refuted : forall w pre s1 post s2 id,
  w_exec w = false -> after w pre = Some s1 -> running s1 id -> no_shutdown post ->
  from w s1 post = Some s2 -> running s2 id.
Proof.
  intros w pre s1 post s2 id Hx R1 Ru Ns R2.
  destruct (quiet_run _ _ _ _ _ _ pre Hx start s1 (conj eq_refl eq_refl) R1) as [A C].
  eapply idle_run in R2; [apply R2|exact Hx|exact Ns|]. split; [exact A|]. split; [exact C|exact Ru].
Qed.
Print Assumptions C41_no_executor_refuted.
