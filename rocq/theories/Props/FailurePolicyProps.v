(** Failure policies (property C35). *)
From Verif Require Import Base.Prelude Model.FailurePolicy Spec.FailurePolicySpec
  Proofs.FailurePolicyProofs.
Local Open Scope N_scope.

(** Whatever the policy, the times and the tick outcomes, every iteration does
    what the history-based specification says: hold, run, or the answer. *)
Theorem C35_policy_exact lim p offers :
  monotone 0 offers -> in_range lim p offers ->
  fn_run lim (fn_new (Some p)) offers = run_spec p [] false offers.
Proof. exact (new_refines lim p offers). Qed.
Print Assumptions C35_policy_exact.

(** A node is never restarted more than [max_restarts] times. *)
Theorem C35_restart_budget lim m b offers :
  monotone 0 offers -> in_range lim (PRestart m b) offers ->
  restarts (fn_run lim (fn_new (Some (PRestart m b))) offers) <= m.
Proof.
  intros Hm Hr. rewrite (new_refines lim _ offers Hm Hr).
  pose proof (spec_restart_bound m b offers [] ltac:(cbn; lia)) as H.
  cbn [failures] in H. lia.
Qed.
Print Assumptions C35_restart_budget.

(** The scheduler gives up only after granting every one of them. *)
Theorem C35_gives_up_after_all_restarts lim m b offers :
  monotone 0 offers -> in_range lim (PRestart m b) offers ->
  In (Failed FatalAfterRestarts) (fn_run lim (fn_new (Some (PRestart m b))) offers) ->
  restarts (fn_run lim (fn_new (Some (PRestart m b))) offers) = m.
Proof.
  intros Hm Hr. rewrite (new_refines lim _ offers Hm Hr). intros HI.
  pose proof (spec_fatal_exact m b offers [] ltac:(cbn; lia) HI) as H.
  cbn [failures] in H. lia.
Qed.
Print Assumptions C35_gives_up_after_all_restarts.

(** After the [k]-th restart the node is not ticked before the initial
    back-off doubled [k-1] times (saturating) has elapsed. *)
Theorem C35_backoff_respected lim m b offers i j t ok t' ok' d :
  monotone 0 offers -> in_range lim (PRestart m b) offers ->
  let run := fn_run lim (fn_new (Some (PRestart m b))) offers in
  nth_error offers i = Some (t, ok) -> nth_error run i = Some (Failed RestartNode) ->
  (i < j)%nat -> nth_error offers j = Some (t', ok') -> nth_error run j = Some d ->
  let k := restarts (firstn (S i) run) in
  t' < t + N.min (b * N.min (2 ^ (k - 1)) 4294967295) dur_max ->
  d = Held.
Proof.
  intros Hm Hr run Ho Hi Hij Hj Hd k Ht. subst k run.
  rewrite (new_refines lim _ offers Hm Hr) in *.
  destruct (spec_split _ offers [] i t ok RestartNode Ho Hi) as (h' & A & B & C & D & E).
  assert (Hf : failures ((t, false) :: h') <= m).
  { cbn [answer_spec] in A. destruct (N.ltb_spec m (failures ((t, false) :: h'))); [discriminate|lia]. }
  specialize (D m b eq_refl Hf). change (failures []) with 0 in D.
  rewrite N.add_0_l in D.
  replace j with (S i + (j - S i))%nat in Hd by lia.
  rewrite E in Hd. cbn [stops] in Hd.
  apply (spec_held_run (PRestart m b) (skipn (S i) offers) ((t, false) :: h') d (j - S i) t' ok').
  - intros q t2 ok2 Hq E2.
    rewrite nth_skipn in E2.
    destruct (monotone_nth 0 offers Hm j t' ok' (S i + q) t2 ok2) as [H _]; auto. lia.
  - rewrite nth_skipn, <- Hj. f_equal. lia.
  - cbn [hold_until]. rewrite D. unfold backoff_spec. exact Ht.
  - exact Hd.
Qed.
Print Assumptions C35_backoff_respected.

(** After the skip policy takes a node out, it is not ticked before the
    cooldown has elapsed. *)
Theorem C35_cooldown_respected lim m c offers i j t ok t' ok' d :
  monotone 0 offers -> in_range lim (PSkip m c) offers ->
  let run := fn_run lim (fn_new (Some (PSkip m c))) offers in
  nth_error offers i = Some (t, ok) -> nth_error run i = Some (Failed SkipNode) ->
  (i < j)%nat -> nth_error offers j = Some (t', ok') -> nth_error run j = Some d ->
  t' < t + c -> d = Held.
Proof.
  intros Hm Hr run Ho Hi Hij Hj Hd Ht. subst run.
  rewrite (new_refines lim _ offers Hm Hr) in *.
  destruct (spec_split _ offers [] i t ok SkipNode Ho Hi) as (h' & A & B & C & D & E).
  replace j with (S i + (j - S i))%nat in Hd by lia.
  rewrite E in Hd. cbn [stops] in Hd.
  apply (spec_held_run (PSkip m c) (skipn (S i) offers) ((t, false) :: h') d (j - S i) t' ok').
  - intros q t2 ok2 Hq E2.
    rewrite nth_skipn in E2.
    destruct (monotone_nth 0 offers Hm j t' ok' (S i + q) t2 ok2) as [H _]; auto. lia.
  - rewrite nth_skipn, <- Hj. f_equal. lia.
  - cbn [hold_until]. cbn [answer_spec] in A.
    destruct (streak ((t, false) :: h') mod N.max 1 m =? 0); [exact Ht|discriminate].
  - exact Hd.
Qed.
Print Assumptions C35_cooldown_respected.

(** A fatal policy stops the scheduler at the first panic: everything before
    ran, nothing after does. *)
Theorem C35_fatal_stops lim before t after :
  Forall (fun o => snd o = true) before ->
  fn_run lim (fn_new (Some PFatal)) (before ++ (t, false) :: after) =
  repeat Ran (length before) ++ Failed StopScheduler :: repeat Stopped (length after).
Proof.
  intros HF. change (fn_new (Some PFatal)) with {| fn_handler := Some HFatal; fn_stopped := false |}.
  induction before as [|[t0 ok] r IH]; cbn [app fn_run length repeat].
  - cbn [fn_offer fn_stopped fn_handler h_allow fn_exec h_failure stops]. f_equal.
    induction after as [|[t1 ok1] r IH]; [reflexivity|].
    cbn [fn_run fn_offer fn_stopped length repeat]. f_equal. exact IH.
  - inv HF. cbn in H1. subst ok.
    cbn [fn_offer fn_stopped fn_handler h_allow fn_exec h_success]. f_equal. apply IH. assumption.
Qed.
Print Assumptions C35_fatal_stops.

(** An ignore policy, or none, never withholds a tick and never stops. *)
Theorem C35_ignore_never lim (p : option policy) (offers : list (N * bool)) :
  p = None \/ p = Some PIgnore ->
  fn_run lim (fn_new p) offers =
  map (fun o : N * bool => if snd o then Ran else Failed Continue) offers.
Proof.
  intros [-> | ->]; (induction offers as [|[t []] r IH]; [reflexivity| |]);
    cbn [map snd]; rewrite <- IH; reflexivity.
Qed.
Print Assumptions C35_ignore_never.

(** The node is put in its safe state exactly when the policy stops the
    scheduler, and re-initialised exactly when it is restarted. *)
Theorem C35_callbacks a :
  (In CbSafe (callbacks_of a) <-> stops a = true) /\
  (In CbInit (callbacks_of a) <-> a = RestartNode).
Proof. destruct a; cbn; split; split; intros; try tauto; try discriminate; intuition discriminate. Qed.
Print Assumptions C35_callbacks.

(** A fatal-severity error stops the scheduler whatever the policy. *)
Theorem C35_fatal_severity lim h now :
  exists h', h_failure_sev lim h SevFatal now = Some (h', StopScheduler).
Proof. exists h. reflexivity. Qed.
Print Assumptions C35_fatal_severity.

(** A transient error never stops the scheduler of a node without restart limit:
    under [Fatal] it restarts the node, under every other policy it counts like a
    permanent one. *)
Theorem C35_transient_severity lim h now :
  (h = HFatal -> h_failure_sev lim h Transient now = Some (h, RestartNode)
                 /\ h_failure_sev lim h Permanent now = Some (h, StopScheduler))
  /\ (h <> HFatal -> h_failure_sev lim h Transient now = h_failure_sev lim h Permanent now)
  /\ (forall h', h_failure_sev lim h Transient now <> Some (h', StopScheduler)).
Proof.
  split; [intros ->; split; reflexivity|]. split; [destruct h; auto; congruence|].
  intros h' E. unfold h_failure_sev, h_failure in E. destruct h; repeat case_match_in E; inv E.
Qed.
Print Assumptions C35_transient_severity.

(** A run that meets the hypotheses: two restarts, a held iteration after
    each, then giving up. *)
Definition ex_offers : list (N * bool) :=
  [(0, true); (10, false); (14, true); (15, false); (20, true); (25, false); (40, true)].
Example C35_case :
  monotone 0 ex_offers /\ in_range 1000000000000000000000 (PRestart 2 5) ex_offers /\
  fn_run 1000000000000000000000 (fn_new (Some (PRestart 2 5))) ex_offers =
    [Ran; Failed RestartNode; Held; Failed RestartNode; Held; Failed FatalAfterRestarts; Stopped].
Proof.
  repeat split; try reflexivity; cbn; try lia.
  intros t ok H. repeat destruct H as [H|H]; inv H; cbn; lia.
Qed.

(** The event executor is different: it consults the policy once per batch of
    notifications, so a node just taken out is ticked again inside its
    cooldown, and a restarted one inside its back-off. *)
Theorem C35_event_cooldown_refuted :
  exists lim m c burst i j t t',
    in_range lim (PSkip m c) burst /\ monotone 0 burst /\ (i < j)%nat /\
    let run := snd (fn_poll lim (fn_new (Some (PSkip m c))) 0 burst) in
    nth_error burst i = Some (t, false) /\ nth_error run i = Some (Failed SkipNode) /\
    nth_error burst j = Some (t', true) /\ t' < t + c /\
    nth_error run j = Some Ran.
Proof.
  exists 1000, 1, 100, [(0, false); (1, true)], 0%nat, 1%nat, 0, 1.
  repeat split; try reflexivity; cbn; try lia.
  intros t ok H. repeat destruct H as [H|H]; inv H; cbn; lia.
Qed.
Print Assumptions C35_event_cooldown_refuted.

Theorem C35_event_backoff_refuted :
  exists lim m b burst,
    in_range lim (PRestart m b) burst /\ monotone 0 burst /\ 0 < m /\
    (forall t ok, In (t, ok) burst -> t < b) /\
    In (Failed FatalAfterRestarts) (snd (fn_poll lim (fn_new (Some (PRestart m b))) 0 burst)).
Proof.
  exists 1000000000000000000000, 3, 100, [(0, false); (1, false); (2, false); (3, false)].
  repeat split; try reflexivity; try (cbn; lia).
  - intros t ok H. repeat destruct H as [H|H]; inv H; cbn; lia.
  - intros t ok H. repeat destruct H as [H|H]; inv H; cbn; lia.
  - vm_compute. do 3 right. left. reflexivity.
Qed.
Print Assumptions C35_event_backoff_refuted.

(** "All arithmetic is saturating, no panics" (failure_policy.rs:276): the
    product saturates but adding it to the clock does not. *)
Theorem C35_no_panic_refuted :
  exists lim m b, lim = 9223372036854775807 * 1000000000 + 999999999 /\
    b <= dur_max /\
    h_failure lim (h_new (PRestart m b)) 0 = None.
Proof.
  exists (9223372036854775807 * 1000000000 + 999999999), 3, dur_max.
  split; [reflexivity|]. split; [lia|]. reflexivity.
Qed.
Print Assumptions C35_no_panic_refuted.
