(** Watchdog (C37), degradation ladder (C36), emergency-stop latch (C38). *)
From Verif Require Import Base.Prelude Model.Safety Spec.SafetySpec Proofs.SafetyProofs.

Section Watchdog.
Import Wd WdSpec.
Local Open Scope N_scope.

(** A check reports Ok / Warning / Expired / Critical exactly by the time
    since the last feed (or since creation) against 1x, 2x and 3x the timeout,
    whatever feeds and checks came before. *)
Theorem C37_severity_exact tmo t0 ops now :
  windows_fit tmo ops ->
  snd (run (new tmo t0) (ops ++ [Check now])) =
  snd (run (new tmo t0) ops) ++ [Some (severity_of (now - last_feed t0 ops) (window tmo tmo ops))].
Proof.
  intros H. rewrite WdP.run_app. f_equal.
  destruct (WdP.run_state ops (new tmo t0)) as [H1 H2]. cbn [timeout base last new] in H1, H2.
  pose proof (WdP.window_fits tmo ops H tmo (proj1 H)) as F.
  set (w := fst (run (new tmo t0) ops)) in *. cbn [run step].
  pose proof (WdP.check_exact w now ltac:(rewrite H1; exact F)) as E.
  destruct (check w now) as [w' s]. cbn [snd] in *. rewrite E, H1, H2. reflexivity.
Qed.
Print Assumptions C37_severity_exact.

(** Without a feed or a change of rate, a later reading is at least as severe. *)
Theorem C37_never_improves_unfed tmo t0 ops more now now' s s' :
  windows_fit tmo ops ->
  (forall n, ~ In (Feed n) more) -> (forall k, ~ In (Scale k) more) -> now <= now' ->
  nth_error (snd (run (new tmo t0) (ops ++ [Check now]))) (length ops) = Some (Some s) ->
  nth_error (snd (run (new tmo t0) ((ops ++ [Check now]) ++ more ++ [Check now'])))
    (length (ops ++ [Check now] ++ more)) = Some (Some s') ->
  (rank s <= rank s')%nat.
Proof.
  intros H Hm Hk Hn E1 E2.
  assert (L : forall o, length (snd (run (new tmo t0) o)) = length o).
  { intros o. generalize (new tmo t0). induction o as [|x r IH]; intros w; [reflexivity|].
    cbn [run]. destruct (step w x) as [w1 s1]. specialize (IH w1).
    destruct (run w1 r) as [w2 ss]. cbn in *. lia. }
  assert (windows_fit tmo ((ops ++ [Check now]) ++ more)) as H'.
  { split; [exact (proj1 H)|]. intros k J. rewrite !in_app_iff in J.
    destruct J as [[J|[J|[]]]|J]; [now apply (proj2 H)|discriminate|now destruct (Hk k)]. }
  rewrite C37_severity_exact in E1 by exact H.
  rewrite nth_error_app2 in E1 by (rewrite L; lia). rewrite L, Nat.sub_diag in E1.
  cbn in E1. inv E1.
  rewrite app_assoc in E2. rewrite C37_severity_exact in E2 by exact H'.
  rewrite nth_error_app2 in E2 by (rewrite L, !app_length; cbn; lia).
  rewrite L, !app_length in E2. cbn [length] in E2.
  replace (_ - _)%nat with 0%nat in E2 by lia. cbn in E2. inv E2.
  assert (F : last_feed t0 ((ops ++ [Check now]) ++ more) = last_feed t0 ops).
  { clear - Hm. revert t0. induction ops as [|[n|n|n] r IH]; intros t0; cbn [app last_feed]; auto.
    cbn. induction more as [|[n|n|n] r IH]; cbn; auto.
    - exfalso. apply (Hm n). left; reflexivity.
    - apply IH. intros m HI. apply (Hm m). right; exact HI.
    - apply IH. intros m HI. apply (Hm m). right; exact HI. }
  assert (F2 : window tmo tmo ((ops ++ [Check now]) ++ more) = window tmo tmo ops).
  { clear - Hk. generalize tmo at 2 4. induction ops as [|[n|n|n] r IH]; intros cur; cbn [app window]; auto.
    cbn. revert cur. induction more as [|[n|n|n] r IH]; intros cur; cbn [window]; auto.
    - apply IH. intros m HI. apply (Hk m). right; exact HI.
    - apply IH. intros m HI. apply (Hk m). right; exact HI.
    - exfalso. apply (Hk n). left; reflexivity. }
  rewrite F, F2. apply WdP.severity_mono. lia.
Qed.
Print Assumptions C37_never_improves_unfed.

(** A node that stops feeding is reported critical once 3x its timeout has
    passed; one fed within its timeout is never reported, nor is one whose
    configured timeout has not passed, however the window was scaled. *)
Theorem C37_detects_and_spares tmo t0 ops now :
  windows_fit tmo ops ->
  (last_feed t0 ops + 3 * window tmo tmo ops < now ->
   snd (run (new tmo t0) (ops ++ [Check now])) = snd (run (new tmo t0) ops) ++ [Some Critical]) /\
  (now <= last_feed t0 ops + window tmo tmo ops \/ now <= last_feed t0 ops + tmo ->
   snd (run (new tmo t0) (ops ++ [Check now])) = snd (run (new tmo t0) ops) ++ [Some Ok]).
Proof.
  intros H.
  assert (forall cur, tmo <= cur -> tmo <= window tmo cur ops) as M.
  { clear. induction ops as [|[n|n|k] r IH]; intros cur C; cbn [window]; auto.
    apply IH. destruct (N.ltb_spec k tmo); lia. }
  specialize (M tmo (N.le_refl _)).
  split; intros L; rewrite (C37_severity_exact tmo t0 ops now H);
    unfold severity_of; repeat case_match; try reflexivity; bool_prop; lia.
Qed.
Print Assumptions C37_detects_and_spares.

(** Scaling the window for a reduced rate and scaling it back restores it. *)
Theorem C37_scale_restores tmo t0 ops more :
  (forall k, ~ In (Scale k) more) ->
  timeout (fst (run (new tmo t0) (ops ++ [Scale tmo] ++ more))) = tmo.
Proof.
  intros Hm. rewrite (proj1 (WdP.run_state _ _)). cbn [base timeout new].
  assert (forall a b cur, window tmo cur (a ++ b) = window tmo (window tmo cur a) b) as App.
  { induction a as [|[n|n|k] r IH]; intros b cur; cbn [app window]; auto. }
  rewrite !App. cbn [window]. rewrite N.ltb_irrefl. clear - Hm.
  induction more as [|[n|n|k] r IH]; cbn [window]; auto.
  - apply IH. intros m J. apply (Hm m). now right.
  - apply IH. intros m J. apply (Hm m). now right.
  - exfalso. apply (Hm k). now left.
Qed.
Print Assumptions C37_scale_restores.

(** The expired flag is raised only by a check that found the timeout passed
    since the last feed, with no feed after it. *)
Theorem C37_expired_flag tmo t0 ops :
  windows_fit tmo ops ->
  expired (fst (run (new tmo t0) ops)) = true ->
  exists pre n post, ops = pre ++ Check n :: post /\ (forall m, ~ In (Feed m) post) /\
    window tmo tmo pre < n - last_feed t0 pre.
Proof.
  intros H E. destruct (WdP.expired_run ops (new tmo t0) (proj1 H) H E) as [[A _]|B]; [discriminate|exact B].
Qed.
Print Assumptions C37_expired_flag.

Example C37_case :
  snd (run (new 10 100) [Check 105; Feed 108; Check 119; Check 130; Check 139; Feed 140; Scale 20; Check 155; Scale 5; Check 155])
  = [Some Ok; None; Some Warning; Some Expired; Some Critical; None; None; Some Ok; None; Some Warning]
  /\ windows_fit 10 [Feed 140; Scale 20; Check 155; Scale 5].
Proof.
  split; [reflexivity|]. split; [lia|]. intros k J. cbn in J.
  destruct J as [J|[J|[J|[J|[]]]]]; inv J; lia.
Qed.

(** The readings come from the wall clock.  If it is set back, a node that
    never fed again goes from critical to fine. *)
Theorem C37_clock_set_back_refuted :
  exists tmo t0 now now', 3 * tmo < 18446744073709551616 /\
    snd (run (new tmo t0) [Check now; Check now']) = [Some Critical; Some Ok].
Proof. exists 10, 100, 200, 90. split; [lia|reflexivity]. Qed.
Print Assumptions C37_clock_set_back_refuted.
End Watchdog.

Section Ladder.
Import Ladder LadderSpec.

(** Killed is final: once a node reaches it nothing about it changes. *)
Theorem C36_killed_is_final {rate} half dflt p e b c (r : option rate) os more :
  stg (run half dflt p e b c (fresh r) os) = Killed ->
  run half dflt p e b c (fresh r) (os ++ more) = run half dflt p e b c (fresh r) os /\
  stopped (run half dflt p e b c (fresh r) os) = true.
Proof.
  intros H.
  assert (S : stopped (run half dflt p e b c (fresh r) os) = true).
  { apply (LadderP.run_kinv half dflt p e b c os (fresh r) (LadderP.fresh_kinv r) H). }
  split; [|exact S].
  assert (A : forall l n, run half dflt p e b c n (l ++ more) =
              run half dflt p e b c (run half dflt p e b c n l) more).
  { induction l as [|o l IH]; intros n; [reflexivity|]. cbn [app run]. apply IH. }
  rewrite A. apply LadderP.run_stopped, S.
Qed.
Print Assumptions C36_killed_is_final.

(** It takes at least [kill_after] deadline misses, on any executor. *)
Theorem C36_kill_needs_misses {rate} half dflt p e b c (r : option rate) os :
  stg (run half dflt p e b c (fresh r) os) = Killed -> kill_after p <= n_missed os.
Proof.
  intros H.
  destruct (LadderP.misses_total half dflt p e b c os (fresh r) 0 (LadderP.fresh_kinv r)
              (Nat.le_refl 0)) as [_ K]; [cbn; discriminate|]. apply K, H.
Qed.
Print Assumptions C36_kill_needs_misses.

(** On the RT thread, for a node with a budget, all within one stretch
    without a good tick. *)
Theorem C36_kill_needs_streak_rt_partial {rate} half dflt p c (r : option rate) os :
  stg (run half dflt p RtThread true c (fresh r) os) = Killed ->
  exists pre mid post, os = pre ++ mid ++ post /\
    kill_after p <= n_missed mid /\ Forall (fun o => good o = false) mid.
Proof.
  intros H.
  destruct (LadderP.misses_streak half dflt p c os (fresh r) [] [] (LadderP.fresh_kinv r)
              (Nat.le_refl 0) (Forall_nil _)) as (pre & mid & post & A & B); auto.
  - cbn. discriminate.
  - exists pre, mid, post. auto.
Qed.
Print Assumptions C36_kill_needs_streak_rt_partial.

Definition goodt := {| over := false; missed := false; ok := true |}.
Definition misst := {| over := false; missed := true; ok := true |}.
Definition overt := {| over := true; missed := true; ok := true |}.
Fixpoint rep {A} (n : nat) (l : list A) : list A :=
  match n with O => [] | S n => l ++ rep n l end.

(** Elsewhere not: isolated misses with good ticks between them add up. *)
Theorem C36_kill_needs_streak_refuted :
  exists (e : exec) (b : bool) os,
    (e, b) = (MainLoop, true) /\
    stg (run (fun x => x / 2) 100 default_policy e b false (fresh (Some 10)) os) = Killed /\
    forall a o o' d, os = a ++ o :: o' :: d -> missed o = true -> good o' = true.
Proof.
  exists MainLoop, true, (rep 19 [misst; goodt] ++ [misst]). split; [reflexivity|].
  split; [vm_compute; reflexivity|].
  assert (G : forall n a o o' d, rep n [misst; goodt] ++ [misst] = a ++ o :: o' :: d ->
             missed o = true -> good o' = true).
  { intros n. induction n as [|n IH]; intros a o o' d E M.
    - destruct a as [|? [|? ?]]; discriminate.
    - cbn [rep app] in E. destruct a as [|x [|y a]].
      + inv E. reflexivity.
      + inv E. discriminate.
      + inv E. apply (IH a o o' d); assumption. }
  exact (G 19).
Qed.
Print Assumptions C36_kill_needs_streak_refuted.
Theorem C36_kill_needs_streak_no_budget_refuted :
  exists os,
    stg (run (fun x => x / 2) 100 default_policy RtThread false false (fresh (Some 10)) os) = Killed /\
    forall a o o' d, os = a ++ o :: o' :: d -> missed o = true -> good o' = true.
Proof.
  exists (rep 19 [misst; goodt] ++ [misst]). split; [vm_compute; reflexivity|].
  assert (G : forall n a o o' d, rep n [misst; goodt] ++ [misst] = a ++ o :: o' :: d ->
             missed o = true -> good o' = true).
  { intros n. induction n as [|n IH]; intros a o o' d E M.
    - destruct a as [|? [|? ?]]; discriminate.
    - cbn [rep app] in E. destruct a as [|x [|y a]].
      + inv E. reflexivity.
      + inv E. discriminate.
      + inv E. apply (IH a o o' d); assumption. }
  exact (G 19).
Qed.
Print Assumptions C36_kill_needs_streak_no_budget_refuted.

(** A node with a configured rate runs at that rate whenever it is not
    degraded, and at that rate or half of it otherwise, never less. *)
Theorem C36_rate_restored {rate} half dflt p e b c (r : rate) os :
  let n := run half dflt p e b c (fresh (Some r)) os in
  (stg n = Normal \/ stg n = Warned -> nrate n = Some r) /\
  (nrate n = Some r \/ nrate n = Some (half r)).
Proof.
  cbv zeta.
  assert (I : LadderP.rinv half r (run half dflt p e b c (fresh (Some r)) os)).
  { apply LadderP.run_rinv. left. split; reflexivity. }
  destruct I as [[A B]|(A & B & C)].
  - rewrite B. auto.
  - split; [|auto]. intros [H|H]; rewrite H in C; destruct C as [C|[C|C]]; discriminate.
Qed.
Print Assumptions C36_rate_restored.

(** A node without a configured rate is left throttled after it recovered. *)
Theorem C36_rate_restored_unset_refuted :
  exists os,
    let n := run (fun x => x / 2) 100 default_policy RtThread true false (fresh None) os in
    stg n = Normal /\ recov n = 0 /\ @nrate nat (fresh None) = None /\ nrate n = Some 50.
Proof. exists (rep 5 [overt] ++ rep 100 [goodt]). vm_compute. auto. Qed.
Print Assumptions C36_rate_restored_unset_refuted.

(** An isolated node cannot be normal again after one tick; it goes through
    the reduced-rate stage. *)
Theorem C36_isolated_goes_through_reduced {rate} half dflt p e b c (n : node rate) o :
  stg n = Isolated ->
  In (stg (tick half dflt p e b c n o)) [Isolated; RateReduced; Killed].
Proof.
  intros H. destruct (LadderP.tick_isolated half dflt p e b c n o H) as [E|[E|E]]; rewrite E;
    cbn; auto.
Qed.
Print Assumptions C36_isolated_goes_through_reduced.

(** Leaving the reduced-rate stage for normal takes [recovery_ticks]
    successful ticks, leaving isolation twice that many. *)
Theorem C36_recovery_takes_ticks {rate} half dflt p e b c (n : node rate) os :
  recov n = 0 -> stg (run half dflt p e b c n os) = Normal ->
  (stg n = RateReduced -> recovery_ticks p <= n_ok os) /\
  (stg n = Isolated -> 2 * recovery_ticks p <= n_ok os).
Proof.
  intros R H. split; intros S.
  - pose proof (LadderP.run_owed half dflt p e b c os n (or_introl S) H) as L.
    unfold LadderP.owed in L. rewrite S, R in L. lia.
  - pose proof (LadderP.run_owed half dflt p e b c os n (or_intror S) H) as L.
    unfold LadderP.owed in L. rewrite S, R in L. lia.
Qed.
Print Assumptions C36_recovery_takes_ticks.

(** But not consecutive good ones: a node that misses its deadline on every
    other tick is restored. *)
Theorem C36_recovery_consecutive_refuted :
  exists os,
    let n0 := run (fun x => x / 2) 100 default_policy RtThread true false (fresh (Some 10)) (rep 5 [overt]) in
    stg n0 = RateReduced /\
    stg (run (fun x => x / 2) 100 default_policy RtThread true false n0 os) = Normal /\
    forall a o o' d, os = a ++ o :: o' :: d -> good o = false \/ good o' = false.
Proof.
  exists (rep 50 [goodt; misst]). split; [vm_compute; reflexivity|].
  split; [vm_compute; reflexivity|].
  assert (G : forall n a o o' d, rep n [goodt; misst] = a ++ o :: o' :: d ->
              good o = false \/ good o' = false).
  { intros n. induction n as [|n IH]; intros a o o' d E.
    - destruct a; discriminate.
    - cbn [rep app] in E. destruct a as [|x [|y a]].
      + inv E. right; reflexivity.
      + inv E. left; reflexivity.
      + inv E. apply (IH a o o' d); assumption. }
  exact (G 50).
Qed.
Print Assumptions C36_recovery_consecutive_refuted.

(** A node registered as critical — any RT node once a watchdog is on — never
    gets the ladder: its first miss or overrun latches the emergency stop. *)
Theorem C36_critical_first_miss_stops {rate} half dflt p e b (n : node rate) o :
  stopped n = false -> missed o = true \/ (b = true /\ over o = true) ->
  estop (tick half dflt p e b true n o) = true.
Proof. exact (LadderP.tick_critical half dflt p e b n o). Qed.
Print Assumptions C36_critical_first_miss_stops.

(** Isolating a node calls its [enter_safe_state] once, killing it calls
    [shutdown] once, and nothing else on the ladder calls either. *)
Theorem C36_callbacks_once {rate} half dflt p e b c (n : node rate) o :
  1 < recovery_ticks p ->
  let n' := tick half dflt p e b c n o in
  safe_calls n' = safe_calls n + (if stage_eqb (stg n') Isolated && negb (stage_eqb (stg n) Isolated) then 1 else 0)
  /\ shutdown_calls n' = shutdown_calls n + (if stage_eqb (stg n') Killed && negb (stage_eqb (stg n) Killed) then 1 else 0).
Proof. exact (LadderP.tick_calls half dflt p e b c n o). Qed.
Print Assumptions C36_callbacks_once.
Example C36_callbacks_case :
  let r := run (fun x => x / 2) 100 default_policy RtThread true false (fresh (Some 10)) in
  map (fun k => let n := r (rep k [overt]) in (safe_calls n, shutdown_calls n)) [9; 10; 15; 20; 30]
  = [(0, 0); (1, 0); (1, 0); (1, 1); (1, 1)].
Proof. vm_compute. reflexivity. Qed.

(** A run up and down the ladder. *)
Example C36_case :
  let r := run (fun x => x / 2) 100 default_policy RtThread true false (fresh (Some 10)) in
  map (fun k => let n := r (rep k [overt]) in (stg n, nrate n)) [2; 5; 10; 20]
  = [(Normal, Some 10); (RateReduced, Some 5); (Isolated, Some 5); (Killed, Some 5)] /\
  (let n := r (rep 10 [overt] ++ rep 200 [goodt]) in (stg n, nrate n)) = (Normal, Some 10).
Proof. vm_compute. auto. Qed.
End Ladder.

Section Latch.
Import Latch LatchSpec.

(** Whatever the threads and the schedule, the latch never comes off. *)
Theorem C38_latched w sch more :
  flag (fst (exec w sch)) = true -> flag (fst (exec w (sch ++ more))) = true.
Proof.
  intros H.
  assert (A : forall l v, exec v (l ++ more) = exec (exec v l) more).
  { induction l as [|i l IH]; intros v; [reflexivity|]. cbn. apply IH. }
  rewrite A. apply LatchP.flag_exec, H.
Qed.
Print Assumptions C38_latched.

(** It is set exactly if some trigger, local or remote, has taken effect; and
    once every thread is done the network has been handed, or will be handed,
    exactly one reason — that of the trigger that set the latch — if that
    trigger was local, and nothing at all if it was remote. *)
Theorem C38_one_broadcast ts sch :
  forallb starting ts = true ->
  let w := exec (init, ts) sch in
  (flag (fst w) = true <-> winner (init, ts) sch <> None) /\
  length (broadcasts (fst w)) <= 1 /\
  (Forall (fun p => p = Done) (snd w) ->
   broadcasts (fst w) =
   match winner (init, ts) sch with Some (Local r) => [r] | _ => [] end).
Proof.
  intros H w.
  assert (T : LatchP.tokens (init, ts) = []).
  { unfold LatchP.tokens. cbn. apply LatchP.starting_tokens, H. }
  destruct (LatchP.exec_tokens sch (init, ts) eq_refl T) as [E F]. fold w in E, F.
  split; [exact F|]. unfold LatchP.tokens in E. split.
  - assert (L : length (broadcasts (fst w) ++ flat_map LatchP.edge_reason (snd w)) <= 1).
    { rewrite E. destruct (winner (init, ts) sch) as [[r|]|]; cbn; lia. }
    rewrite app_length in L. lia.
  - intros D. rewrite (LatchP.done_tokens _ D), app_nil_r in E. exact E.
Qed.
Print Assumptions C38_one_broadcast.

(** With no safe-state request around, the reported state says
    EmergencyStop once the triggers have finished. *)
Theorem C38_state_reports_stop_partial ts sch :
  forallb starting ts = true -> forallb (fun p => negb (is_safe_hook p)) ts = true ->
  let w := exec (init, ts) sch in
  flag (fst w) = true -> Forall (fun p => p = Done) (snd w) -> st (fst w) = SEstop.
Proof.
  intros _ H w F D.
  assert (I : LatchP.sinv w).
  { apply LatchP.sinv_exec. split; [exact H|]. cbn. discriminate. }
  destruct I as [_ I]. destruct (I F) as [E|(p & HI & Q)]; [exact E|].
  rewrite Forall_forall in D. rewrite (D p HI) in Q.
  destruct Q as [Q|(?&?&Q)]; discriminate.
Qed.
Print Assumptions C38_state_reports_stop_partial.

(** A later safe-state request overwrites it: latched, yet not reported. *)
Theorem C38_state_reports_stop_refuted :
  exists ts sch, forallb starting ts = true /\
    let w := exec (init, ts) sch in
    Forall (fun p => p = Done) (snd w) /\ flag (fst w) = true /\ st (fst w) = SSafe.
Proof.
  exists [LSwap 7; SState], [0; 0; 0; 1]. split; [reflexivity|]. cbn. repeat split; auto.
Qed.
Print Assumptions C38_state_reports_stop_refuted.

(** Three local triggers, a remote one and a drain racing. *)
Example C38_case :
  let w := exec (init, [LSwap 1; LSwap 2; RFlag; LSwap 3; Drain]) [1; 0; 2; 1; 0; 3; 4; 1; 2; 3] in
  winner (init, [LSwap 1; LSwap 2; RFlag; LSwap 3; Drain]) [1; 0; 2; 1; 0; 3; 4; 1; 2; 3] = Some (Local 2) /\
  Forall (fun p => p = Done) (snd w) /\ broadcasts (fst w) = [2].
Proof. cbn. repeat split; repeat constructor. Qed.
End Latch.
