(** Property C125: the watchdog of a node that the main loop ticks. *)
From Verif Require Import Base.Prelude Model.Safety Model.ExecLoop Model.Suppress Spec.SuppressSpec Proofs.SuppressProofs.
Local Open Scope N_scope.

(** A healthy node whose every cycle is checked within its timeout is ticked in
    every cycle, stays healthy and never sets off the emergency stop. *)
Theorem C125_kept : forall cs s, active (nd s) -> Gate.hp (nd s) = Gate.Healthy -> 3 * Wd.timeout (wd s) < 2 ^ 64 ->
  Forall free cs -> Forall (fun c => c_check c - c_feed c <= Wd.timeout (wd s)) cs ->
  ticks (fst (cycles s cs)) = length cs /\ Gate.hp (nd (snd (cycles s cs))) = Gate.Healthy /\
  estop (snd (cycles s cs)) = estop s /\ safed (snd (cycles s cs)) = safed s.
Proof.
  intros cs s A H L F K. destruct (cycles_kept (Wd.timeout (wd s)) cs s) as (I1 & I2 & I3 & I4); auto.
  rewrite I2. auto.
Qed.
Print Assumptions C125_kept.

(** A node with a warning is healthy again after one good tick. *)
Theorem C125_recovers : forall s c, active (nd s) -> Gate.hp (nd s) = Gate.Warning -> 3 * Wd.timeout (wd s) < 2 ^ 64 ->
  free c -> c_ok c = true -> c_check c - c_again c <= Wd.timeout (wd s) ->
  fst (one s c) = true /\ Gate.hp (nd (snd (one s c))) = Gate.Healthy /\ estop (snd (one s c)) = estop s.
Proof.
  intros s c A H L (F1 & F2 & F3) O K. unfold one. rewrite main_free by (auto; right; auto). rewrite O. cbn [andb].
  unfold recover. rewrite H.
  destruct (check_spec (Wd.feed (Wd.feed (wd s) (c_feed c)) (c_again c)) (c_check c)) as (V & _); [exact L|].
  destruct (Wd.check _ _) as [w v]. cbn [fst snd Wd.feed Wd.timeout Wd.last] in *.
  assert (c_check c - c_again c <=? Wd.timeout (wd s) = true) as Q by (apply N.leb_le; lia). rewrite Q in V. subst v. auto.
Qed.
Print Assumptions C125_recovers.

(** A tick that took between one and two timeouts gives a warning and nothing else. *)
Theorem C125_warned : forall s c, active (nd s) -> Gate.hp (nd s) = Gate.Healthy -> 3 * Wd.timeout (wd s) < 2 ^ 64 ->
  free c -> Wd.timeout (wd s) < c_check c - c_feed c <= 2 * Wd.timeout (wd s) ->
  fst (one s c) = true /\ Gate.hp (nd (snd (one s c))) = Gate.Warning /\ estop (snd (one s c)) = estop s.
Proof.
  intros s c A H L (F1 & F2 & F3) K. unfold one. rewrite main_free by (auto; left; auto). cbn [andb].
  assert (R : forall w, (if c_ok c then recover (nd s) w (c_again c) else (nd s, w)) = (nd s, w)) by (intros w; unfold recover; rewrite H; destruct (c_ok c); reflexivity).
  rewrite R. destruct (check_spec (Wd.feed (wd s) (c_feed c)) (c_check c)) as (V & _); [exact L|].
  destruct (Wd.check _ _) as [w v]. cbn [fst snd Wd.feed Wd.timeout Wd.last] in *.
  destruct (N.leb_spec (c_check c - c_feed c) (Wd.timeout (wd s))); [lia|].
  destruct (N.leb_spec (c_check c - c_feed c) (2 * Wd.timeout (wd s))); [|lia]. subst v. cbn [react nd]. rewrite H. auto.
Qed.
Print Assumptions C125_warned.

(** A tick that fails does not clear a warning. *)
Theorem C125_failed_tick : forall s c, Gate.hp (nd s) <> Gate.Healthy -> c_ok c = false -> Gate.hp (nd (snd (one s c))) <> Gate.Healthy.
Proof.
  intros s c H O. unfold one. pose proof (main_hp (nd s) (c_env c)) as M. destruct (Gate.main (nd s) (c_env c)) as [b n1]. cbn [snd] in M.
  rewrite O, andb_false_r. destruct (Wd.check _ _) as [w v]. cbn [snd].
  destruct v; cbn [react nd]; try congruence; destruct (Gate.hp n1) eqn:X; cbn; congruence.
Qed.
Print Assumptions C125_failed_tick.

(** In any history the node is put into its safe state exactly when it sets off the emergency stop, and once. *)
Theorem C125_safe_once : forall cs s, Gate.hp (nd s) <> Gate.Isolated -> estop s = false ->
  let f := snd (cycles s cs) in
  (estop f = true -> Gate.hp (nd f) = Gate.Isolated /\ safed f = S (safed s)) /\
  (estop f = false -> Gate.hp (nd f) <> Gate.Isolated /\ safed f = safed s).
Proof.
  cbv zeta. assert (I : forall cs s, Gate.hp (nd s) = Gate.Isolated -> estop s = true ->
    Gate.hp (nd (snd (cycles s cs))) = Gate.Isolated /\ estop (snd (cycles s cs)) = true /\ safed (snd (cycles s cs)) = safed s).
  { induction cs as [|c cs IH]; intros s H E; cbn [cycles]; [auto|]. destruct (one_isolated s c H E) as (A & B & C).
    destruct (one s c) as [b s1]. cbn [snd] in *. destruct (IH s1 A B) as (A' & B' & C'). destruct (cycles s1 cs). cbn [snd] in *. repeat split; congruence. }
  induction cs as [|c cs IH]; intros s H E; cbn [cycles].
  - cbn [snd]. split; [congruence|auto].
  - pose proof (one_safes s c H E) as O. destruct (one s c) as [b s1]. cbn [snd] in O. destruct O as [(A & B & C)|(A & B & C)].
    + destruct (I cs s1 B A) as (A' & B' & C'). destruct (cycles s1 cs). cbn [snd] in *. split; [intros _; split; congruence|congruence].
    + specialize (IH s1 B A). destruct (cycles s1 cs). cbn [snd] in *. rewrite <- C. exact IH.
Qed.
Print Assumptions C125_safe_once.

(** Refuted: "a suppressed node is probed so that it can demonstrate recovery".
    Whatever its probes do, it is never fit again ... *)
Theorem C125_recovery_refuted : forall cs s, Gate.hp (nd s) = Gate.Unhealthy \/ Gate.hp (nd s) = Gate.Isolated ->
  ~ fit (nd (snd (cycles s cs))).
Proof.
  intros cs s U F. pose proof (cycles_unfit cs s U) as V. destruct F, V; congruence.
Qed.
Print Assumptions C125_recovery_refuted.

(** ... so for as long as the loop runs it is ticked at most once in a hundred cycles. *)
Theorem C125_rare : forall cs s, Gate.hp (nd s) = Gate.Unhealthy \/ Gate.hp (nd s) = Gate.Isolated ->
  Gate.probe (nd s) + N.of_nat (length cs) < 2 ^ 64 ->
  N.of_nat (ticks (fst (cycles s cs))) <= N.of_nat (length cs) / 100 + 1.
Proof.
  intros cs s U L. pose proof (cycles_rare cs s U L) as R.
  assert (D : (Gate.probe (nd s) + N.of_nat (length cs)) / 100 <= Gate.probe (nd s) / 100 + N.of_nat (length cs) / 100 + 1).
  { pose proof (N.div_mod (Gate.probe (nd s)) 100). pose proof (N.div_mod (N.of_nat (length cs)) 100).
    pose proof (N.mod_lt (Gate.probe (nd s)) 100). pose proof (N.mod_lt (N.of_nat (length cs)) 100).
    pose proof (N.div_mod (Gate.probe (nd s) + N.of_nat (length cs)) 100). pose proof (N.mod_lt (Gate.probe (nd s) + N.of_nat (length cs)) 100). lia. }
  lia.
Qed.
Print Assumptions C125_rare.

(** Refuted: "at twice the timeout the node is skipped, at three times the robot
    stops".  One tick that took between two and three timeouts, of a node that is
    well otherwise, stops the robot: the node is not ticked, so its watchdog is
    not fed, and the first check after three timeouts (if it comes before the
    next probe) sets off the emergency stop. *)
Theorem C125_one_late_tick_refuted : forall s c cs, active (nd s) -> Gate.hp (nd s) = Gate.Healthy ->
  3 * Wd.timeout (wd s) < 2 ^ 64 -> free c ->
  2 * Wd.timeout (wd s) < c_check c - c_feed c <= 3 * Wd.timeout (wd s) ->
  Gate.probe (nd s) + N.of_nat (length cs) < 2 ^ 64 -> Gate.probe (nd s) mod 100 + N.of_nat (length cs) < 100 ->
  Exists (fun d => c_feed c + 3 * Wd.timeout (wd s) < c_check d) cs ->
  ticks (fst (cycles s (c :: cs))) = 1%nat /\ estop (snd (one s c)) = estop s /\ estop (snd (cycles s (c :: cs))) = true.
Proof.
  intros s c cs A H L F K P M X. destruct (one_late s c) as (s' & O & H1 & P1 & T1 & L1 & E1); auto; [left; auto|].
  cbn [cycles]. rewrite O. cbn [snd].
  destruct (cycles_stop cs s') as (C1 & _ & C3).
  - left; auto.
  - rewrite T1; exact L.
  - rewrite P1; exact P.
  - rewrite P1; exact M.
  - destruct (cycles s' cs) as [l s2]. cbn [fst snd] in *. unfold ticks in *. cbn [filter length].
    split; [congruence|]. split; [auto|]. apply C3. rewrite T1, L1. exact X.
Qed.
Print Assumptions C125_one_late_tick_refuted.

(** Refuted: "a node is safe as long as it handles its work".  An event node is fed
    only by events: after any history of handled events, a pause of more than three
    timeouts is critical, and so stops the robot. *)
Theorem C125_idle_event_refuted : forall timeout t0 events last now, 3 * timeout < 2 ^ 64 -> last + 3 * timeout < now ->
  snd (Wd.step (fst (Wd.run (Wd.new timeout t0) (map Wd.Feed (events ++ [last])))) (Wd.Check now)) = Some Wd.Critical.
Proof.
  intros timeout t0 events last now L K. rewrite run_feeds, rev_app_distr. cbn [rev app Wd.step].
  match goal with |- context [Wd.check ?w now] => destruct (check_spec w now) as (V & _); [exact L|]; destruct (Wd.check w now) as [w' v] end.
  cbn [snd Wd.last Wd.timeout Wd.new] in *. rewrite V.
  destruct (N.leb_spec (now - last) timeout); [lia|]. destruct (N.leb_spec (now - last) (2 * timeout)); [lia|].
  destruct (N.leb_spec (now - last) (3 * timeout)); [lia|]. reflexivity.
Qed.
Print Assumptions C125_idle_event_refuted.

(** A timeout of 10, cycles of 5: one tick of 25 and the robot stops six cycles later without another tick. *)
Example C125_ex :
  let n := {| Gate.init := true; Gate.stopped := false; Gate.skip := false; Gate.hp := Gate.Healthy; Gate.probe := 0 |} in
  let e := {| Gate.op_paused := false; Gate.op_stopped := false; Gate.policy := true; Gate.due := true |} in
  let s := {| nd := n; wd := Wd.new 10 0; estop := false; safed := 0 |} in
  let c t d := {| c_env := e; c_feed := t; c_ok := true; c_again := t; c_check := t + d |} in
  active n /\ free (c 0 5) /\
  cycles s [c 0 5; c 5 5; c 10 5] = ([true; true; true], {| nd := n; wd := Wd.new 10 10; estop := false; safed := 0 |}) /\
  fst (cycles s [c 0 25; c 25 5; c 30 5]) = [true; false; false] /\
  estop (snd (cycles s [c 0 25])) = false /\ estop (snd (cycles s [c 0 25; c 25 5; c 30 5])) = true.
Proof. vm_compute. tauto. Qed.
