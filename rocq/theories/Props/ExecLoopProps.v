(** Executor loops: load shedding (C51), fault callbacks (C52), operator pause
    (C53), suppressed nodes (C54), panic counting (C55), input freshness (C56),
    safe-state requests (C57). *)
From Verif Require Import Base.Prelude Model.ExecLoop Spec.ExecLoopSpec Proofs.ExecLoopProofs.

(** ** C51 *)
Section C51.
Import Compute.

(** After any history, a node that is open and not stopped runs in the next
    pass exactly when it is a foreground node or none of the last three working
    passes overran. *)
Theorem C51_shedding_exact period prios ps p i n :
  nth_error (nodes (fst (run period (start prios) ps))) i = Some n ->
  stopped n = false -> open p i = true ->
  node_ticked (snd (step period (fst (run period (start prios) ps)) p)) i = true
  <-> (prio n < 200 \/ recent_overload period ps (snd (run period (start prios) ps)) = false).
Proof.
  intros H S O. rewrite (step_ticked _ _ _ _ _ H). unfold ready. rewrite S, O, shedding_exact.
  cbn [negb andb]. unfold threshold. rewrite negb_true_iff, andb_false_iff, Nat.leb_gt. tauto.
Qed.
Print Assumptions C51_shedding_exact.

(** A closed or stopped node never runs. *)
Theorem C51_only_open_nodes_run period prios ps p i n :
  nth_error (nodes (fst (run period (start prios) ps))) i = Some n ->
  node_ticked (snd (step period (fst (run period (start prios) ps)) p)) i = true ->
  open p i = true /\ stopped n = false.
Proof.
  intros H. rewrite (step_ticked _ _ _ _ _ H). unfold ready. intros R.
  apply andb_prop in R. destruct R as [R _]. apply andb_prop in R. destruct R as [A B].
  split; auto. now apply negb_true_iff.
Qed.
Print Assumptions C51_only_open_nodes_run.

(** Orders are never changed by the loop. *)
Theorem C51_orders_stable period prios ps :
  map prio (nodes (fst (run period (start prios) ps))) = prios.
Proof.
  induction ps as [|p ps IH] using rev_ind.
  - cbn. rewrite map_map. cbn. apply map_id.
  - rewrite run_snoc. cbn [fst]. now rewrite step_nodes_prio.
Qed.
Print Assumptions C51_orders_stable.

(** "Three quiet passes bring the background nodes back" is false: if every
    node the executor owns is a background node, one overrun ends all ticking
    for good, however quiet every later pass is. *)
Theorem C51_background_recovers_refuted period prios ps later :
  (forall q, In q prios -> 200 <= q) ->
  recent_overload period ps (snd (run period (start prios) ps)) = true ->
  Forall (fun o => forall i, node_ticked o i = false)
    (snd (run period (fst (run period (start prios) ps)) later)).
Proof.
  intros F R. assert (Forall (fun n => threshold <= prio n) (nodes (fst (run period (start prios) ps)))) as G.
  { rewrite <- (C51_orders_stable period prios ps) in F. rewrite Forall_forall. intros n Hn.
    apply F. now apply in_map. }
  rewrite <- shedding_exact in R.
  eapply Forall_impl; [|exact (starved_run period later _ R G)].
  intros o Ho i. exact (proj1 (Ho i)).
Qed.
Print Assumptions C51_background_recovers_refuted.

Definition busy : pass := {| open := fun _ => true; raise := fun _ => false; spanic := fun _ => false; elapsed := 11 |}.
Definition quiet : pass := {| open := fun _ => true; raise := fun _ => false; spanic := fun _ => false; elapsed := 1 |}.
Definition view (r : t * list seen) : list (list bool) := map ticked (snd r).
(** A foreground and a background node: shed for three quiet passes, then back. *)
Example C51_example :
  view (run 10 (start [100; 200]) [quiet; busy; quiet; quiet; quiet; quiet])
  = [[true; true]; [true; true]; [true; false]; [true; false]; [true; false]; [true; true]].
Proof. vm_compute. reflexivity. Qed.
Example C51_starved_example :
  view (run 10 (start [200]) [quiet; busy; quiet; quiet; quiet; quiet; quiet])
  = [[true]; [true]; [false]; [false]; [false]; [false]; [false]]
  /\ recent_overload 10 [quiet; busy] (snd (run 10 (start [200]) [quiet; busy])) = true.
Proof. vm_compute. auto. Qed.
End C51.

(** ** C57 *)
Section C57.
Import Compute.

(** Compute executor: in a pass that runs at least one node, exactly the nodes
    with a pending request are safed, and the requests are consumed. *)
Theorem C57_compute_working_pass_partial period s p i n :
  nth_error (nodes s) i = Some n ->
  existsb (fun b => b) (ticked (snd (step period s p))) = true ->
  node_safed (snd (step period s p)) i = req n || raise p i
  /\ forall n', nth_error (nodes (fst (step period s p))) i = Some n' -> req n' = false.
Proof. apply step_safed. Qed.
Print Assumptions C57_compute_working_pass_partial.

(** Async executor: the same on every pass. *)
Theorem C57_async_every_pass s p i n :
  nth_error (nodes s) i = Some n ->
  node_safed (snd (async_step s p)) i = req n || raise p i
  /\ forall n', nth_error (nodes (fst (async_step s p))) i = Some n' -> req n' = false.
Proof. apply async_safed. Qed.
Print Assumptions C57_async_every_pass.

(** RT executor: the same for a node that is not already stopped. *)
Theorem C57_rt_every_pass s p i n :
  nth_error (nodes s) i = Some n -> stopped n = false ->
  node_safed (snd (rt_step s p)) i = req n || raise p i
  /\ forall n', nth_error (nodes (fst (rt_step s p))) i = Some n' -> req n' = false.
Proof. apply rt_safed. Qed.
Print Assumptions C57_rt_every_pass.

(** A node whose [enter_safe_state] panics is stopped and does not tick, in that
    pass already: async and RT executors. *)
Theorem C57_failed_safing_stops s p i n :
  nth_error (nodes s) i = Some n -> stopped n = false -> req n || raise p i = true -> spanic p i = true ->
  (node_ticked (snd (async_step s p)) i = false
   /\ forall n', nth_error (nodes (fst (async_step s p))) i = Some n' -> stopped n' = true)
  /\ (node_ticked (snd (rt_step s p)) i = false
   /\ forall n', nth_error (nodes (fst (rt_step s p))) i = Some n' -> stopped n' = true).
Proof.
  intros H S R Sp.
  assert (forall A B (f : nat -> A -> B) l k j, nth_error (mapi f k l) j = option_map (f (k + j)) (nth_error l j)) as Nm.
  { clear. induction l as [|a l IH]; intros k [|j]; cbn; auto; [now rewrite Nat.add_0_r|].
    rewrite IH. now replace (S k + j) with (k + S j) by lia. }
  assert (forall (l : list bool), nth_error l i = Some false -> nth i l false = false) as Nf.
  { clear. revert i. induction i; intros [|x l] E; cbn in *; try discriminate; auto. now inv E. }
  split; split.
  - unfold node_ticked, async_step. cbn [snd ticked]. apply Nf. rewrite !Nm, H. cbn. unfold ready, honor, raised.
    cbn [req stopped prio]. rewrite R. cbn [stopped]. rewrite Sp, orb_true_r. cbn. rewrite andb_false_r. reflexivity.
  - intros n'. unfold async_step. cbn [fst nodes]. rewrite !Nm, H. cbn. unfold honor, raised. cbn [req stopped prio]. rewrite R.
    intros Q. inv Q. cbn [stopped]. rewrite Sp. now destruct (stopped n).
  - unfold node_ticked, rt_step. cbn [snd ticked]. apply Nf. rewrite !Nm, H. cbn. unfold ready, rt_honor, honor, raised.
    cbn [req stopped prio]. rewrite S, R. cbn [stopped]. rewrite Sp, orb_true_r. cbn. rewrite andb_false_r. reflexivity.
  - intros n'. unfold rt_step. cbn [fst nodes]. rewrite !Nm, H. cbn. unfold rt_honor, honor, raised. cbn [req stopped prio]. rewrite S, R.
    intros Q. inv Q. cbn [stopped]. rewrite Sp. now destruct (stopped n).
Qed.
Print Assumptions C57_failed_safing_stops.
(** Compute executor: it ticks once more after it failed to safe. *)
Theorem C57_compute_failed_safing_ticks_refuted : exists s p,
  node_safed (snd (step 10 s p)) 0 = true /\ spanic p 0 = true /\ node_ticked (snd (step 10 s p)) 0 = true.
Proof.
  exists (start [1]), {| open := fun _ => true; raise := fun _ => true; spanic := fun _ => true; elapsed := 1 |}.
  vm_compute. auto.
Qed.
Print Assumptions C57_compute_failed_safing_ticks_refuted.

(** Compute executor: a starved executor never honours a request, whoever
    raises it and however often. *)
Theorem C57_compute_request_honoured_refuted period s ps :
  shedding s = true -> (forall n, In n (nodes s) -> 200 <= prio n) ->
  Forall (fun o => forall i, node_safed o i = false) (snd (run period s ps)).
Proof.
  intros S F. eapply Forall_impl; [|apply (starved_run period ps s S)].
  - intros o Ho i. exact (proj2 (Ho i)).
  - rewrite Forall_forall. exact F.
Qed.
Print Assumptions C57_compute_request_honoured_refuted.

(** Compute executor: nor does one whose nodes are all waiting (backoff,
    cooldown, paused, not due) - the state an isolated node is in. *)
Theorem C57_compute_idle_request_refuted period s p :
  (forall i, open p i = false) ->
  forall i, node_safed (snd (step period s p)) i = false.
Proof.
  intros O i. unfold step. cbv zeta.
  assert (existsb (fun b => b) (mapi (ready (shedding s) p) 0 (mapi (raised p) 0 (nodes s))) = false) as Z.
  { apply existsb_mapi_false. intros j n _. unfold ready. now rewrite O. }
  rewrite Z. unfold node_safed. cbn [snd safed].
  generalize (mapi (raised p) 0 (nodes s)). intros l. revert i. induction l; intros [|i]; cbn; auto.
Qed.
Print Assumptions C57_compute_idle_request_refuted.

(** A safe-state request from outside (a lost network link configured as
    [safe_state]) safes no node in any later pass. *)
Theorem C57_external_request_refuted period prios ps later :
  Forall (fun p => forall i, raise p i = false) ps ->
  Forall (fun p => forall i, raise p i = false) later ->
  let s := external_safe_state (fst (run period (start prios) ps)) in
  Forall (fun o => forall i, node_safed o i = false) (snd (run period s later)).
Proof.
  intros F1 F2 s. subst s. unfold external_safe_state.
  pose proof (run_quiet period (ps ++ later) (start prios)) as Q.
  rewrite run_app in Q. cbn [snd] in Q.
  apply (fun A B => proj2 (proj1 (Forall_app _ _ _) (Q A B))).
  - intros n Hn. cbn in Hn. apply in_map_iff in Hn. destruct Hn as (q & <- & _). reflexivity.
  - now apply Forall_app.
Qed.
Print Assumptions C57_external_request_refuted.

Definition asked : pass := {| open := fun i => i =? 0; raise := fun i => i =? 1; spanic := fun _ => false; elapsed := 1 |}.
Definition asked_idle : pass := {| open := fun _ => false; raise := fun i => i =? 1; spanic := fun _ => false; elapsed := 1 |}.
(** Node 1 is not due and is asked to safe: honoured only because node 0 runs. *)
Example C57_example :
  map safed (snd (run 10 (start [1; 1]) [asked; quiet])) = [[false; true]; [false; false]]
  /\ map safed (snd (run 10 (start [1; 1]) [asked_idle; asked_idle])) = [[false; false]; [false; false]]
  /\ safed (snd (async_step (start [1; 1]) asked_idle)) = [false; true]
  /\ safed (snd (rt_step (start [1; 1]) asked_idle)) = [false; true].
Proof. vm_compute. auto. Qed.
End C57.

(** ** C53 *)
Section C53.
Import Gate.

(** Main loop and RT executor: while the operator's pause flag is set, the node
    does not tick. *)
Theorem C53_pause_holds_main n es :
  Forall (fun e => op_paused e = true) es -> Forall (fun b => b = false) (fst (run main n es)).
Proof. apply run_paused. apply main_paused. Qed.
Print Assumptions C53_pause_holds_main.
Theorem C53_pause_holds_rt n es :
  Forall (fun e => op_paused e = true) es -> Forall (fun b => b = false) (fst (run rt n es)).
Proof. apply run_paused. apply rt_paused. Qed.
Print Assumptions C53_pause_holds_rt.

(** After the resume a healthy, running, due node ticks in the very next pass. *)
Theorem C53_resume_main n e :
  init n = true -> stopped n = false -> skip n = false -> (hp n = Healthy \/ hp n = Warning) ->
  op_paused e = false -> policy e = true -> due e = true -> fst (main n e) = true.
Proof. intros A B C [D|D] E F G; unfold main; rewrite B, F, D, E, C, A, G; reflexivity. Qed.
Print Assumptions C53_resume_main.
Theorem C53_resume_rt n e :
  init n = true -> stopped n = false -> skip n = false ->
  op_paused e = false -> op_stopped e = false -> policy e = true -> due e = true ->
  fst (rt n e) = true.
Proof. intros A B C E O F G. unfold rt. rewrite A, B, O, E, C, F, G. reflexivity. Qed.
Print Assumptions C53_resume_rt.

(** Compute, async and event executors: the pause flag changes nothing. *)
Definition with_pause (b : bool) (e : env) : env :=
  {| op_paused := b; op_stopped := op_stopped e; policy := policy e; due := due e |}.
Theorem C53_pause_holds_compute_refuted n es :
  run compute n (map (with_pause true) es) = run compute n (map (with_pause false) es).
Proof. revert n. induction es as [|e es IH]; intros n; auto. cbn [map run]. cbn [compute]. now rewrite IH. Qed.
Print Assumptions C53_pause_holds_compute_refuted.
Theorem C53_pause_holds_event_refuted n es :
  run event n (map (with_pause true) es) = run event n (map (with_pause false) es).
Proof. revert n. induction es as [|e es IH]; intros n; auto. cbn [map run]. cbn [event]. now rewrite IH. Qed.
Print Assumptions C53_pause_holds_event_refuted.

(** A stopped node never ticks again, on any executor. *)
Theorem C53_stopped_never_ticks g n es :
  In g [main; rt; compute; event] -> stopped n = true -> Forall (fun b => b = false) (fst (run g n es)).
Proof.
  intros J S. enough (forall e, g n e = (false, n)) as K.
  { induction es as [|e es IH]; cbn [run]; [constructor|]. rewrite K.
    destruct (run g n es). now constructor. }
  intros e. destruct J as [<-|[<-|[<-|[<-|[]]]]]; unfold main, rt, compute, event; rewrite S;
    rewrite ?orb_true_r, ?andb_false_r; reflexivity.
Qed.
Print Assumptions C53_stopped_never_ticks.

(** The skip after a missed deadline costs a healthy node one tick, not more:
    main loop and RT executor. *)
Theorem C53_skip_is_one_tick g n es :
  g = main \/ g = rt -> init n = true -> stopped n = false -> (hp n = Healthy \/ hp n = Warning) -> skip n = true ->
  Forall (fun e => op_paused e = false /\ op_stopped e = false /\ policy e = true /\ due e = true) es ->
  fst (run g n es) = match es with [] => [] | _ :: r => false :: map (fun _ => true) r end.
Proof.
  intros G A B C D F. destruct es as [|e es]; auto. inv F. destruct H1 as (E1 & E2 & E3 & E4).
  cbn [run].
  set (n1 := {| init := init n; stopped := stopped n; skip := false; hp := hp n; probe := probe n |}).
  assert (g n e = (false, n1)) as ->.
  { destruct G as [-> | ->].
    - unfold main. rewrite B, E3, E1, D. destruct C as [C|C]; rewrite C; cbn [andb negb]; unfold n1; now rewrite C, B.
    - unfold rt. rewrite A, B, E2, E1, D. cbn [negb orb]. unfold n1. now rewrite A, B. }
  assert (forall l, Forall (fun e => op_paused e = false /\ op_stopped e = false /\ policy e = true /\ due e = true) l ->
    fst (run g n1 l) = map (fun _ => true) l) as K.
  { induction l as [|x l IH]; intros F; auto. inv F. cbn [run map].
    assert (g n1 x = (true, n1)) as ->.
    { destruct H1 as (X1 & X2 & X3 & X4). destruct G as [-> | ->].
      - unfold main, n1. cbn [stopped hp skip init probe]. rewrite B, X3, X1, X4, A. destruct C as [C|C]; rewrite C; reflexivity.
      - unfold rt, n1. cbn [stopped hp skip init probe]. now rewrite A, B, X1, X2, X3, X4. }
    specialize (IH H3). destruct (run g n1 l). cbn in *. now rewrite IH. }
  specialize (K es H2). destruct (run g n1 es). cbn in *. now rewrite K.
Qed.
Print Assumptions C53_skip_is_one_tick.

Definition live : node := {| init := true; stopped := false; skip := false; hp := Healthy; probe := 0 |}.
Definition go (b : bool) : env := {| op_paused := b; op_stopped := false; policy := true; due := true |}.
Example C53_example :
  fst (run main live [go false; go true; go true; go false]) = [true; false; false; true]
  /\ fst (run rt live [go false; go true; go true; go false]) = [true; false; false; true]
  /\ fst (run compute live [go false; go true; go true; go false]) = [true; true; true; true].
Proof. vm_compute. auto. Qed.
End C53.

Example C53_skip_example :
  let n := {| Gate.init := true; Gate.stopped := false; Gate.skip := true; Gate.hp := Gate.Healthy; Gate.probe := 0 |} in
  fst (Gate.run Gate.main n (repeat (go false) 3)) = [false; true; true]
  /\ fst (Gate.run Gate.rt n (repeat (go false) 3)) = [false; true; true].
Proof. vm_compute. auto. Qed.

(** ** C54 *)
Section C54.
Import Gate.

(** Main loop: in any stretch of passes an unhealthy or isolated node runs at
    most in the passes whose number is a multiple of 100, counted from when it
    was suppressed. *)
Theorem C54_suppressed_main n es k :
  hp n = Isolated \/ hp n = Unhealthy -> stopped n = false ->
  Forall (fun e => policy e = true) es ->
  (probe n + N.of_nat (length es) < 18446744073709551616)%N ->
  nth k (fst (run main n es)) false = true ->
  ((probe n + N.of_nat k + 1) mod 100 = 0)%N.
Proof. apply suppressed_runs. Qed.
Print Assumptions C54_suppressed_main.

(** And in those passes it does run, if it is due: every 100th pass probes it. *)
Theorem C54_probe_main n es k e :
  hp n = Isolated \/ hp n = Unhealthy -> init n = true -> stopped n = false -> skip n = false ->
  Forall (fun e => policy e = true) es ->
  (probe n + N.of_nat (length es) < 18446744073709551616)%N ->
  nth_error es k = Some e -> op_paused e = false -> due e = true ->
  ((probe n + N.of_nat k + 1) mod 100 = 0)%N ->
  nth k (fst (run main n es)) false = true.
Proof.
  revert n k. induction es as [|x es IH]; intros n k Hh Hi St Sk F B E Pa Du M; [destruct k; discriminate|].
  inv F. cbn [length] in B.
  assert (u64 (probe n + 1) = probe n + 1)%N as U by (unfold u64; apply N.mod_small; lia).
  assert (exists b, main n x = (b, {| init := init n; stopped := stopped n; skip := skip n; hp := hp n; probe := probe n + 1 |})
    /\ (x = e -> ((probe n + 1) mod 100 = 0)%N -> b = true)) as (b & E1 & E2).
  { unfold main. rewrite St, H1. cbn [negb].
    assert (match hp n with Unhealthy | Isolated => true | _ => false end = true) as -> by (destruct Hh as [-> | ->]; reflexivity).
    cbn [andb]. rewrite U, Sk, Hi.
    destruct (((probe n + 1) mod probe_interval =? 0)%N) eqn:Q; cbn [negb].
    - destruct (op_paused x) eqn:Q2.
      + eexists. split; [reflexivity|]. intros ->. congruence.
      + eexists. split; [reflexivity|]. intros -> _. cbn. exact Du.
    - eexists. split; [reflexivity|]. intros _ Z. apply N.eqb_neq in Q. contradiction. }
  cbn [run]. rewrite E1.
  set (n1 := {| init := init n; stopped := stopped n; skip := skip n; hp := hp n; probe := probe n + 1 |}).
  specialize (IH n1). destruct (run main n1 es) as [bs n2]. cbn [fst] in *.
  destruct k as [|k]; cbn [nth_error nth] in *.
  - inv E. apply E2; auto. now replace (probe n + 1)%N with (probe n + N.of_nat 0 + 1)%N by lia.
  - apply IH; auto; unfold n1; cbn [probe]; [lia|].
    now replace (probe n + 1 + N.of_nat k + 1)%N with (probe n + N.of_nat (S k) + 1)%N by lia.
Qed.
Print Assumptions C54_probe_main.

(** RT executor: health plays no part; an isolated node keeps its full rate. *)
Definition with_health (h : health) (n : node) : node :=
  {| init := init n; stopped := stopped n; skip := skip n; hp := h; probe := probe n |}.
Theorem C54_suppressed_rt_refuted n es h h' :
  fst (run rt (with_health h n) es) = fst (run rt (with_health h' n) es).
Proof.
  revert n. induction es as [|e es IH]; intros n; auto. cbn [run].
  assert (exists b m, rt (with_health h n) e = (b, with_health h m) /\ rt (with_health h' n) e = (b, with_health h' m))
    as (b & m & E1 & E2).
  { destruct n as [a1 a2 a3 a4 a5]. unfold rt, with_health. cbn.
    destruct (negb a1 || a2) eqn:Q1; [exists false, (Build_node a1 a2 a3 a4 a5); auto|].
    destruct (op_stopped e); [exists false, (Build_node a1 true a3 a4 a5); auto|].
    destruct (op_paused e); [exists false, (Build_node a1 a2 a3 a4 a5); auto|].
    destruct a3; [exists false, (Build_node a1 a2 false a4 a5); auto|].
    exists (due e && policy e), (Build_node a1 a2 false a4 a5); auto. }
  rewrite E1, E2. specialize (IH m).
  destruct (run rt (with_health h m) es), (run rt (with_health h' m) es). cbn in *. now rewrite IH.
Qed.
Print Assumptions C54_suppressed_rt_refuted.
(** An isolated RT node therefore ticks in every due pass. *)
Theorem C54_isolated_rt_ticks_refuted n e :
  hp n = Isolated -> init n = true -> stopped n = false -> skip n = false ->
  op_paused e = false -> op_stopped e = false -> policy e = true -> due e = true ->
  fst (rt n e) = true.
Proof. intros _. apply C53_resume_rt. Qed.
Print Assumptions C54_isolated_rt_ticks_refuted.

Example C54_example :
  filter (fun b => b) (fst (run main (with_health Isolated live) (repeat (go false) 199))) = [true]
  /\ nth 99 (fst (run main (with_health Isolated live) (repeat (go false) 199))) false = true
  /\ fst (run rt (with_health Isolated live) (repeat (go false) 3)) = [true; true; true].
Proof. vm_compute. auto. Qed.
End C54.

(** ** C55 *)
Section C55.
Import Panics.

(** RT, compute and async executors: a node is marked unhealthy exactly when
    its history contains three consecutive panics. *)
Theorem C55_unhealthy_exact x h : x = Rt \/ x = Compute \/ x = Async ->
  unhealthy (run x fresh h) = true <-> three_in_a_row h.
Proof. intros H. exact (proj2 (panics_inv x h H)). Qed.
Print Assumptions C55_unhealthy_exact.

(** Main loop and event executor: no history of panics ever marks the node. *)
Theorem C55_unhealthy_main_refuted h : unhealthy (run Main fresh h) = false.
Proof. apply panics_main. Qed.
Print Assumptions C55_unhealthy_main_refuted.
Theorem C55_unhealthy_event_refuted h : unhealthy (run Event fresh h) = false.
Proof. apply panics_event. cbn. lia. Qed.
Print Assumptions C55_unhealthy_event_refuted.

(** The tick counters: exact on every executor but the event executor, which
    counts no successful tick at all. *)
Theorem C55_counters_exact x h : x <> Event ->
  total (run x fresh h) = length h /\ okay (run x fresh h) = length (filter negb h).
Proof. apply totals. Qed.
Print Assumptions C55_counters_exact.
Theorem C55_counters_event_refuted h :
  okay (run Event fresh h) = 0 /\ total (run Event fresh h) = length (filter (fun b => b) h).
Proof. apply totals_event. Qed.
Print Assumptions C55_counters_event_refuted.

Example C55_example :
  unhealthy (run Rt fresh [true; true; false; true; true; true]) = true
  /\ unhealthy (run Rt fresh [true; true; false; true; true]) = false
  /\ unhealthy (run Event fresh (repeat true 50)) = false
  /\ total (run Event fresh (repeat false 50)) = 0.
Proof. vm_compute. auto. Qed.
End C55.

(** ** C52 *)
Section C52.
Import Fault.

(** Main loop: whatever callbacks panic, a demanded emergency stop is latched,
    a fatal failure stops the scheduler, and a node whose safing failed is
    stopped. *)
Theorem C52_main_estop c t s : demands_estop c t -> estop (main c t s) = true.
Proof. apply main_estop. Qed.
Print Assumptions C52_main_estop.
Theorem C52_main_halt c t s : demands_halt c t -> running (main c t s) = false.
Proof. apply main_halt. Qed.
Print Assumptions C52_main_halt.
Theorem C52_main_safing_failure_stops c t s :
  missed c t = true -> mp c = MSafe -> in_safe s = false -> p_safe t = true ->
  (over_budget c t = true -> bp c <> BEstop) ->
  stopped (main c t s) = true.
Proof. apply main_safing_failure. Qed.
Print Assumptions C52_main_safing_failure_stops.

(** RT executor: the same as long as no callback panics; for a critical node an
    overrun is latched even then; and any callback panic stops the node. *)
Theorem C52_rt_estop_partial c t s :
  no_callback_panics t -> demands_estop c t -> estop (rt c t s) = true.
Proof. apply rt_estop. Qed.
Print Assumptions C52_rt_estop_partial.
Theorem C52_rt_halt_partial c t s :
  no_callback_panics t -> demands_halt c t -> running (rt c t s) = false.
Proof. apply rt_halt. Qed.
Print Assumptions C52_rt_halt_partial.
Theorem C52_rt_critical_overrun c t s :
  crit c = true -> over_budget c t = true -> estop (rt c t s) = true.
Proof. apply rt_critical. Qed.
Print Assumptions C52_rt_critical_overrun.
Theorem C52_rt_callback_panic_stops_node c t s s' :
  rt_tick c t s = Unwind s' -> stopped (rt c t s) = true.
Proof. apply rt_unwind_stops. Qed.
Print Assumptions C52_rt_callback_panic_stops_node.

(** [BudgetPolicy::Enforce] stops a node exactly when it took more than twice its
    budget; on the main loop even if its [shutdown] panics. *)
Theorem C52_enforce_exact c t s b :
  budget c = Some b -> bp c = BEnforce -> deadline c = None -> stopped s = false ->
  (stopped (main c t s) = true <-> (2 * b < dur t)%N)
  /\ (no_callback_panics t -> (stopped (rt c t s) = true <-> (2 * b < dur t)%N)).
Proof.
  intros B P D S.
  assert (over_twice c t = (2 * b <? dur t)%N) as Tw by (unfold over_twice; rewrite B; now rewrite N.mul_comm).
  assert (over_budget c t = (b <? dur t)%N) as Ov by (unfold over_budget; now rewrite B).
  assert (forall s, stopped (monitor c s) = stopped s) as Mo by (intros; unfold monitor; destruct (crit c); reflexivity).
  assert (forall s, stopped (failure_policy c t s) = stopped s) as Fp
    by (intros; unfold failure_policy; destruct (fatal c), (p_safe t); reflexivity).
  split.
  - unfold main, main_budget, main_deadline, main_result. rewrite D, P, Ov, Tw.
    destruct (N.ltb_spec b (dur t)); [destruct (N.ltb_spec (2 * b) (dur t))|].
    + assert (stopped (if p_shutdown t then note_failure c (monitor c s) else stop (monitor c s)) = true) as X
        by (destruct (p_shutdown t); [unfold note_failure; now rewrite Mo|reflexivity]).
      destruct (panics t); rewrite ?Fp, X; tauto.
    + destruct (panics t); rewrite ?Fp, Mo, S; split; try discriminate; lia.
    + destruct (panics t); rewrite ?Fp, S; split; try discriminate; lia.
  - intros (N1 & N2 & N3). unfold rt, rt_tick, rt_budget, rt_deadline, rt_result, shutdown, on_error.
    rewrite D, P, Ov, Tw, N1, N3.
    destruct (N.ltb_spec b (dur t)); [destruct (N.ltb_spec (2 * b) (dur t))|]; cbn [bind];
      destruct (panics t); cbn [bind]; rewrite ?Fp, ?Mo; cbn [stop stopped]; rewrite ?Mo, ?S; split; auto; try discriminate; lia.
Qed.
Print Assumptions C52_enforce_exact.

(** [Miss::SafeMode] enters the safe state once per run of consecutive misses,
    not once per miss: RT executor and main loop, callbacks returning. *)
Fixpoint streaks (c : cfg) (inside : bool) (ts : list tick) : nat :=
  match ts with
  | [] => 0
  | t :: r => (if missed c t && negb inside then 1 else 0) + streaks c (missed c t) r
  end.
Theorem C52_safe_once_per_streak c ts : forall s,
  mp c = MSafe -> deadline c <> None -> fatal c = false -> bp c = BWarn -> Forall no_callback_panics ts ->
  safed (fold_left (fun s t => rt c t s) ts s) = safed s + streaks c (in_safe s) ts
  /\ safed (fold_left (fun s t => main c t s) ts s) = safed s + streaks c (in_safe s) ts.
Proof.
  enough (forall t s, mp c = MSafe -> deadline c <> None -> fatal c = false -> bp c = BWarn -> no_callback_panics t ->
    (safed (rt c t s) = safed s + (if missed c t && negb (in_safe s) then 1 else 0) /\ in_safe (rt c t s) = missed c t)
    /\ safed (main c t s) = safed s + (if missed c t && negb (in_safe s) then 1 else 0) /\ in_safe (main c t s) = missed c t) as K.
  { intros s A B C D F. revert s. induction ts as [|t ts IH]; intros s; cbn [fold_left streaks]; [split; lia|].
    inv F. destruct (K t s A B C D H1) as ((K1 & K2) & K3 & K4).
    destruct (IH H2 (rt c t s)) as (I1 & _). destruct (IH H2 (main c t s)) as (_ & I2).
    rewrite I1, I2, K1, K2, K3, K4. split; lia. }
  intros t s A B C D (N1 & N2 & N3).
  assert (forall s, safed (monitor c s) = safed s /\ in_safe (monitor c s) = in_safe s) as Mo
    by (intros; unfold monitor; destruct (crit c); auto).
  assert (exists s1, rt_budget c t s = Ret s1 /\ main_budget c t s = (s1, false) /\ safed s1 = safed s /\ in_safe s1 = in_safe s)
    as (s1 & R1 & R2 & R3 & R4).
  { unfold rt_budget, main_budget. rewrite D. destruct (over_budget c t); eexists; repeat split; apply Mo. }
  unfold rt, rt_tick, main. rewrite R1, R2. cbn [bind].
  unfold rt_deadline, main_deadline, enter_safe, rt_result, main_result, on_error, failure_policy. rewrite A, C, N2, N3.
  destruct (deadline c) as [d|]; [|congruence].
  destruct (missed c t) eqn:M; cbn [andb].
  - destruct (Mo s1) as (M1 & M2). rewrite M2, R4.
    destruct (in_safe s) eqn:I; cbn [negb bind]; destruct (panics t); cbn [bind safed in_safe set_in_safe add_safed];
      rewrite ?M1, ?M2, ?R3, ?R4; repeat split; auto; lia.
  - cbn [bind]. destruct (panics t); cbn [bind safed in_safe set_in_safe]; rewrite R3; repeat split; auto; lia.
Qed.
Print Assumptions C52_safe_once_per_streak.
(** RT executor: if [enter_safe_state] itself panics under [Miss::SafeMode] on a
    non-critical node, the node is stopped unsafed and nothing is latched. *)
Theorem C52_rt_safing_refuted c t s :
  over_budget c t = false -> missed c t = true -> mp c = MSafe -> in_safe s = false -> crit c = false ->
  p_safe t = true ->
  estop (rt c t s) = estop s /\ running (rt c t s) = running s
  /\ safed (rt c t s) = safed s /\ stopped (rt c t s) = true.
Proof. intros A B C D E F. destruct (rt_lost_safing c t s A B C E D F) as (H1 & H2 & H3 & H4). auto. Qed.
Print Assumptions C52_rt_safing_refuted.

(** RT executor: [BudgetPolicy::EmergencyStop] with a panicking [shutdown] - no
    emergency stop, scheduler still running, only this node stopped. *)
Theorem C52_rt_budget_estop_refuted c t s :
  over_budget c t = true -> bp c = BEstop -> crit c = false -> p_shutdown t = true ->
  estop (rt c t s) = estop s /\ running (rt c t s) = running s /\ stopped (rt c t s) = true.
Proof. intros A B C D. rewrite (rt_lost_estop c t s A B C D). auto. Qed.
Print Assumptions C52_rt_budget_estop_refuted.
(** RT executor: a fatal failure with a panicking [on_error] - the scheduler
    runs on and the node is never safed. *)
Theorem C52_rt_fatal_refuted c t s :
  over_budget c t = false -> missed c t = false ->
  panics t = true -> fatal c = true -> p_error t = true ->
  running (rt c t s) = running s /\ estop (rt c t s) = estop s
  /\ safed (rt c t s) = safed s /\ stopped (rt c t s) = true.
Proof. apply rt_lost_fatal. Qed.
Print Assumptions C52_rt_fatal_refuted.

(** Compute executor: the thread survives as long as no [on_error] panics ... *)
Theorem C52_compute_survives_partial ps s :
  Forall (Forall (fun ct => p_error (snd ct) = false)) ps ->
  snd (comp_run ps s true) = true.
Proof. apply comp_alive. Qed.
Print Assumptions C52_compute_survives_partial.
(** ... and one panicking [on_error] ends the ticks of every node it serves. *)
Theorem C52_compute_isolated_refuted c t rest later s :
  running s = true -> panics t = true -> p_error t = true ->
  comp_run (((c, t) :: rest) :: later) s true = (S (length rest), false).
Proof. apply comp_on_error_kills. Qed.
Print Assumptions C52_compute_isolated_refuted.

Definition cfg0 : cfg := {| budget := Some 10%N; bp := BEstop; deadline := Some 20%N; mp := MSafe; fatal := true; crit := false |}.
Definition st0 : st := {| running := true; estop := false; stopped := false; skip := false; in_safe := false; safed := 0 |}.
Definition tick0 (pan : bool) (d : N) (ps pe : bool) : tick :=
  {| panics := pan; dur := d; late := d; p_shutdown := ps; p_safe := ps; p_error := pe |}.
Example C52_example :
  demands_estop cfg0 (tick0 false 11 true false)
  /\ estop (main cfg0 (tick0 false 11 true false) st0) = true
  /\ estop (rt cfg0 (tick0 false 11 false false) st0) = true
  /\ estop (rt cfg0 (tick0 false 11 true false) st0) = false
  /\ running (rt cfg0 (tick0 true 1 false true) st0) = true
  /\ running (main cfg0 (tick0 true 1 false true) st0) = false.
Proof. split; [left; split; reflexivity|]. vm_compute. auto 10. Qed.
Definition cfg2 : cfg := {| budget := Some 10%N; bp := BEnforce; deadline := None; mp := MWarn; fatal := false; crit := false |}.
Definition cfg3 : cfg := {| budget := None; bp := BWarn; deadline := Some 20%N; mp := MSafe; fatal := false; crit := false |}.
Example C52_enforce_example :
  map (fun d => stopped (rt cfg2 (tick0 false d false false) st0)) [20; 21]%N = [false; true]
  /\ map (fun d => stopped (main cfg2 (tick0 false d true false) st0)) [20; 21]%N = [false; true]
  /\ safed (fold_left (fun s t => rt cfg3 t s) (map (fun d => tick0 false d false false) [25; 26; 1; 30; 31]%N) st0) = 2.
Proof. vm_compute. auto. Qed.
Definition cfg1 : cfg := {| budget := None; bp := BWarn; deadline := Some 20%N; mp := MSafe; fatal := false; crit := true |}.
Example C52_safing_example :
  missed cfg1 (tick0 false 25 true false) = true
  /\ stopped (main cfg1 (tick0 false 25 true false) st0) = true
  /\ estop (main cfg1 (tick0 false 25 true false) st0) = true
  /\ fst (comp_run [[(cfg1, tick0 true 1 false true); (cfg1, tick0 false 1 false false)];
                [(cfg1, tick0 false 1 false false)]] st0 true) = 2.
Proof. vm_compute. auto. Qed.
End C52.

(** ** C56 *)
Section C56.
Import Fresh.
Local Open Scope N_scope.

(** With a clock that moves forward, a check reports the input stale exactly
    when the timeout has passed both since the subscription was made and since
    every check that found new messages. *)
Theorem C56_stale_exact timeout t0 base es now :
  increasing t0 (es ++ [Check now]) ->
  let sys0 := {| total := base; sub := new t0 |} in
  exists v,
    snd (run timeout sys0 (es ++ [Check now])) = snd (run timeout sys0 es) ++ [Some v]
    /\ (v = true <-> t0 + timeout < now
                     /\ forall c, arrival_noticed (es ++ [Check now]) c -> c + timeout < now).
Proof. intros I. eexists. exact (stale_exact timeout t0 base es now I). Qed.
Print Assumptions C56_stale_exact.

(** Once one check has been made, a message published within the timeout before
    a check keeps the input fresh at that check. *)
Theorem C56_no_false_alarm timeout t0 base a c0 b p d now :
  let es := a ++ Check c0 :: b ++ Publish p :: d in
  increasing t0 (es ++ [Check now]) -> now <= p + timeout ->
  exists os, snd (run timeout {| total := base; sub := new t0 |} (es ++ [Check now]))
             = os ++ [Some false].
Proof.
  intros es I L. destruct (C56_stale_exact timeout t0 base es now I) as (v & E & V).
  exists (snd (run timeout {| total := base; sub := new t0 |} es)). rewrite E.
  destruct v; auto. exfalso. destruct (proj1 V eq_refl) as [_ H]. clear V E.
  (* the first check after the publication notices it *)
  assert (forall d', increasing p (d' ++ [Check now]) ->
          exists b1 c d1, d' ++ [Check now] = b1 ++ Check c :: d1
            /\ forallb (fun e => negb (is_check e)) b1 = true /\ p < c) as F.
  { clear. intros d'. revert p. induction d' as [|e d' IH]; intros p I.
    - cbn in I. exists [], now, []. repeat split; auto. tauto.
    - cbn [app increasing] in I. destruct I as [I1 I2]. destruct e as [n|n]; cbn [time] in *.
      + destruct (IH n I2) as (b1 & c & d1 & E & B & L). exists (Publish n :: b1), c, d1.
        cbn [app]. rewrite E. repeat split; auto. lia.
      + exists [], n, (d' ++ [Check now]). repeat split; auto. }
  assert (forall b' c0', exists a' c1 b2, Check c0' :: b' = a' ++ Check c1 :: b2
            /\ forallb (fun e => negb (is_check e)) b2 = true) as G.
  { clear. induction b' as [|e b' IH] using rev_ind; intros c0'.
    - exists [], c0', []. auto.
    - destruct (IH c0') as (a' & c1 & b2 & E & B). destruct e as [n|n].
      + exists a', c1, (b2 ++ [Publish n]). split.
        * change (Check c0' :: b' ++ [Publish n]) with ((Check c0' :: b') ++ [Publish n]).
          rewrite E. now rewrite <- app_assoc.
        * rewrite forallb_app, B. reflexivity.
      + exists (Check c0' :: b'), n, []. auto. }
  assert (increasing p (d ++ [Check now])) as Ip.
  { subst es. clear -I. rewrite <- app_assoc in I. cbn [app] in I. rewrite <- app_assoc in I.
    assert (forall l t x r, increasing t (l ++ x :: r) -> increasing (time x) r) as K.
    { induction l as [|y l IH]; intros t x r H; cbn in H; [tauto|]. destruct H as [_ H]. eauto. }
    apply (K a t0 (Check c0)) in I. exact (K b _ (Publish p) _ I). }
  destruct (F d Ip) as (b1 & c & d1 & E1 & B1 & L1).
  destruct (G b c0) as (a' & c1 & b2 & E2 & B2).
  specialize (H c). assert (arrival_noticed (es ++ [Check now]) c) as N.
  { exists (a ++ a'), c1, (b2 ++ Publish p :: b1), d1. split; [|split].
    - subst es. rewrite <- !app_assoc. f_equal.
      change ((Check c0 :: b ++ Publish p :: d) ++ [Check now]) with
             (Check c0 :: (b ++ Publish p :: d) ++ [Check now]).
      rewrite <- app_assoc. cbn [app]. rewrite E1.
      change (Check c0 :: b ++ Publish p :: b1 ++ Check c :: d1) with
             ((Check c0 :: b) ++ Publish p :: b1 ++ Check c :: d1).
      rewrite E2. rewrite <- !app_assoc. cbn [app]; now rewrite <- ?app_assoc.
    - rewrite forallb_app, B2. cbn. exact B1.
    - now destruct b2. }
  specialize (H N). lia.
Qed.
Print Assumptions C56_no_false_alarm.

(** A topic that stays silent is reported: if nothing is published after a
    check, every check later than the timeout after it reports stale. *)
Theorem C56_silence_detected timeout t0 base es now c :
  increasing t0 (es ++ [Check now]) ->
  t0 <= c -> c + timeout < now ->
  (forall x, arrival_noticed (es ++ [Check now]) x -> x <= c) ->
  exists os, snd (run timeout {| total := base; sub := new t0 |} (es ++ [Check now]))
             = os ++ [Some true].
Proof.
  intros I T L F. destruct (C56_stale_exact timeout t0 base es now I) as (v & E & V).
  exists (snd (run timeout {| total := base; sub := new t0 |} es)). rewrite E.
  destruct v; auto. exfalso. assert (false = true) as X; [|discriminate].
  apply V. split; [lia|]. intros x Hx. specialize (F x Hx). lia.
Qed.
Print Assumptions C56_silence_detected.

(** The first check raises a false alarm: messages published a moment before it
    do not count, so a node whose first tick comes later than the timeout after
    it was built is reported stale on a live topic. *)
Theorem C56_first_check_refuted timeout t0 base p now :
  t0 < p -> p < now -> t0 + timeout < now ->
  snd (run timeout {| total := base; sub := new t0 |} [Publish p; Check now]) = [None; Some true].
Proof.
  intros A B C. cbn. unfold stale. cbn. do 3 f_equal. apply N.ltb_lt. lia.
Qed.
Print Assumptions C56_first_check_refuted.

(** The clock is wall time: after it is set back, a topic that has died is
    reported fresh at every one of any number of checks, until the clock has
    caught up with the last arrival plus the timeout. *)
Theorem C56_clock_step_refuted timeout t0 base c0 p c later :
  t0 < c0 -> c0 < p -> p < c -> Forall (fun now => now <= c + timeout) later ->
  snd (run timeout {| total := base; sub := new t0 |}
         ([Check c0; Publish p; Check c] ++ map Check later))
  = [Some (timeout <? c0 - t0); None; Some false] ++ map (fun _ => Some false) later.
Proof.
  intros A B C D. cbn [app run step refresh new sub total count last].
  assert (base + 1 =? base = false) as -> by (apply N.eqb_neq; lia).
  cbn [app run step refresh new sub total count last].
  assert (N.max c (t0 + 1) = c) as -> by lia.
  assert (forall l, Forall (fun now => now <= c + timeout) l ->
    snd (run timeout {| total := base + 1; sub := {| last := c; count := Some (base + 1) |} |} (map Check l))
    = map (fun _ => Some false) l) as F.
  { induction l as [|x l IH]; intros G; auto. inv G. cbn [map run step refresh sub total count].
    rewrite N.eqb_refl. specialize (IH H2). destruct (run timeout _ (map Check l)) as [s2 os].
    cbn [snd] in *. rewrite IH. do 2 f_equal. unfold stale. cbn [last]. apply N.ltb_ge. lia. }
  specialize (F later D). destruct (run timeout _ (map Check later)) as [s2 os]. cbn [snd] in *.
  rewrite F. unfold stale. cbn [last].
  assert (timeout <? c - c = false) as -> by (apply N.ltb_ge; lia). reflexivity.
Qed.
Print Assumptions C56_clock_step_refuted.

Example C56_example :
  increasing 0 [Check 1; Publish 2; Check 5; Check 9; Check 16]
  /\ snd (run 10 {| total := 7; sub := new 0 |} [Check 1; Publish 2; Check 5; Check 9; Check 16])
     = [Some false; None; Some false; Some false; Some true]
  /\ snd (run 10 {| total := 0; sub := new 0 |} [Publish 19; Check 20]) = [None; Some true].
Proof. split; [cbn; lia|]. vm_compute. auto. Qed.
End C56.
