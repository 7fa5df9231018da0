(** Deterministic mode: virtual time and what nodes see (C90), runs with a duration (C91), the budget as seen by an
    anytime algorithm (C92), and the order of real-time nodes (C93). *)
From Verif Require Import Base.Prelude Model.DepGraph Model.FailurePolicy Model.VirtualTime
  Spec.DepGraphSpec Spec.VirtualTimeSpec Proofs.DepGraphProofs Proofs.VirtualTimeProofs Props.DepGraphProps.
From Coq Require Import Permutation Relations Sorting.Sorted.
Local Open Scope N_scope.

(** Two nodes, the second consuming what the first produces. *)
Definition pair_nodes : list vnode :=
  [VNode (GNode [7%nat] [] 0) None None None None; VNode (GNode [] [7%nat] 0) (Some 5) (Some 100) (Some PFatal) None].
(** A machine on which nothing takes time, and one on which everything is late. *)
Definition quick : wall := fun _ => Turn 0 0 0.
Definition slow : wall := fun _ => Turn 900 800 950.
Definition calm : view -> bool := fun _ => false.

(** C90: the virtual clock after a run: one period for every STEP of every tick, wherever the machine's time went. *)
Theorem C90_elapsed :
  forall period lim hash nodes prog ticks g vs,
    vrun true period lim hash nodes prog ticks (vinit nodes) = (g, vs, false) ->
    period * total_steps ticks < 18446744073709551616 ->
    vc_now g = period * total_steps ticks.
Proof.
  intros period lim hash nodes prog ticks g vs E H.
  destruct (vrun_now period lim hash nodes prog ticks (vinit nodes)) as [A _]; [exact H|].
  rewrite E in A. cbn in A. apply A. reflexivity.
Qed.
Print Assumptions C90_elapsed.
Example C90_ex_elapsed :
  let r := vrun true 10 1000 (fun _ => 0) pair_nodes calm
             [(plan_of pair_nodes, quick); (plan_of pair_nodes, slow)] (vinit pair_nodes) in
  snd r = false /\ vc_now (fst (fst r)) = 40 /\ map v_node (snd (fst r)) = [0; 1; 0; 1]%nat /\
  map v_now (snd (fst r)) = [0; 10; 20; 30] /\ map v_tick (snd (fst r)) = [0; 0; 1; 1] /\
  map v_dt (snd (fst r)) = [10; 5; 10; 5].
Proof. repeat (split; [reflexivity|]). reflexivity. Qed.

(** C90: what a tick reads: [now()] and [elapsed()] agree and are the periods counted before its step, [dt()] is the
    node's own period or else the scheduler's, and [tick()] is the number of ticks this node has had. *)
Theorem C90_views :
  forall period lim hash nodes prog ticks g vs stop,
    vrun true period lim hash nodes prog ticks (vinit nodes) = (g, vs, stop) ->
    period * total_steps ticks < 18446744073709551616 ->
    (forall v, In v vs ->
       v_elapsed v = v_now v /\
       v_dt v = match vn_rate (vnth nodes (v_node v)) with Some r => r | None => period end /\
       exists k p w, nth_error ticks k = Some (p, w) /\
         match p with
         | Some steps => exists j, in_step steps j (v_node v) /\
                           v_now v = period * (total_steps (firstn k ticks) + N.of_nat j)
         | None => v_now v = period * total_steps (firstn k ticks)
         end) /\
    (forall before v after, vs = before ++ v :: after -> v_tick v = N.of_nat (length (of_node (v_node v) before))).
Proof.
  intros period lim hash nodes prog ticks g vs stop E H.
  destruct (vrun_now period lim hash nodes prog ticks (vinit nodes)) as [_ A]; [exact H|].
  pose proof (vrun_keeps period lim hash nodes prog true ticks (vinit nodes)) as K. cbn zeta in K.
  rewrite E in A, K. cbn [fst snd] in A, K. split.
  - intros v Hv. destruct (A v Hv) as (k & p & w & Hk & Hs). unfold seen_at in Hs. destruct p as [steps|].
    + destruct Hs as (j & i & s & Hi & ->). cbn [v_elapsed v_now v_dt v_node view_at]. split; [auto|]. split; [auto|].
      exists k, (Some steps), w. split; [auto|]. exists j. split; [auto|]. cbn [vinit vc_now]. lia.
    + destruct Hs as (i & s & ->). cbn [v_elapsed v_now v_dt v_node view_at]. split; [auto|]. split; [auto|].
      exists k, None, w. split; [auto|]. cbn [vinit vc_now]. lia.
  - intros before v after Hv. destruct K as [K _].
    rewrite (numbered_nth prog vs _ before v after K Hv). unfold counted, counts. cbn. lia.
Qed.
Print Assumptions C90_views.

(** C90: the order of execution is the plan's, in every tick, if no node waits on the wall clock. *)
Theorem C90_order :
  forall period lim hash nodes prog ticks g vs,
    (forall n, In n nodes -> no_waiting n) ->
    vrun true period lim hash nodes prog ticks (vinit nodes) = (g, vs, false) ->
    map v_node vs = flat_map (fun t => match fst t with Some steps => concat steps | None => by_order nodes end) ticks.
Proof.
  intros period lim hash nodes prog ticks g vs NW E.
  pose proof (vrun_order period lim hash nodes prog ticks NW (vinit nodes) (vinit_same nodes NW)) as O.
  rewrite E in O. cbn [fst snd] in O. exact (O eq_refl).
Qed.
Print Assumptions C90_order.
Example C90_ex_no_waiting : forall n, In n pair_nodes -> no_waiting n.
Proof. intros n [<-|[<-|[]]]; (split; [reflexivity|]); cbn; auto. Qed.

(** C90: two runs of the same program on machines of any speed see exactly the same, if no node has a failure policy
    that waits or a deadline with the skip policy.  What is missing: the nodes that do, refuted below. *)
Theorem C90_reproducible_partial :
  forall period lim hash nodes prog (plans : list plan) (machine machine' : list wall),
    (forall n, In n nodes -> no_waiting n) ->
    length machine = length plans -> length machine' = length plans ->
    let r := vrun true period lim hash nodes prog (combine plans machine) (vinit nodes) in
    let r' := vrun true period lim hash nodes prog (combine plans machine') (vinit nodes) in
    snd (fst r) = snd (fst r') /\ snd r = snd r' /\ vc_now (fst (fst r)) = vc_now (fst (fst r')).
Proof.
  intros period lim hash nodes prog plans m m' NW L L'.
  apply vrun_same; auto. apply vinit_same. auto.
Qed.
Print Assumptions C90_reproducible_partial.

(** A deadline with [Miss::Skip]: two ticks on a fast machine, one on a slow one — for every deadline. *)
Theorem C90_deadline_not_reproducible_refuted :
  forall period lim hash rate budget deadline,
    let nodes := [VNode (GNode [] [] 0) rate budget None (Some deadline)] in
    let run m := snd (fst (vrun true period lim hash nodes calm [(plan_of nodes, m); (plan_of nodes, m)] (vinit nodes))) in
    length (run (fun _ => Turn 0 deadline 0)) = 2%nat /\
    length (run (fun _ => Turn 0 (deadline + 1) 0)) = 1%nat.
Proof.
  intros period lim hash rate budget deadline nodes run. subst nodes run.
  assert (P : plan_of [VNode (GNode [] [] 0) rate budget None (Some deadline)] = Some [[O]]) by reflexivity.
  cbn zeta. rewrite P. cbn. 
  assert (X : deadline <? deadline = false) by (apply N.ltb_irrefl).
  assert (Y : deadline <? deadline + 1 = true) by (apply N.ltb_lt; lia).
  split.
  - unfold exec_node, vgate, vfinish, calm; cbn. rewrite X. cbn. reflexivity.
  - unfold exec_node, vgate, vfinish, calm; cbn. rewrite Y. cbn. reflexivity.
Qed.
Print Assumptions C90_deadline_not_reproducible_refuted.

(** A restart policy with a backoff: a node whose first tick panics is held back by the wall clock. *)
Theorem C90_restart_not_reproducible_refuted :
  forall period lim hash rate budget restarts backoff,
    0 < restarts -> 0 < backoff -> backoff <= dur_max -> backoff <= lim ->
    let nodes := [VNode (GNode [] [] 0) rate budget (Some (PRestart restarts backoff)) None] in
    let prog v := v_tick v =? 0 in
    let run m := snd (fst (vrun true period lim hash nodes prog [(plan_of nodes, quick); (plan_of nodes, m)] (vinit nodes))) in
    length (run (fun _ => Turn backoff 0 backoff)) = 2%nat /\
    length (run (fun _ => Turn 0 0 0)) = 1%nat.
Proof.
  intros period lim hash rate budget restarts backoff R B Dm Lm nodes prog run. subst nodes prog run.
  assert (P : plan_of [VNode (GNode [] [] 0) rate budget (Some (PRestart restarts backoff)) None] = Some [[O]]) by reflexivity.
  cbn zeta. rewrite P.
  assert (F : h_failure lim (HRestart 0 restarts backoff None) 0 = Some (HRestart 1 restarts backoff (Some backoff), RestartNode)).
  { unfold h_failure. change ((0 + 1) mod u32_mod) with 1.
    replace (restarts <? 1) with false by (symmetry; apply N.ltb_ge; lia).
    change (pow2_sat (1 - 1)) with 1. unfold dur_mul_sat.
    replace (N.min (backoff * 1) dur_max) with backoff by lia.
    change (0 + backoff) with backoff. replace (backoff <=? lim) with true by (symmetry; apply N.leb_le; auto). reflexivity. }
  split; cbn; unfold exec_node, vgate, vfinish, quick; cbn [h_new vs_handler vc_nodes vinit option_map vnth nth vn_policy h_allow negb vs_skip vs_last];
    cbn [v_tick view_at vs_count]; change (0 =? 0) with true; cbn [w_after]; rewrite F; cbn;
    unfold exec_node, vgate, vfinish; cbn [vc_nodes fupd Nat.eqb vs_handler h_allow w_gate advance].
  - replace (backoff <=? backoff) with true by (symmetry; apply N.leb_refl). cbn. change (0 + 1 =? 0) with false. cbn. reflexivity.
  - replace (backoff <=? 0) with false by (symmetry; apply N.leb_gt; lia). cbn. reflexivity.
Qed.
Print Assumptions C90_restart_not_reproducible_refuted.
Example C90_ex_restart : 0 < 3 /\ 0 < 1000000 /\ 1000000 <= dur_max /\ 1000000 <= 4000000000.
Proof. split; [reflexivity|]. split; [reflexivity|]. split; discriminate. Qed.

(** Refuted: "virtual time advances by exactly one period per tick".  With a producer and a consumer among the nodes,
    every tick takes at least two. *)
Theorem C90_one_period_refuted :
  forall period lim hash nodes prog machine g vs p i,
    depends (map vn_graph nodes) p i ->
    0 < period -> (0 < length machine)%nat ->
    vrun true period lim hash nodes prog (map (fun w => (plan_of nodes, w)) machine) (vinit nodes) = (g, vs, false) ->
    plan_of nodes <> None ->
    period * total_steps (map (fun w => (plan_of nodes, w)) machine) < 18446744073709551616 ->
    2 * (period * N.of_nat (length machine)) <= vc_now g.
Proof.
  intros period lim hash nodes prog machine g vs p i D Pp Lm E PN H.
  rewrite (C90_elapsed _ _ _ _ _ _ _ _ E H).
  assert (T : topics_declared (map vn_graph nodes)).
  { destruct D as (_ & Lp & _ & topic & Hp & _). exists (nth_node (map vn_graph nodes) p). split; [apply nth_In; auto|].
    left. intros X. rewrite X in Hp. destruct Hp. }
  pose proof (C34_order_respects_topics _ T) as O. unfold plan_of in *.
  destruct (graph_build (map vn_graph nodes)) as [steps| |]; try congruence.
  destruct O as (_ & O & _). destruct (O p i D) as (a & b & (la & Ha & _) & (lb & Hb & _) & Hab).
  assert (L2 : (2 <= length steps)%nat).
  { assert (b < length steps)%nat by (apply nth_error_Some; congruence). lia. }
  assert (TS : forall ms, total_steps (map (fun w => (Some steps, w)) ms) = N.of_nat (length steps) * N.of_nat (length ms)).
  { induction ms as [|m ms IH]; [cbn; lia|]. cbn [map total_steps steps_in length]. rewrite IH. lia. }
  rewrite TS. nia.
Qed.
Print Assumptions C90_one_period_refuted.
Example C90_ex_pair : depends (map vn_graph pair_nodes) 0 1 /\ plan_of pair_nodes = Some [[0]; [1]]%nat.
Proof.
  split; [|reflexivity]. split; [discriminate|]. split; [cbn; lia|]. split; [cbn; lia|].
  exists 7%nat. cbn. auto.
Qed.

(** Refuted: time passes.  If the nodes depend on each other in a circle, the virtual clock stands still forever. *)
Theorem C90_frozen_refuted :
  forall period lim hash nodes prog machine i,
    on_cycle (depends (map vn_graph nodes)) i ->
    let r := vrun true period lim hash nodes prog (map (fun w => (plan_of nodes, w)) machine) (vinit nodes) in
    (snd r = false -> vc_now (fst (fst r)) = 0) /\ forall v, In v (snd (fst r)) -> v_now v = 0.
Proof.
  intros period lim hash nodes prog machine i C.
  assert (PN : plan_of nodes = None).
  { assert (T : topics_declared (map vn_graph nodes)).
    { apply clos_trans_t1n in C. assert (D : exists j, depends (map vn_graph nodes) i j) by (inversion C; eauto).
      destruct D as (j & _ & Lp & _ & topic & Hp & _). exists (nth_node (map vn_graph nodes) i). split; [apply nth_In; auto|].
      left. intros X. rewrite X in Hp. destruct Hp. }
    pose proof (C34_order_respects_topics _ T) as O. unfold plan_of.
    destruct (graph_build (map vn_graph nodes)) as [steps| |]; auto.
    destruct O as (_ & _ & _ & A). destruct (A i C). }
  rewrite PN.
  assert (TS : forall k, total_steps (firstn k (map (fun w => (None : plan, w)) machine)) = 0).
  { intros k. rewrite firstn_map. induction (firstn k machine) as [|m ms IH]; [reflexivity|]. cbn. exact IH. }
  assert (TS0 : total_steps (map (fun w => (None : plan, w)) machine) = 0).
  { induction machine as [|m ms IH]; [reflexivity|]. cbn. apply IH. intros k. specialize (TS (S k)). exact TS. }
  destruct (vrun_now period lim hash nodes prog (map (fun w => (None : plan, w)) machine) (vinit nodes)) as [A B];
    [rewrite TS0, N.mul_0_r; reflexivity|]. cbn zeta in *.
  split; [intros H; rewrite (A H), TS0, N.mul_0_r; reflexivity|].
  intros v Hv. destruct (B v Hv) as (k & p & w & Hk & Hs).
  assert (p = None). { apply nth_error_In, in_map_iff in Hk. destruct Hk as (x & Hx & _). congruence. } subst p.
  destruct Hs as (j & s & ->). cbn [v_now view_at]. rewrite TS, N.mul_0_r. reflexivity.
Qed.
Print Assumptions C90_frozen_refuted.
(** Two nodes that talk to each other. *)
Definition loop_nodes : list vnode :=
  [VNode (GNode [1%nat] [2%nat] 0) None None None None; VNode (GNode [2%nat] [1%nat] 0) None None None None].
Example C90_ex_loop : on_cycle (depends (map vn_graph loop_nodes)) 0.
Proof.
  apply t_trans with 1%nat; apply t_step; (split; [discriminate|]); (split; [cbn; lia|]); (split; [cbn; lia|]);
    [exists 1%nat|exists 2%nat]; cbn; auto.
Qed.

(** Refuted: the [dt()]s a node integrates add up to the time that passes.  A node with its own rate is ticked on
    every tick in deterministic mode, and still told its own period. *)
Theorem C90_dt_sum_refuted :
  forall period lim hash rate machine,
    0 < period -> (0 < length machine)%nat -> period * N.of_nat (length machine) < 18446744073709551616 ->
    rate <> period ->
    let nodes := [VNode (GNode [] [] 0) (Some rate) None None None] in
    let r := vrun true period lim hash nodes calm (map (fun w => (plan_of nodes, w)) machine) (vinit nodes) in
    vc_now (fst (fst r)) = period * N.of_nat (length machine) /\
    dt_sum 0 (snd (fst r)) = rate * N.of_nat (length machine) /\
    dt_sum 0 (snd (fst r)) <> vc_now (fst (fst r)).
Proof.
  intros period lim hash rate machine Pp Lm Hb Ne nodes r.
  assert (P : plan_of nodes = Some [[O]]) by reflexivity. subst r. rewrite P.
  assert (NW : forall n, In n nodes -> no_waiting n) by (intros n [<-|[]]; split; [reflexivity|left; reflexivity]).
  assert (TS : forall ms, total_steps (map (fun w : wall => (Some [[O]] : plan, w)) ms) = N.of_nat (length ms)).
  { induction ms as [|m ms IH]; [reflexivity|]. cbn [map total_steps steps_in length]. rewrite IH. lia. }
  pose proof (vrun_calm period lim hash nodes calm true (map (fun w => (Some [[O]] : plan, w)) machine) ltac:(reflexivity) (vinit nodes)) as St.
  destruct (vrun true period lim hash nodes calm (map (fun w => (Some [[O]] : plan, w)) machine) (vinit nodes)) as [[g vs] b] eqn:E.
  cbn [snd fst] in *. subst b.
  pose proof (C90_elapsed _ _ _ _ _ _ _ _ E) as El. rewrite TS in El. specialize (El Hb).
  pose proof (C90_order _ _ _ _ _ _ _ _ NW E) as Or.
  assert (Or2 : map v_node vs = repeat O (length machine)).
  { rewrite Or. clear. induction machine as [|m ms IH]; [reflexivity|]. cbn [map flat_map fst concat app length repeat] in *. rewrite IH. reflexivity. }
  assert (V := C90_views _ _ _ _ _ _ _ _ _ E). rewrite TS in V. destruct (V Hb) as [V1 _].
  assert (S : dt_sum O vs = rate * N.of_nat (length machine)).
  { assert (L : length vs = length machine) by (rewrite <- (map_length v_node), Or2, repeat_length; auto).
    rewrite <- L. assert (AD : forall v, In v vs -> v_node v = O /\ v_dt v = rate).
    { intros v Hv. assert (Z : v_node v = O).
      { apply (in_map v_node) in Hv. rewrite Or2 in Hv. apply repeat_spec in Hv. auto. }
      split; [auto|]. destruct (V1 v Hv) as (_ & D & _). rewrite Z in D. exact D. }
    clear - AD. induction vs as [|v vs IH]; [cbn; lia|].
    unfold dt_sum, of_node in *. cbn [filter]. destruct (AD v (or_introl eq_refl)) as [Z D]. rewrite Z. cbn [Nat.eqb map fold_right length].
    rewrite D, IH by (intros; apply AD; right; auto). lia. }
  split; [auto|]. split; [auto|]. rewrite S, El. nia.
Qed.
Print Assumptions C90_dt_sum_refuted.
Example C90_ex_dt_sum : 0 < 5000000 /\ (0 < length [quick; slow])%nat /\ 100000000 <> 5000000.
Proof. split; [reflexivity|]. split; [cbn; lia|discriminate]. Qed.

(** C90: random numbers.  The seed of a tick depends on the node's name and tick number only, in either mode, and one
    node never gets the same seed for two of its ticks. *)
Theorem C90_seeds :
  forall det period lim hash nodes prog ticks g vs stop,
    vrun det period lim hash nodes prog ticks (vinit nodes) = (g, vs, stop) ->
    (forall v, In v vs -> v_seed v = seed_of (hash (v_node v)) (v_tick v)) /\
    (forall v v', In v vs -> In v' vs -> v_node v = v_node v' -> v_tick v < 18446744073709551616 -> v_tick v' < 18446744073709551616 ->
       v_seed v = v_seed v' -> v_tick v = v_tick v').
Proof.
  intros det period lim hash nodes prog ticks g vs stop E.
  assert (A : forall v, In v vs -> v_seed v = seed_of (hash (v_node v)) (v_tick v)).
  { intros v Hv. destruct (vrun_views period lim hash nodes prog det ticks (vinit nodes) v) as (i & now & s & ->); [rewrite E; exact Hv|]. reflexivity. }
  split; [auto|]. intros v v' H H' En B B' Es. rewrite (A v H), (A v' H'), En in Es. eapply seed_inj; eauto.
Qed.
Print Assumptions C90_seeds.

(** Refuted: "normal mode: system entropy".  Two normal-mode runs of the same node, on any two machines, draw from the
    same seeds, tick for tick. *)
Theorem C90_normal_entropy_refuted :
  forall period lim hash nodes prog prog' ticks ticks' g g' vs vs' stop stop' v v',
    vrun false period lim hash nodes prog ticks (vinit nodes) = (g, vs, stop) ->
    vrun false period lim hash nodes prog' ticks' (vinit nodes) = (g', vs', stop') ->
    In v vs -> In v' vs' -> v_node v = v_node v' -> v_tick v = v_tick v' -> v_seed v = v_seed v'.
Proof.
  intros period lim hash nodes prog prog' ticks ticks' g g' vs vs' stop stop' v v' E E' H H' En Et.
  destruct (C90_seeds _ _ _ _ _ _ _ _ _ _ E) as [A _]. destruct (C90_seeds _ _ _ _ _ _ _ _ _ _ E') as [A' _].
  rewrite (A v H), (A' v' H'), En, Et. reflexivity.
Qed.
Print Assumptions C90_normal_entropy_refuted.
Example C90_ex_seeds :
  map v_seed (snd (fst (vrun false 10 1000 (fun i => N.of_nat i) pair_nodes calm [(plan_of pair_nodes, quick); (plan_of pair_nodes, slow)] (vinit pair_nodes))))
  = [0; 1; 5871781006564002453; 5871781006564002454].
Proof. reflexivity. Qed.

(** C91: a run with a duration ends after the number of ticks that covers the duration, each tick counting as many
    periods as it has steps. *)
Theorem C91_run_for :
  forall period lim hash nodes prog steps machine duration n fuel,
    (forall v, prog v = false) -> 0 < period -> steps <> [] -> plan_of nodes = Some steps ->
    duration + period * N.of_nat (length steps) < 18446744073709551616 ->
    covers n (period * N.of_nat (length steps)) duration -> (n < fuel)%nat ->
    run_for true period lim hash nodes prog fuel 0 duration (plan_of nodes) machine 0 (vinit nodes) = Some n.
Proof.
  intros period lim hash nodes prog steps machine duration n fuel C Pp Ns P Hb Cov Hf. rewrite P.
  apply (run_for_exact period lim hash nodes prog steps duration 0 machine C) with (m := n) (k := O); auto.
  - destruct steps; [congruence|]. cbn [length]. nia.
  - destruct n as [|n]; [left; auto|right]. destruct Cov as [_ [X|X]]; [discriminate|]. lia.
Qed.
Print Assumptions C91_run_for.
Example C91_ex : (* 200 ms at 100 Hz: ten ticks, not twenty *)
  covers 10 (10000000 * N.of_nat (length [[0]; [1]]%nat)) 200000000 /\ covers 20 10000000 200000000 /\
  run_for true 10000000 0 (fun _ => 0) pair_nodes calm 30 0 200000000 (plan_of pair_nodes) (fun _ => quick) 0 (vinit pair_nodes) = Some 10%nat.
Proof.
  split; [split; [cbn; lia|right; cbn; lia]|]. split; [split; [cbn; lia|right; cbn; lia]|]. reflexivity.
Qed.

(** Refuted: the number of ticks is the duration divided by the period.  Whenever the plan has two or more steps and
    the duration exceeds one period, there are fewer. *)
Theorem C91_short_refuted :
  forall period lim hash nodes prog steps machine duration promised fuel,
    (forall v, prog v = false) -> 0 < period -> (2 <= length steps)%nat -> plan_of nodes = Some steps ->
    duration + period * N.of_nat (length steps) < 18446744073709551616 ->
    period < duration -> covers promised period duration -> (promised < fuel)%nat ->
    exists n, run_for true period lim hash nodes prog fuel 0 duration (plan_of nodes) machine 0 (vinit nodes) = Some n /\
      (n < promised)%nat.
Proof.
  intros period lim hash nodes prog steps machine duration promised fuel C Pp L2 P Hb Lt Cov Hf.
  set (q := period * N.of_nat (length steps)).
  set (n := N.to_nat ((duration + q - 1) / q)).
  assert (Qp : 2 * period <= q) by (unfold q; nia).
  assert (Cn : covers n q duration).
  { unfold n. unfold covers. rewrite N2Nat.id. pose proof (N.div_mod (duration + q - 1) q ltac:(lia)) as D.
    pose proof (N.mod_lt (duration + q - 1) q ltac:(lia)) as M.
    set (d := (duration + q - 1) / q) in *. set (m := (duration + q - 1) mod q) in *.
    split; [nia|]. right. replace (N.of_nat (N.to_nat d - 1)) with (d - 1) by lia. nia. }
  assert (Np : (n < promised)%nat).
  { destruct Cn as [C1 C2], Cov as [P1 P2]. destruct C2 as [C2|C2]; [destruct P2; nia|].
    destruct (Nat.lt_ge_cases n promised) as [|G]; [auto|exfalso].
    assert (2 <= promised)%nat by nia. assert (N.of_nat promised <= N.of_nat n) by lia.
    assert (N.of_nat (n - 1) * q < N.of_nat promised * period) by lia.
    assert (N.of_nat (n - 1) = N.of_nat n - 1) by lia. nia. }
  exists n. split; [|exact Np]. eapply C91_run_for; eauto; [destruct steps; [cbn in L2; lia|discriminate]|lia].
Qed.
Print Assumptions C91_short_refuted.

(** Refuted: a run with a duration ends.  With a circular dependency (or no nodes at all) it never does. *)
Theorem C91_never_ends_refuted :
  forall period lim hash nodes prog machine duration fuel,
    (forall v, prog v = false) -> 0 < duration ->
    (nodes = [] \/ exists i, on_cycle (depends (map vn_graph nodes)) i) ->
    run_for true period lim hash nodes prog fuel 0 duration (plan_of nodes) machine 0 (vinit nodes) = None.
Proof.
  intros period lim hash nodes prog machine duration fuel C Dp H.
  apply run_for_stuck; auto; [|reflexivity].
  destruct H as [->|(i & Cy)]; [reflexivity|].
  assert (T : topics_declared (map vn_graph nodes)).
  { apply clos_trans_t1n in Cy. assert (D : exists j, depends (map vn_graph nodes) i j) by (inversion Cy; eauto).
    destruct D as (j & _ & Lp & _ & topic & Hp & _). exists (nth_node (map vn_graph nodes) i). split; [apply nth_In; auto|].
    left. intros X. rewrite X in Hp. destruct Hp. }
  pose proof (C34_order_respects_topics _ T) as O. unfold plan_of.
  destruct (graph_build (map vn_graph nodes)) as [steps| |]; auto.
  destruct O as (_ & _ & _ & A). destruct (A i Cy).
Qed.
Print Assumptions C91_never_ends_refuted.

(** C92: an anytime loop guarded by [budget_remaining()] ends, at the latest at the first test after the clock has
    eaten the budget down to the margin. *)
Theorem C92_anytime_partial :
  forall budget start margin clock n fuel,
    budget - (clock n - start) < margin -> (n < fuel)%nat ->
    exists k, anytime fuel (Some budget) start margin clock 0 = Some (S k) /\ (k <= n)%nat.
Proof. intros budget start margin clock n fuel H Hf. apply anytime_ends with (n := n); auto; lia. Qed.
Print Assumptions C92_anytime_partial.
Example C92_ex : anytime 10 (Some 800) 1000 50 (fun j => 1000 + 200 * N.of_nat j) 0 = Some 5%nat.
Proof. reflexivity. Qed.

(** Refuted in deterministic mode: during a tick the clock reads the same every time ([v_now]), so the whole budget
    remains forever and the loop never ends — for any node with a budget that is at least the margin. *)
Theorem C92_never_ends_refuted :
  forall period lim hash nodes prog ticks g vs stop v budget margin fuel,
    vrun true period lim hash nodes prog ticks (vinit nodes) = (g, vs, stop) ->
    In v vs -> v_budget v = Some budget -> margin <= budget ->
    anytime fuel (v_budget v) (v_now v) margin (fun _ => v_now v) 0 = None.
Proof. intros period lim hash nodes prog ticks g vs stop v budget margin fuel _ _ B M. rewrite B. apply anytime_frozen. auto. Qed.
Print Assumptions C92_never_ends_refuted.
Example C92_ex_frozen :
  map v_budget (snd (fst (vrun true 10 1000 (fun _ => 0) pair_nodes calm [(plan_of pair_nodes, quick)] (vinit pair_nodes)))) = [None; Some 100].
Proof. reflexivity. Qed.

(** C93: real-time nodes never share a thread: whatever the dependency graph, and in whatever order a hash map lists
    the chains, every one gets a thread of its own. *)
Theorem C93_own_thread :
  forall perm has_graph rt, (forall l, Permutation (perm l) l) ->
    rt_threads perm has_graph rt = map (fun x => [x]) rt.
Proof. exact rt_threads_single. Qed.
Print Assumptions C93_own_thread.
Example C93_ex : rt_threads (@rev nat) true [4; 7; 9]%nat = [[4]; [7]; [9]]%nat /\ forall l : list nat, Permutation (rev l) l.
Proof. split; [reflexivity|]. intros l. apply Permutation_sym, Permutation_rev. Qed.

(** Refuted: "nodes with dependencies are grouped into chains (sequential on the same thread)".  For every two
    real-time nodes, dependent or not, some scheduling of the threads runs the second before the first in a cycle in
    which every node runs once. *)
Theorem C93_dependent_order_refuted :
  forall perm has_graph rt a b, (forall l, Permutation (perm l) l) -> NoDup rt -> In a rt -> In b rt -> a <> b ->
    exists schedule, Permutation schedule (seq 0 (length rt)) /\
      precedes b a (rt_cycle (rt_threads perm has_graph rt) schedule).
Proof.
  intros perm has_graph rt a b P ND Ha Hb Ne.
  destruct (In_nth rt a O Ha) as (x & Hx & Ea). destruct (In_nth rt b O Hb) as (y & Hy & Eb).
  assert (Nxy : x <> y) by (intros ->; congruence).
  set (rest := filter (fun z => negb (z =? x) && negb (z =? y))%nat (seq 0 (length rt))).
  exists (y :: x :: rest). assert (Pm : Permutation (y :: x :: rest) (seq 0 (length rt))).
  { apply NoDup_Permutation.
    - constructor.
      + intros [H|H]; [congruence|]. unfold rest in H. apply filter_In in H. destruct H as [_ H].
        rewrite Nat.eqb_refl, andb_false_r in H. discriminate.
      + constructor; [|apply NoDup_filter, seq_NoDup].
        intros H. unfold rest in H. apply filter_In in H. destruct H as [_ H]. rewrite Nat.eqb_refl in H. discriminate.
    - apply seq_NoDup.
    - intros z. rewrite in_seq. split.
      + intros [<-|[<-|H]]; [lia|lia|]. unfold rest in H. apply filter_In in H. destruct H as [H _]. apply in_seq in H. lia.
      + intros H. destruct (Nat.eq_dec z y) as [->|N1]; [left; auto|]. destruct (Nat.eq_dec z x) as [->|N2]; [right; left; auto|].
        right; right. apply filter_In. split; [apply in_seq; lia|].
        apply Nat.eqb_neq in N1, N2. rewrite N1, N2. reflexivity. }
  split; [exact Pm|]. rewrite rt_threads_single by auto. rewrite rt_cycle_single.
  - exists [], [], (map (fun t => nth t rt O) rest). cbn. rewrite Ea, Eb. reflexivity.
  - intros t Ht. apply (Permutation_in _ Pm) in Ht. apply in_seq in Ht. lia.
Qed.
Print Assumptions C93_dependent_order_refuted.
Example C93_ex_hyp : NoDup [4; 7; 9]%nat /\ In 4%nat [4; 7; 9]%nat /\ In 9%nat [4; 7; 9]%nat /\ 4%nat <> 9%nat.
Proof.
  split; [repeat (constructor; [cbn; lia|]); constructor|]. split; [cbn; auto|]. split; [cbn; auto|lia].
Qed.

(** C90: a run stops early exactly when a tick panics in a node with the fatal policy, and then that tick is its last. *)
Theorem C90_fatal :
  forall det period lim hash nodes prog ticks g vs stop,
    (forall n, In n nodes -> no_waiting n) ->
    vrun det period lim hash nodes prog ticks (vinit nodes) = (g, vs, stop) ->
    (stop = true <-> exists v, In v vs /\ fatal_tick nodes prog v) /\
    (forall before v after, vs = before ++ v :: after -> fatal_tick nodes prog v -> after = []).
Proof.
  intros det period lim hash nodes prog ticks g vs stop NW E.
  assert (H : handlers nodes (vinit nodes)) by (intros i; reflexivity).
  pose proof (vrun_ends det period lim hash nodes prog ticks NW (vinit nodes) H) as X. cbn zeta in X. rewrite E in X. cbn [fst snd] in X. destruct X as [_ X]. unfold ends in X. destruct stop.
  - destruct X as (b & v & -> & F & N). rewrite Forall_forall in N. split.
    + split; [|auto]. intros _. exists v. split; [apply in_or_app; right; left; reflexivity|exact F].
    + intros before u after Q Fu. destruct after as [|x after _] using rev_ind; [reflexivity|]. exfalso.
      assert (Q' : b ++ [v] = (before ++ u :: after) ++ [x]) by (rewrite Q, <- app_assoc; reflexivity). apply app_inj_tail in Q' as [Qb _].
      apply (N u); [|exact Fu]. rewrite Qb. apply in_or_app. right. left. reflexivity.
  - rewrite Forall_forall in X. split.
    + split; [discriminate|]. intros (v & I & F). destruct (X v I F).
    + intros before u after -> Fu. exfalso. apply (X u); [apply in_or_app; right; left; reflexivity|exact Fu].
Qed.
Print Assumptions C90_fatal.
(** The second node panics in its second tick. *)
Example C90_ex_fatal : let prog v := Nat.eqb (v_node v) 1 && (v_tick v =? 1) in
  let r := vrun true 10 1000 (fun _ => 0) pair_nodes prog [(plan_of pair_nodes, quick); (plan_of pair_nodes, slow); (plan_of pair_nodes, quick)] (vinit pair_nodes) in
  snd r = true /\ map v_node (snd (fst r)) = [0; 1; 0; 1]%nat.
Proof. split; reflexivity. Qed.

(** C90: without a usable graph the nodes run in the order of their numbers, and of their registration among equals. *)
Theorem C90_by_number :
  forall nodes, Permutation (by_order nodes) (seq 0 (length nodes)) /\
    forall i j, precedes i j (by_order nodes) ->
      (g_order (vn_graph (vnth nodes i)) < g_order (vn_graph (vnth nodes j)))%nat \/
      (g_order (vn_graph (vnth nodes i)) = g_order (vn_graph (vnth nodes j)) /\ (i < j)%nat).
Proof.
  intros nodes. destruct (by_order_spec nodes) as [P S]. split; [exact P|]. intros i j (l1 & l2 & l3 & E). rewrite E in S. clear - S.
  induction l1 as [|x l1 IH]; cbn [app] in S; apply StronglySorted_inv in S as [S F]; [|auto].
  rewrite Forall_forall in F. apply F. apply in_or_app. right. left. reflexivity.
Qed.
Print Assumptions C90_by_number.
Example C90_ex_by_number : by_order [VNode (GNode [] [] 5) None None None None; VNode (GNode [] [] 1) None None None None; VNode (GNode [] [] 5) None None None None] = [1; 0; 2]%nat.
Proof. reflexivity. Qed.

(** C90: outside deterministic mode a node with a rate ticks again exactly when its period has passed since its last tick. *)
Theorem C90_rate :
  forall period lim hash rate budget prog t1 t2 l1 l2 a1 a2,
    let nodes := [VNode (GNode [] [] 0) (Some rate) budget None None] in
    let r := vrun false period lim hash nodes prog [(plan_of nodes, fun _ => Turn t1 l1 a1); (plan_of nodes, fun _ => Turn t2 l2 a2)] (vinit nodes) in
    snd r = false /\ (length (snd (fst r)) = 2%nat <-> rate <= t2 - t1) /\ (length (snd (fst r)) = 1%nat <-> t2 - t1 < rate).
Proof.
  intros period lim hash rate budget prog t1 t2 l1 l2 a1 a2 nodes r. subst r.
  assert (P : plan_of nodes = Some [[O]]) by reflexivity. rewrite P.
  assert (X : forall g t l a c last, vc_nodes g 0%nat = VSt c None false last ->
    let go := match last with Some u => rate <=? t - u | None => true end in
    let e := exec_node false period lim hash nodes prog (fun _ => Turn t l a) 0 g in
    snd e = false /\ (length (snd (fst e)) = if go then 1 else 0)%nat /\ (go = true -> vc_nodes (fst (fst e)) 0%nat = VSt (c + 1) None false (Some t))).
  { intros g t l a c last G go e. subst e. unfold exec_node, vgate. rewrite G. cbn [negb vs_handler vs_skip vs_last vnth nodes nth vn_rate w_gate].
    destruct last as [u|]; subst go; [destruct (rate <=? t - u)|]; unfold vfinish; cbn [vnth nodes nth vn_rate vn_deadline vs_handler option_map w_gate vs_count]; try destruct (prog _); cbn; repeat split; auto; discriminate. }
  cbn [vrun vtick exec_steps exec_list].
  pose proof (X (vinit nodes) t1 l1 a1 0 None eq_refl) as X1. cbn zeta in X1. destruct (exec_node _ _ _ _ _ _ _ _ (vinit nodes)) as [[g1 v1] s1]. cbn [fst snd] in X1. destruct X1 as (-> & L1 & G1).
  cbn [advance]. pose proof (X g1 t2 l2 a2 _ _ (G1 eq_refl)) as X2. cbn zeta in X2. destruct (exec_node _ _ _ _ _ _ _ _ g1) as [[g2 v2] s2]. cbn [fst snd] in X2. destruct X2 as (-> & L2 & _).
  cbn [fst snd]. rewrite !app_nil_r, app_length, L1, L2. destruct (N.leb_spec rate (t2 - t1)); cbn [Nat.add]; repeat split; intros; try lia; try discriminate; reflexivity.
Qed.
Print Assumptions C90_rate.

(** C91: a run with a duration ends after [n] ticks for one of two reasons, a fatal failure in the last of them or the
    duration, and none of them held any earlier. *)
Theorem C91_ended :
  forall det period lim hash nodes prog p machine duration fuel n,
    run_for det period lim hash nodes prog fuel 0 duration p machine 0 (vinit nodes) = Some n ->
    let after k := vrun det period lim hash nodes prog (map (fun j => (p, machine j)) (seq 0 k)) (vinit nodes) in
    (snd (after n) = true \/ duration <= vc_now (fst (fst (after n)))) /\
    forall k, (k < n)%nat -> snd (after k) = false /\ vc_now (fst (fst (after k))) < duration.
Proof.
  intros det period lim hash nodes prog p machine duration fuel n H. cbn zeta.
  apply run_for_ticks in H as (m & -> & A & B). cbn [Nat.add]. unfold time_up in *. cbn zeta in A, B. split.
  - destruct B as [B|B]; [left; exact B|right]. apply N.leb_le in B. lia.
  - intros k Hk. destruct (A k Hk) as [A1 A2]. split; [exact A1|]. apply N.leb_gt in A2. lia.
Qed.
Print Assumptions C91_ended.
Example C91_ex_ended : let prog v := Nat.eqb (v_node v) 1 && (v_tick v =? 2) in
  run_for true 10 0 (fun _ => 0) pair_nodes prog 30 0 200 (plan_of pair_nodes) (fun _ => quick) 0 (vinit pair_nodes) = Some 3%nat.
Proof. reflexivity. Qed.
