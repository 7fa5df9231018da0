(** C34, C50: execution order. *)
From Verif.Base Require Import Prelude.
From Coq Require Import Relations Permutation.
From Verif.Model Require Import DepGraph.
From Verif.Spec Require Import DepGraphSpec.
From Verif.Proofs Require Import DepGraphProofs.

Lemma declared nodes : topics_declared nodes <-> has_metadata nodes = true.
Proof.
  unfold topics_declared, has_metadata. rewrite existsb_exists. split; intros (x & Hx & H); exists x; (split; [auto|]).
  - destruct (g_pubs x), (g_subs x); cbn; auto. destruct H; congruence.
  - destruct (g_pubs x), (g_subs x); cbn in H; auto; try discriminate; [right|left|left]; discriminate.
Qed.
Lemma undeclared nodes : no_topics nodes <-> has_metadata nodes = false.
Proof.
  split.
  - intros H. apply not_true_is_false. intros E. apply declared in E. destruct E as (x & Hx & E). destruct (H x Hx), E; auto.
  - intros H x Hx. destruct (g_pubs x) eqn:P, (g_subs x) eqn:S; auto; exfalso;
      (assert (has_metadata nodes = true) as E; [apply declared; exists x; split; auto; rewrite P, S; auto|congruence]);
      solve [left; discriminate|right; discriminate].
Qed.

(** C34: when nodes declare topics, either the steps contain every node exactly once, each producer in a step
    before each of its consumers and no node later than necessary; or the dependencies are circular, every node
    on a cycle is named, and the order is refused.  It never panics. *)
Theorem C34_order_respects_topics :
  forall nodes, topics_declared nodes ->
    match graph_build nodes with
    | GSteps steps =>
        Permutation (concat steps) (seq 0 (length nodes)) /\
        (forall p i, depends nodes p i -> exists a b, in_step steps a p /\ in_step steps b i /\ a < b) /\
        (forall a i, in_step steps (S a) i -> exists p, depends nodes p i /\ in_step steps a p) /\
        acyclic (depends nodes)
    | GCycle involved =>
        (exists i, on_cycle (depends nodes) i) /\ (forall i, on_cycle (depends nodes) i -> In i involved)
    | GPanic => False
    end.
Proof. intros nodes H. apply build_correct, declared, H. Qed.
Print Assumptions C34_order_respects_topics.
Example C34_ex : (* imu -> balance -> motor, camera -> slam -> balance *)
  graph_build [GNode [] [5] 0; GNode [1] [] 0; GNode [5] [1; 4] 0; GNode [3] [] 0; GNode [4] [3] 0] = GSteps [[1; 3]; [4]; [2]; [0]] /\
  graph_build [GNode [1] [2] 0; GNode [2] [1] 0; GNode [] [2] 0; GNode [7] [] 0] = GCycle [0; 1; 2].
Proof. split; reflexivity. Qed.

(** The sort on its own, for any edge lists (repetitions and self-loops included). *)
Theorem C34_sort_any_graph :
  forall e n, (forall p i, p < n -> In i (e p) -> i < n) ->
    match parallel_sort e n with
    | GSteps steps =>
        Permutation (concat steps) (seq 0 n) /\
        (forall p i, edge e n p i -> exists a b, in_step steps a p /\ in_step steps b i /\ a < b) /\
        acyclic (edge e n)
    | GCycle involved => (exists i, on_cycle (edge e n) i) /\ (forall i, on_cycle (edge e n) i -> In i involved)
    | GPanic => False
    end.
Proof. exact sort_correct. Qed.
Print Assumptions C34_sort_any_graph.
Example C34_sort_ex : forall p i, p < 3 -> In i ((fun x => if x =? 0 then [1; 1; 2] else []) p) -> i < 3.
Proof. intros p i _. cbn. destruct (p =? 0); cbn; lia. Qed.

(** Without topics, steps follow [.order()]: every node exactly once, and one node runs in an earlier step than
    another exactly if its order is lower. *)
Theorem C34_order_tiers :
  forall nodes, no_topics nodes ->
    exists steps, graph_build nodes = GSteps steps /\
      Permutation (concat steps) (seq 0 (length nodes)) /\
      (forall i j a b, in_step steps a i -> in_step steps b j -> (a < b <-> g_order (nth_node nodes i) < g_order (nth_node nodes j))).
Proof. intros nodes H. apply order_tiers, undeclared, H. Qed.
Print Assumptions C34_order_tiers.
Example C34_tiers_ex : graph_build [GNode [] [] 10; GNode [] [] 0; GNode [] [] 10] = GSteps [[1]; [0; 2]].
Proof. reflexivity. Qed.

(** C50: parallel dispatch, under every interleaving of any number of workers and whichever nodes are skipped in
    this cycle: only nodes due in this cycle tick, each at most once, and none before the tick of every due node
    it directly depends on is over. *)
Theorem C50_dispatch_order :
  forall n succ should_tick workers schedule, (forall p i, p < n -> In i (succ p) -> i < n) ->
    let log := ds_log (dispatch_run n succ should_tick (dispatch_init n succ should_tick workers) schedule) in
    NoDup log /\
    (forall i, In (EStart i) log -> i < n /\ should_tick i = true) /\
    (forall p i, p < n -> In i (succ p) -> should_tick p = true -> In (EStart i) log -> precedes (EEnd p) (EStart i) log) /\
    (forall i, In (EEnd i) log -> precedes (EStart i) (EEnd i) log).
Proof. exact dispatch_order. Qed.
Print Assumptions C50_dispatch_order.

(** ... and it always gets done: as long as a due node has not been completed some worker has something to do, no
    run does more than a fixed number of actions, and at the end every due node has ticked. *)
Theorem C50_dispatch_completes :
  forall n succ should_tick workers schedule, (forall p i, p < n -> In i (succ p) -> i < n) ->
    acyclic (edge succ n) -> 0 < workers ->
    let st := dispatch_run n succ should_tick (dispatch_init n succ should_tick workers) schedule in
    (ds_completed st < length (ticking n should_tick) -> exists w, can_move n should_tick st w = true) /\
    (length (ticking n should_tick) <= ds_completed st -> forall i, i < n -> should_tick i = true -> In (EEnd i) (ds_log st)).
Proof. exact dispatch_completes. Qed.
Theorem C50_dispatch_bounded :
  forall n succ should_tick workers schedule, (forall p i, p < n -> In i (succ p) -> i < n) ->
    (forall k w, nth_error schedule k = Some w ->
       can_move n should_tick (dispatch_run n succ should_tick (dispatch_init n succ should_tick workers) (firstn k schedule)) w = true) ->
    length schedule <= list_sum (map (fun i => 3 + length (succ i)) (ticking n should_tick)).
Proof. exact dispatch_bounded. Qed.
Print Assumptions C50_dispatch_completes.
Print Assumptions C50_dispatch_bounded.
Example C50_ex :
  let succ := graph_edges [GNode [1] [] 0; GNode [2] [1] 0; GNode [] [1; 2] 0] in
  let st := dispatch_run 3 succ (fun _ => true) (dispatch_init 3 succ (fun _ => true) 2) [0; 1; 0; 0; 0; 1; 0; 1; 1; 1; 0; 0; 0] in
  acyclic (edge succ 3) /\ ds_log st = [EStart 0; EEnd 0; EStart 1; EEnd 1; EStart 2; EEnd 2] /\ ds_completed st = 3.
Proof.
  cbn zeta. split; [|split; reflexivity].
  pose proof (C34_sort_any_graph (graph_edges [GNode [1] [] 0; GNode [2] [1] 0; GNode [] [1; 2] 0]) 3) as H.
  vm_compute (parallel_sort _ _) in H. apply H. intros p i Hp. destruct p as [|[|[|p]]]; cbn; lia.
Qed.

(** The graphs the scheduler passes to the dispatcher meet the hypothesis. *)
Theorem C50_graph_edges_in_range : forall nodes p i, p < length nodes -> In i (graph_edges nodes p) -> i < length nodes.
Proof. exact graph_edges_range. Qed.
Print Assumptions C50_graph_edges_in_range.

(** What is missing: order through a node that is skipped.  Three nodes with orders 0, 1, 2; the middle one is not
    due in this cycle (a lower rate, say); then the last one starts while the first is still running. *)
Theorem C50_order_through_skipped_refuted :
  exists nodes should_tick schedule,
    no_topics nodes /\ g_order (nth_node nodes 0) < g_order (nth_node nodes 2) /\
    should_tick 0 = true /\ should_tick 2 = true /\
    let log := ds_log (dispatch_run 3 (graph_edges nodes) should_tick (dispatch_init 3 (graph_edges nodes) should_tick 2) schedule) in
    precedes (EStart 2) (EEnd 0) log.
Proof. destruct order_through_skipped as (nodes & st & sc & H & R). exists nodes, st, sc. split; [apply undeclared, H|exact R]. Qed.
Print Assumptions C50_order_through_skipped_refuted.

(** With every node due, the order values are respected. *)
Theorem C50_tiers_all_due :
  forall nodes workers schedule i j, no_topics nodes -> i < length nodes -> j < length nodes ->
    g_order (nth_node nodes i) < g_order (nth_node nodes j) ->
    let log := ds_log (dispatch_run (length nodes) (graph_edges nodes) (fun _ => true) (dispatch_init (length nodes) (graph_edges nodes) (fun _ => true) workers) schedule) in
    In (EStart j) log -> precedes (EEnd i) (EStart j) log.
Proof. intros nodes w sc i j H. apply tiers_all_due, undeclared, H. Qed.
Print Assumptions C50_tiers_all_due.
