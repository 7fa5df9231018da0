(** Deterministic mode: virtual time, what a node sees during its tick, and how long a timed run lasts.
    Models horus_core/src/core/clock.rs, core/tick_context.rs and the deterministic paths of
    scheduling/scheduler/mod.rs.  Times are nanoseconds; nodes are indices in the order they were added. *)
From Verif Require Import Base.Prelude Model.DepGraph Model.FailurePolicy.
Local Open Scope N_scope.

(** u64 wrap-around: [SimClock::advance] is a [fetch_add], clock.rs:172-176. *)
Definition w64 (x : N) : N := x mod 18446744073709551616.

(** The configuration of a node that matters here: topics and order (for the graph), [1/rate] if a rate is set, the
    tick budget, the failure policy, and the deadline of an RT node whose miss policy is [Miss::Skip].  Not modelled
    in this file: the other miss policies, the degradation ladder, freshness checks, the watchdog and operator
    commands. *)
Record vnode := VNode { vn_graph : gnode; vn_rate : option N; vn_budget : option N; vn_policy : option policy;
                        vn_deadline : option N }.

(** Per-node state: [total_ticks] (core/node.rs:428, 465: every finished tick, failed or not, counts), the failure
    handler, [is_paused], and [last_tick]. *)
Record vst := VSt { vs_count : N; vs_handler : option hstate; vs_skip : bool; vs_last : option N }.

(** What [set_tick_context] makes readable during one tick (tick_context.rs:64-105), with [horus::now()] as it
    reads when the tick starts: node, [tick()], [now()], [elapsed()], [dt()], the budget, and the seed of [rng()]. *)
Record view := View { v_node : nat; v_tick : N; v_now : N; v_elapsed : N; v_dt : N; v_budget : option N; v_seed : N }.

(** What the machine contributes to one node's turn: the wall-clock time at which it is gated, how late its tick ends
    relative to its start, and the wall-clock time at which a failure is recorded. *)
Record turn := Turn { w_gate : N; w_late : N; w_after : N }.
(** One tick's worth of it, node by node. *)
Definition wall := nat -> turn.

(** [deterministic_seed], tick_context.rs:219-228; [h] is the hash of the node's name. *)
Definition seed_of (h tick : N) : N := w64 (tick * 5871781006564002453 + h).

(** Scheduler state: the clock and the nodes' states. *)
Record vsched := VS { vc_now : N; vc_nodes : nat -> vst }.

Section Run.
  (** [det] is [deterministic_order]; [period] is [tick.period]; [hash] is the hash of each node's name; [prog] is the
      user's code: does the tick that sees this view panic?  [lim] is the largest instant (see [h_failure]). *)
  Variables (det : bool) (period lim : N) (hash : nat -> N) (nodes : list vnode) (prog : view -> bool).

  (** Auxiliary: [nodes[i]]. *)
  Definition vnth (i : nat) : vnode := nth i nodes (VNode (GNode [] [] 0) None None None None).

  (** At registration: no ticks, a fresh handler. *)
  Definition vinit : vsched :=
    VS 0 (fun i => VSt 0 (option_map h_new (vn_policy (vnth i))) false None).

  (** [should_tick_node], mod.rs:4165-4253: failure policy, one-tick skip, rate limiting.  The health gate, operator
      pause and filters are in Model/ExecLoop.v.  In deterministic mode the rate is not looked at (4240-4250). *)
  Definition vgate (i : nat) (w : turn) (s : vst) : bool * vst :=
    if negb (match vs_handler s with None => true | Some h => h_allow h (w_gate w) end) then (false, s)
    else if vs_skip s then (false, VSt (vs_count s) (vs_handler s) false (vs_last s))
    else
      match (if det then None else vn_rate (vnth i)), vs_last s with
      | Some r, Some t => (r <=? w_gate w - t, s)
      | _, _ => (true, s)
      end.

  (** The context of [run_node_tick], mod.rs:4364-4387. *)
  Definition view_at (i : nat) (now : N) (s : vst) : view :=
    View i (vs_count s) now now (match vn_rate (vnth i) with Some r => r | None => period end)
         (vn_budget (vnth i)) (seed_of (hash i) (vs_count s)).

  (** [prepare_node_tick] (last_tick, 4259-4263), [check_timing_violations] (Miss::Skip sets [is_paused]) and the end
      of the tick ([record_tick], [record_tick_failure], the policy), mod.rs:4478-4650, 4972-5036.  The flag is true
      when the scheduler must stop; a policy that itself panics stops it too. *)
  Definition vfinish (i : nat) (w : turn) (v : view) (s : vst) : vst * bool :=
    let last := match vn_rate (vnth i) with Some _ => Some (w_gate w) | None => vs_last s end in
    let skip := match vn_deadline (vnth i) with Some d => d <? w_late w | None => false end in
    if prog v then
      match vs_handler s with
      | None => (VSt (vs_count s + 1) None skip last, false)
      | Some h =>
          match h_failure lim h (w_after w) with
          | None => (VSt (vs_count s + 1) (Some h) skip last, true)
          | Some (h', a) => (VSt (vs_count s + 1) (Some h') skip last, stops a)
          end
      end
    else (VSt (vs_count s + 1) (option_map h_success (vs_handler s)) skip last, false).

  (** [execute_single_node], mod.rs:4415-4427; [self.clock] is a SimClock in deterministic mode, else the wall clock
      (512-539). *)
  Definition exec_node (w : wall) (i : nat) (g : vsched) : vsched * list view * bool :=
    let '(go, s1) := vgate i (w i) (vc_nodes g i) in
    if go then
      let v := view_at i (if det then vc_now g else w_gate (w i)) s1 in
      let '(s2, stop) := vfinish i (w i) v s1 in
      (VS (vc_now g) (fupd (vc_nodes g) i s2), [v], stop)
    else (VS (vc_now g) (fupd (vc_nodes g) i s1), [], false).

  (** The nodes of one step, one after the other, leaving at a fatal failure: mod.rs:2182-2187, 5069-5073. *)
  Fixpoint exec_list (w : wall) (l : list nat) (g : vsched) : vsched * list view * bool :=
    match l with
    | [] => (g, [], false)
    | i :: r =>
        let '(g1, v1, stop) := exec_node w i g in
        if stop then (g1, v1, true)
        else let '(g2, v2, stop2) := exec_list w r g1 in (g2, v1 ++ v2, stop2)
    end.

  (** [clock.advance(dt)]: SimClock in deterministic mode (clock.rs:172-176).  Outside it the clock is the wall clock,
      which [advance] leaves alone (121-124); a node then sees the time of its turn. *)
  Definition advance (g : vsched) : vsched :=
    if det then VS (w64 (vc_now g + period)) (vc_nodes g) else g.

  (** The steps of the graph, mod.rs:2180-2194 and 5067-5077: the clock is advanced after each STEP. *)
  Fixpoint exec_steps (w : wall) (steps : list (list nat)) (g : vsched) : vsched * list view * bool :=
    match steps with
    | [] => (g, [], false)
    | l :: r =>
        let '(g1, v1, stop) := exec_list w l g in
        if stop then (g1, v1, true)
        else let '(g2, v2, stop2) := exec_steps w r (advance g1) in (g2, v1 ++ v2, stop2)
    end.

  (** The dependency graph, or none after a cycle: [build_dependency_graph_inner], mod.rs:2015-2057. *)
  Definition plan := option (list (list nat)).
  (** The graph built from the nodes' topics. *)
  Definition plan_of : plan :=
    match graph_build (map vn_graph nodes) with GSteps s => Some s | _ => None end.
  (** [sort_by_key(|r| r.priority)], stable: mod.rs:2197, 5089. *)
  Definition by_order : list nat := concat (order_steps (map vn_graph nodes)).

  (** One tick: [execute_single_tick] (mod.rs:2163-2240), and [execute_nodes] (5051-5098) in deterministic mode. *)
  Definition vtick (p : plan) (w : wall) (g : vsched) : vsched * list view * bool :=
    match p with
    | Some steps => exec_steps w steps g
    | None => exec_list w by_order g
    end.

  (** A run: tick after tick until a fatal failure.  The plan may change from tick to tick, since the graph is rebuilt
      when nodes register more topics (2173-2179). *)
  Fixpoint vrun (ticks : list (plan * wall)) (g : vsched) : vsched * list view * bool :=
    match ticks with
    | [] => (g, [], false)
    | (p, w) :: r =>
        let '(g1, v1, stop) := vtick p w g in
        if stop then (g1, v1, true)
        else let '(g2, v2, stop2) := vrun r g1 in (g2, v1 ++ v2, stop2)
    end.

  (** [should_stop_loop], mod.rs:3098-3124: the duration limit, on the scheduler's clock; used for
      deterministic mode only. *)
  Definition time_up (start d : N) (g : vsched) : bool := d <=? vc_now g - start.
  (** The main loop of a run with a duration, mod.rs:2834-2852: the number of ticks executed when it ends, or [None]
      if it has not ended after [fuel] rounds.  [k] counts rounds. *)
  Fixpoint run_for (fuel : nat) (start d : N) (p : plan) (ws : nat -> wall) (k : nat) (g : vsched) : option nat :=
    match fuel with
    | O => None
    | S f =>
        if time_up start d g then Some k
        else let '(g1, _, stop) := vtick p (ws k) g in
             if stop then Some (S k) else run_for f start d p ws (S k) g1
    end.
End Run.

(** ** Reading the context during a tick *)
(** [ctx_budget_remaining], tick_context.rs:177-195; [None] is [Duration::MAX].  [now] is what the clock reads at the
    call, [start] what it read when the tick began. *)
Definition budget_remaining (b : option N) (start now : N) : option N :=
  match b with None => None | Some x => Some (x - (now - start)) end.

(** The documented anytime loop, horus/src/time.rs:176-190: improve, and leave once less than [margin] of the budget
    is left.  [clock j] is what the clock reads at the [j]-th test; the result is the number of improvements made, or
    [None] if the loop has not ended after [fuel] of them. *)
Fixpoint anytime (fuel : nat) (b : option N) (start margin : N) (clock : nat -> N) (j : nat) : option nat :=
  match fuel with
  | O => None
  | S f =>
      match budget_remaining b start (clock j) with
      | Some r => if r <? margin then Some (S j) else anytime f b start margin clock (S j)
      | None => anytime f b start margin clock (S j)
      end
  end.

(** ** RT nodes and threads *)
(** [independent_chains], dependency_graph.rs:209-236: each index alone; the order of [HashMap::into_values] is the
    argument [perm].  The graph is not consulted. *)
Definition independent_chains (perm : list nat -> list nat) (l : list nat) : list (list nat) :=
  match l with
  | [] => []
  | [x] => [[x]]
  | _ => map (fun x => [x]) (perm l)
  end.

(** Handing the RT nodes out to the groups by popping, mod.rs:2760-2775: only the size of a group counts. *)
Fixpoint hand_out (groups : list (list nat)) (rt : list nat) : list (list nat) :=
  match groups with
  | [] => []
  | g :: r => firstn (length g) rt :: hand_out r (skipn (length g) rt)
  end.

(** The RT threads, mod.rs:2748-2783, with or without a graph; [rt] are the RT nodes. *)
Definition rt_threads (perm : list nat -> list nat) (has_graph : bool) (rt : list nat) : list (list nat) :=
  if has_graph then
    let groups := independent_chains perm (seq 0 (length rt)) in
    if (1 <? length groups)%nat then hand_out groups rt else map (fun x => [x]) rt
  else map (fun x => [x]) rt.

(** One turn of the threads: thread [t] of [ts] runs its nodes in order.  The schedule says which thread runs next;
    each thread's loop is in rt_executor.rs:740-845. *)
Definition rt_cycle (ts : list (list nat)) (schedule : list nat) : list nat :=
  flat_map (fun t => nth t ts []) schedule.
