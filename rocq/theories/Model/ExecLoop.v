(** The executor loops around [Node::tick]: load shedding, safe-state
    requests, gates, failure counting, fault callbacks and input freshness.
    Models horus_core/src/scheduling/{compute,rt,event,async}_executor.rs,
    scheduler/mod.rs, primitives.rs and types.rs. *)
From Verif Require Import Base.Prelude.

(** [mapi f k l] applies [f] to each element and its index, counted from [k]. *)
Fixpoint mapi {A B} (f : nat -> A -> B) (k : nat) (l : list A) : list B :=
  match l with
  | [] => []
  | a :: r => f k a :: mapi f (S k) r
  end.

(** ** Compute executor, compute_executor.rs:106-300 *)
Module Compute.

(** [SHED_THRESHOLD] and [SHED_COOLDOWN_CYCLES], compute_executor.rs:35-42. *)
Definition threshold : nat := 200.
(** [SHED_COOLDOWN_CYCLES], compute_executor.rs:42. *)
Definition cooldown_cycles : nat := 3.

(** A node the executor owns: its order, whether it is stopped, and whether a
    safe-state request for it is pending in [NodeControlMap] (types.rs:790-830). *)
Record node := { prio : nat; stopped : bool; req : bool }.

(** What one pass of the loop meets.  [open i]: node [i] is initialized, not
    paused, admitted by its failure policy and due by its rate (124-143);
    [raise i]: the watchdog asked for node [i] to be safed since the last pass;
    [spanic i]: [enter_safe_state] of node [i] panics; [elapsed]: the duration
    of the pass.  Node ticks are opaque here; their results are modelled in
    module [Fault]. *)
Record pass := { open : nat -> bool; raise : nat -> bool; spanic : nat -> bool; elapsed : N }.

(** Loop variables, 120-121. *)
Record t := { shedding : bool; cool : nat; nodes : list node }.

(** The loop variables at the start, 120-121. *)
Definition start (prios : list nat) : t :=
  {| shedding := false; cool := 0;
     nodes := map (fun p => {| prio := p; stopped := false; req := false |}) prios |}.

(** What a pass did: which nodes ticked, which had [enter_safe_state] called. *)
Record seen := { ticked : list bool; safed : list bool }.

(** Readiness, 126-150. *)
Definition ready (shed : bool) (p : pass) (i : nat) (n : node) : bool :=
  open p i && negb (stopped n) && negb (shed && (threshold <=? prio n)).

(** A raised request stays set until taken, types.rs:850-885. *)
Definition raised (p : pass) (i : nat) (n : node) : node :=
  {| prio := prio n; stopped := stopped n; req := req n || raise p i |}.
(** [honor_safe_state_request], primitives.rs:36-71. *)
Definition honor (p : pass) (i : nat) (n : node) : node :=
  if req n then {| prio := prio n; stopped := stopped n || spanic p i; req := false |} else n.

(** One pass of the loop, 122-293; [period] is [tick_period]. *)
Definition step (period : N) (s : t) (p : pass) : t * seen :=
  let ns := mapi (raised p) 0 (nodes s) in
  let rd := mapi (ready (shedding s) p) 0 ns in
  if existsb (fun b => b) rd then
    let s' :=
      if (period <? elapsed p)%N then (true, cooldown_cycles)
      else if shedding s then
        let c := pred (cool s) in (negb (c =? 0), c)
      else (false, cool s) in
    ({| shedding := fst s'; cool := snd s'; nodes := mapi (honor p) 0 ns |},
     {| ticked := rd; safed := map req ns |})
  else
    ({| shedding := shedding s; cool := cool s; nodes := ns |},
     {| ticked := rd; safed := map (fun _ => false) ns |}).

(** A whole history, event by event; no code of its own. *)
Fixpoint run (period : N) (s : t) (ps : list pass) : t * list seen :=
  match ps with
  | [] => (s, [])
  | p :: r => let '(s1, o) := step period s p in
              let '(s2, os) := run period s1 r in (s2, o :: os)
  end.

(** Async executor, async_executor.rs:126-150: requests are honoured before
    readiness is computed, on every pass, and there is no shedding. *)
Definition async_step (s : t) (p : pass) : t * seen :=
  let ns := mapi (raised p) 0 (nodes s) in
  let ns' := mapi (honor p) 0 ns in
  ({| shedding := false; cool := 0; nodes := ns' |},
   {| ticked := mapi (ready false p) 0 ns'; safed := map req ns |}).

(** RT executor, rt_executor.rs:762-775: a stopped node is skipped before its
    request is looked at. *)
Definition rt_honor (p : pass) (i : nat) (n : node) : node :=
  if stopped n then n else honor p i n.
(** One pass of the RT loop for one node, rt_executor.rs:762-841. *)
Definition rt_step (s : t) (p : pass) : t * seen :=
  let ns := mapi (raised p) 0 (nodes s) in
  let ns' := mapi (rt_honor p) 0 ns in
  ({| shedding := false; cool := 0; nodes := ns' |},
   {| ticked := mapi (ready false p) 0 ns';
      safed := map (fun n => negb (stopped n) && req n) ns |}).

(** [trigger_external_safe_state] with the installed hook,
    safety_monitor.rs:73-87 and 1176-1183: only the monitor's state word
    changes.  No code in the scheduler reads that word, so the executor state
    is the same. *)
Definition external_safe_state (s : t) : t := s.
End Compute.

(** ** Gates: does this pass tick the node? *)
Module Gate.

(** [NodeHealth], core/node.rs. *)
Inductive health := Healthy | Warning | Unhealthy | Isolated.

(** [is_paused] ([skip]) is the one-tick skip of [Miss::Skip]; [probe] is
    [health_probe_counter]. *)
Record node := { init : bool; stopped : bool; skip : bool; hp : health; probe : N }.
(** Per-pass conditions: operator pause and stop flags in [NodeControlMap],
    failure policy, rate. *)
Record env := { op_paused : bool; op_stopped : bool; policy : bool; due : bool }.

(** u64 wrap-around. *)
Definition u64 (x : N) : N := (x mod 18446744073709551616)%N.
(** [HEALTH_PROBE_INTERVAL], scheduler/mod.rs:4205. *)
Definition probe_interval : N := 100.

(** [should_tick_node], scheduler/mod.rs:4165-4250, without a node filter. *)
Definition main (n : node) (e : env) : bool * node :=
  if stopped n then (false, n)
  else if negb (policy e) then (false, n)
  else
    let sup := match hp n with Unhealthy | Isolated => true | _ => false end in
    let p' := u64 (probe n + 1) in
    let n1 := if sup then {| init := init n; stopped := stopped n; skip := skip n;
                             hp := hp n; probe := p' |} else n in
    if sup && negb (p' mod probe_interval =? 0)%N then (false, n1)
    else if op_paused e then (false, n1)
    else if skip n then
      (false, {| init := init n1; stopped := stopped n1; skip := false;
                 hp := hp n1; probe := probe n1 |})
    else (init n && due e, n1).

(** RT loop, rt_executor.rs:764-817, and the policy gate at the head of
    [tick_node], 202-206. *)
Definition rt (n : node) (e : env) : bool * node :=
  if negb (init n) || stopped n then (false, n)
  else if op_stopped e then
    (false, {| init := init n; stopped := true; skip := skip n; hp := hp n; probe := probe n |})
  else if op_paused e then (false, n)
  else if skip n then
    (false, {| init := init n; stopped := stopped n; skip := false; hp := hp n; probe := probe n |})
  else (due e && policy e, n).

(** compute_executor.rs:126-143 and async_executor.rs:134-152. *)
Definition compute (n : node) (e : env) : bool * node :=
  (init n && negb (stopped n) && negb (skip n) && policy e && due e, n).
(** event_executor.rs:163-171; [due] is "a notification arrived". *)
Definition event (n : node) (e : env) : bool * node :=
  (init n && negb (stopped n) && negb (skip n) && policy e && due e, n).

(** A whole history, event by event; no code of its own. *)
Fixpoint run (g : node -> env -> bool * node) (n : node) (es : list env) : list bool * node :=
  match es with
  | [] => ([], n)
  | e :: r => let '(b, n1) := g n e in
              let '(bs, n2) := run g n1 r in (b :: bs, n2)
  end.
End Gate.

(** ** Counting consecutive panics *)
Module Panics.
Inductive executor := Main | Rt | Compute | Async | Event.
(** [FAILURES_BEFORE_UNHEALTHY], primitives.rs:365-372. *)
Definition limit : nat := 3.

(** [consecutive_failures] (core/node.rs:405-470), whether the node is marked
    [Unhealthy], and the successful/total tick counters a user sees. *)
Record t := { consec : nat; unhealthy : bool; total : nat; okay : nat }.
(** A node that has not ticked. *)
Definition fresh : t := {| consec := 0; unhealthy := false; total := 0; okay := 0 |}.

(** [start_tick] is called by every executor but the event executor, and
    [record_tick] counts only a started tick (core/node.rs:413-440). *)
Definition started (x : executor) : bool := match x with Event => false | _ => true end.

(** [record_tick], core/node.rs:412-447. *)
Definition record_tick (x : executor) (s : t) : t :=
  {| consec := 0; unhealthy := unhealthy s;
     total := if started x then S (total s) else total s;
     okay := if started x then S (okay s) else okay s |}.
(** [record_tick_failure], core/node.rs:459-475; [consecutive_failures]
    saturates at [u32::MAX], unbounded here. *)
Definition record_failure (s : t) : t :=
  {| consec := S (consec s); unhealthy := unhealthy s; total := S (total s); okay := okay s |}.
(** The check after a failure: rt_executor.rs:556-567, compute_executor.rs:370-381,
    async_executor.rs:325-336, event_executor.rs:258-272.  The main loop's
    [handle_tick_failure] (scheduler/mod.rs:4977-5030) has none. *)
Definition check (x : executor) (s : t) : t :=
  match x with
  | Main => s
  | _ => if limit <=? consec s
         then {| consec := consec s; unhealthy := true; total := total s; okay := okay s |}
         else s
  end.

(** One finished tick; [panicked] says how it ended.  The event executor
    records the tick before it looks at the result (event_executor.rs:217-221). *)
Definition step (x : executor) (s : t) (panicked : bool) : t :=
  match x with
  | Event =>
      let s1 := record_tick x s in
      if panicked then check x (record_failure s1) else s1
  | _ => if panicked then check x (record_failure s) else record_tick x s
  end.
(** A whole history, event by event; no code of its own. *)
Definition run (x : executor) (s : t) (h : list bool) : t := fold_left (step x) h s.
End Panics.

(** ** Fault callbacks that may themselves panic *)
Module Fault.
Local Open Scope N_scope.

(** [BudgetPolicy] and [Miss], safety_monitor.rs and types.rs. *)
Inductive bpol := BWarn | BEnforce | BEstop.
(** [Miss], types.rs: what a deadline miss does. *)
Inductive mpol := MWarn | MSkip | MSafe | MStop.

(** Configuration of one RT node.  [fatal]: its failure handler answers
    [StopScheduler] or [FatalAfterRestarts] (see Model/FailurePolicy.v);
    [crit]: it is registered with the safety monitor as critical.  The
    degradation ladder is in Model/Safety.v and is left out here. *)
Record cfg := { budget : option N; bp : bpol; deadline : option N; mp : mpol;
                fatal : bool; crit : bool }.
(** One tick: whether it panicked, its duration, the time since its start when
    the deadline is checked, and which callbacks panic if called. *)
Record tick := { panics : bool; dur : N; late : N;
                 p_shutdown : bool; p_safe : bool; p_error : bool }.
(** [running] and the e-stop latch are shared by all executors; the rest is
    per node; [safed] counts completed [enter_safe_state] calls. *)
Record st := { running : bool; estop : bool; stopped : bool; skip : bool;
               in_safe : bool; safed : nat }.

(** A computation finishes or unwinds with a panic, in the state reached. *)
Inductive res := Ret (s : st) | Unwind (s : st).
(** Sequencing: a panic skips the rest. *)
Definition bind (r : res) (f : st -> res) : res :=
  match r with Ret s => f s | Unwind s => Unwind s end.

(** [trigger_emergency_stop]: the latch; see [Safety] for its interleavings. *)
Definition set_estop (s : st) : st :=
  {| running := running s; estop := true; stopped := stopped s; skip := skip s;
     in_safe := in_safe s; safed := safed s |}.
(** The run loop leaves. *)
Definition halt (s : st) : st :=
  {| running := false; estop := estop s; stopped := stopped s; skip := skip s;
     in_safe := in_safe s; safed := safed s |}.
(** The node is stopped for good. *)
Definition stop (s : st) : st :=
  {| running := running s; estop := estop s; stopped := true; skip := skip s;
     in_safe := in_safe s; safed := safed s |}.
(** The node's next tick is skipped. *)
Definition set_skip (s : st) : st :=
  {| running := running s; estop := estop s; stopped := stopped s; skip := true;
     in_safe := in_safe s; safed := safed s |}.
(** Auxiliary: assignment to one field, where the code assigns to it in place. *)
Definition set_in_safe (b : bool) (s : st) : st :=
  {| running := running s; estop := estop s; stopped := stopped s; skip := skip s;
     in_safe := b; safed := safed s |}.
(** Ghost: [enter_safe_state] was called. *)
Definition add_safed (s : st) : st :=
  {| running := running s; estop := estop s; stopped := stopped s; skip := skip s;
     in_safe := in_safe s; safed := S (safed s) |}.

(** Unguarded callbacks. *)
Definition shutdown (t : tick) (s : st) : res := if p_shutdown t then Unwind s else Ret s.
(** [node.enter_safe_state()] without [catch_unwind]. *)
Definition enter_safe (t : tick) (s : st) : res :=
  if p_safe t then Unwind s else Ret (add_safed s).
(** [node.on_error()] without [catch_unwind]. *)
Definition on_error (t : tick) (s : st) : res := if p_error t then Unwind s else Ret s.

(** [TimingEnforcer], primitives.rs:305-363. *)
Definition over_budget (c : cfg) (t : tick) : bool :=
  match budget c with Some b => b <? dur t | None => false end.
(** Twice the budget exceeded, rt_executor.rs:334. *)
Definition over_twice (c : cfg) (t : tick) : bool :=
  match budget c with Some b => b * 2 <? dur t | None => false end.
(** The deadline missed, primitives.rs:339-361. *)
Definition missed (c : cfg) (t : tick) : bool :=
  match deadline c with Some d => d <? late t | None => false end.

(** The monitor latches for a critical node: [check_tick_budget],
    safety_monitor.rs:930-957, [record_deadline_miss], 963-985. *)
Definition monitor (c : cfg) (s : st) : st := if crit c then set_estop s else s.

(** [apply_failure_policy_after_panic], types.rs:589-609: the callback is
    guarded. *)
Definition failure_policy (c : cfg) (t : tick) (s : st) : st :=
  if fatal c then halt (if p_safe t then s else add_safed s) else s.

(** *** RT executor, [tick_node], rt_executor.rs:291-612 *)
Definition rt_budget (c : cfg) (t : tick) (s : st) : res :=
  if over_budget c t then
    let s := monitor c s in
    match bp c with
    | BWarn => Ret s
    | BEnforce => if over_twice c t then bind (shutdown t s) (fun s => Ret (stop s)) else Ret s
    | BEstop => bind (shutdown t s) (fun s => Ret (halt (set_estop (stop s))))
    end
  else Ret s.
(** The deadline branch of [tick_node], from rt_executor.rs:372. *)
Definition rt_deadline (c : cfg) (t : tick) (s : st) : res :=
  match deadline c with
  | None => Ret s
  | Some _ =>
      if missed c t then
        let s := monitor c s in
        match mp c with
        | MWarn => Ret s
        | MSkip => Ret (set_skip s)
        | MSafe => if in_safe s then Ret s else enter_safe t (set_in_safe true s)
        | MStop => Ret (halt (set_estop s))
        end
      else Ret (set_in_safe false s)
  end.
(** What follows the tick's result, rt_executor.rs:491-612. *)
Definition rt_result (c : cfg) (t : tick) (s : st) : res :=
  if panics t then bind (on_error t s) (fun s => Ret (failure_policy c t s)) else Ret s.
(** [tick_node], rt_executor.rs:291-612. *)
Definition rt_tick (c : cfg) (t : tick) (s : st) : res :=
  bind (rt_budget c t s) (fun s => bind (rt_deadline c t s) (rt_result c t)).
(** The caller's [catch_unwind], rt_executor.rs:819-841. *)
Definition rt (c : cfg) (t : tick) (s : st) : st :=
  match rt_tick c t s with Ret s => s | Unwind s => stop s end.

(** *** Main loop, [process_tick_result], scheduler/mod.rs:4478-4640 *)
(** [note_safing_failure], scheduler/mod.rs:4948-4975. *)
Definition note_failure (c : cfg) (s : st) : st := monitor c (stop s).
(** [check_timing_violations], 4651-4830; [true] = the run loop must stop. *)
Definition main_budget (c : cfg) (t : tick) (s : st) : st * bool :=
  if over_budget c t then
    let s := monitor c s in
    match bp c with
    | BWarn => (s, false)
    | BEnforce =>
        if over_twice c t then
          ((if p_shutdown t then note_failure c s else stop s), false)
        else (s, false)
    | BEstop => (set_estop s, true)
    end
  else (s, false).
(** The deadline branch of [check_timing_violations], from scheduler/mod.rs:4735. *)
Definition main_deadline (c : cfg) (t : tick) (s : st) : st * bool :=
  match deadline c with
  | None => (s, false)
  | Some _ =>
      if missed c t then
        let s := monitor c s in
        match mp c with
        | MWarn => (s, false)
        | MSkip => (set_skip s, false)
        | MSafe =>
            if in_safe s then (s, false)
            else let s := set_in_safe true s in
                 ((if p_safe t then note_failure c s else add_safed s), false)
        | MStop => (set_estop s, true)
        end
      else (set_in_safe false s, false)
  end.
(** [handle_tick_failure], 4977-5030: [on_error] is guarded. *)
Definition main_result (c : cfg) (t : tick) (s : st) : st :=
  if panics t then failure_policy c t s else s.
(** A [true] result makes the run loop leave; modelled as clearing [running]. *)
Definition main (c : cfg) (t : tick) (s : st) : st :=
  let '(s1, e1) := main_budget c t s in
  if e1 then halt s1
  else let '(s2, e2) := main_deadline c t s1 in
       if e2 then halt s2 else main_result c t s2.

(** *** A shared executor thread (compute), compute_executor.rs:300-420:
    [on_error] and everything after it run unguarded on the one thread that
    serves all the executor's nodes. *)
Definition comp_tick (c : cfg) (t : tick) (s : st) : res := rt_result c t s.
(** One pass over the nodes' results: [running] and [estop] are threaded
    through; an unwinding callback ends the thread ([alive = false]). *)
Fixpoint comp_pass (l : list (cfg * tick)) (s : st) : st * bool :=
  match l with
  | [] => (s, true)
  | (c, t) :: r => match comp_tick c t s with
                   | Ret s' => comp_pass r s'
                   | Unwind s' => (s', false)
                   end
  end.
(** The thread over successive passes: number of node ticks performed.  A dead
    thread performs none. *)
Fixpoint comp_run (ps : list (list (cfg * tick))) (s : st) (alive : bool) : nat * bool :=
  match ps with
  | [] => (0%nat, alive)
  | p :: r =>
      if alive && running s then
        let '(s', a) := comp_pass p s in
        let '(k, a') := comp_run r s' a in ((length p + k)%nat, a')
      else (0%nat, alive)
  end.
End Fault.

(** ** Input freshness, types.rs:612-717 and scheduler/mod.rs:4575-4640 *)
Module Fresh.
Local Open Scope N_scope.

(** [last_received_ns] and [last_count]; the [u64::MAX] sentinel is [None]. *)
Record t := { last : N; count : option N }.
(** [SubscriptionFreshness::new], types.rs:637-645. *)
Definition new (now : N) : t := {| last := now; count := None |}.

(** [refresh], 671-716, at time [now].  [total = None]: the topic cannot be
    mapped.  [saturating_add] on a wall-clock value is plain addition here. *)
Definition refresh (s : t) (now : N) (total : option N) : t :=
  match total with
  | None => s
  | Some n =>
      match count s with
      | None => {| last := last s; count := Some n |}
      | Some m => if n =? m then s
                  else {| last := N.max now (last s + 1); count := Some n |}
      end
  end.
(** The staleness test, scheduler/mod.rs:4590-4600. *)
Definition stale (timeout : N) (s : t) (now : N) : bool := timeout <? now - last s.

(** A topic and one subscription to it: publications bump the header's
    [messages_total]; checks run after each successful tick. *)
Inductive event := Publish (at_ : N) | Check (at_ : N).
(** Auxiliary: the event's time. *)
Definition time (e : event) : N := match e with Publish n => n | Check n => n end.
(** The topic's message count and the subscription. *)
Record sys := { total : N; sub : t }.
(** One event of a history: applies the function above that the event names; no code of its own. *)
Definition step (timeout : N) (s : sys) (e : event) : sys * option bool :=
  match e with
  | Publish _ => ({| total := total s + 1; sub := sub s |}, None)
  | Check now =>
      let f := refresh (sub s) now (Some (total s)) in
      ({| total := total s; sub := f |}, Some (stale timeout f now))
  end.
(** A whole history, event by event; no code of its own. *)
Fixpoint run (timeout : N) (s : sys) (es : list event) : sys * list (option bool) :=
  match es with
  | [] => (s, [])
  | e :: r => let '(s1, o) := step timeout s e in
              let '(s2, os) := run timeout s1 r in (s2, o :: os)
  end.
End Fresh.
