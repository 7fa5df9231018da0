(** The safety monitor: graduated watchdog, degradation ladder and
    emergency-stop latch.  Models
    horus_core/src/scheduling/safety_monitor.rs and its callers in
    scheduler/mod.rs, rt_executor.rs and primitives.rs. *)
From Verif Require Import Base.Prelude.

(** ** Watchdog, safety_monitor.rs:196-275 *)
Module Wd.
Local Open Scope N_scope.

(** [Watchdog].  Times are nanoseconds as read from [SystemTime]
    ([now_ns], 119-125), so they may go back.  [set_scale] (222-225) computes
    in [f64]; the scaled timeout is an argument here. *)
Record t := { timeout : N; base : N; last : N; expired : bool }.

(** [enum WatchdogSeverity], safety_monitor.rs:172-181. *)
Inductive severity := Ok | Warning | Expired | Critical.

(** u64 wrap-around. *)
Definition u64 (x : N) : N := x mod 18446744073709551616.

(** [Watchdog::new], 209-216. *)
Definition new (timeout now : N) : t :=
  {| timeout := timeout; base := timeout; last := now; expired := false |}.
(** [feed], 228-231. *)
Definition feed (w : t) (now : N) : t :=
  {| timeout := timeout w; base := base w; last := now; expired := false |}.
(** [set_scale], 222-225, with the scaled value [scaled]. *)
Definition set_scale (w : t) (scaled : N) : t :=
  {| timeout := N.max scaled (base w); base := base w; last := last w; expired := expired w |}.
(** [check_graduated], 252-271: [u64] arithmetic wraps. *)
Definition check (w : t) (now : N) : t * severity :=
  let e := now - last w in
  let tm := u64 (timeout w) in
  let mark := {| timeout := timeout w; base := base w; last := last w; expired := true |} in
  if e <=? tm then (w, Ok)
  else if e <=? u64 (tm * 2) then (mark, Warning)
  else if e <=? u64 (tm * 3) then (mark, Expired)
  else (mark, Critical).

(** [Scale]: [scale_watchdog], 793-797, when a node's rate is changed. *)
Inductive op := Feed (now : N) | Check (now : N) | Scale (scaled : N).
(** One event of a history: applies the function above that the event names; no code of its own. *)
Definition step (w : t) (o : op) : t * option severity :=
  match o with
  | Feed n => (feed w n, None)
  | Check n => let '(w', s) := check w n in (w', Some s)
  | Scale k => (set_scale w k, None)
  end.
(** A whole history, event by event; no code of its own. *)
Fixpoint run (w : t) (ops : list op) : t * list (option severity) :=
  match ops with
  | [] => (w, [])
  | o :: r => let '(w1, s) := step w o in
              let '(w2, ss) := run w1 r in (w2, s :: ss)
  end.
End Wd.

(** ** Degradation ladder *)
Module Ladder.

(** [DegradationStage], safety_monitor.rs:466-479. *)
Inductive stage := Normal | Warned | RateReduced | Isolated | Killed.
(** Derived equality. *)
Definition stage_eqb (a b : stage) : bool :=
  match a, b with
  | Normal, Normal | Warned, Warned | RateReduced, RateReduced
  | Isolated, Isolated | Killed, Killed => true
  | _, _ => false
  end.

(** [DegradationPolicy], 440-464. *)
Record policy := { warn_after : nat; reduce_after : nat; isolate_after : nat;
                   kill_after : nat; recovery_ticks : nat }.
(** [DegradationPolicy::default], 454-464. *)
Definition default_policy : policy :=
  {| warn_after := 3; reduce_after := 5; isolate_after := 10; kill_after := 20;
     recovery_ticks := 100 |}.

Section Rates.
(** Rates are [f64]s; all the ladder does with them is halve them, so they
    are an arbitrary type with an arbitrary halving; [dflt] is [100.0]. *)
Variable rate : Type.
Variable half : rate -> rate.
Variable dflt : rate.

(** [DegradationAction], 503-520. *)
Inductive action :=
| ANone | AWarn | AReduce (r : rate) | AIsolate | AKill | ARestore (r : rate) | ADeisolate.

(** The monitor's state for one node ([NodeDegradationState], 482-490, and
    [NodeTimingState::consecutive_misses], 370) together with the node's own
    [rate_hz], [health_state] ([Isolated] or not) and [is_stopped], and the
    emergency-stop latch as far as this node sets it. *)
Record node := {
  stg : stage; orig : option rate; recov : nat; misses : nat;
  nrate : option rate; isolated : bool; stopped : bool;
  safe_calls : nat; shutdown_calls : nat; estop : bool }.

(** [NodeDegradationState] of a node just registered. *)
Definition fresh (r : option rate) : node :=
  {| stg := Normal; orig := None; recov := 0; misses := 0; nrate := r;
     isolated := false; stopped := false; safe_calls := 0; shutdown_calls := 0;
     estop := false |}.

(** [evaluate_degradation], 1003-1047. *)
Definition evaluate (p : policy) (n : node) : node * action :=
  let set s o c := {| stg := s; orig := o; recov := c; misses := misses n;
                      nrate := nrate n; isolated := isolated n; stopped := stopped n;
                      safe_calls := safe_calls n; shutdown_calls := shutdown_calls n;
                      estop := estop n |} in
  let m := misses n in
  let is s := stage_eqb (stg n) s in
  if (kill_after p <=? m) && negb (is Killed) then (set Killed (orig n) 0, AKill)
  else if (isolate_after p <=? m) && negb (is Isolated) && negb (is Killed) then
    (set Isolated (orig n) 0, AIsolate)
  else if (reduce_after p <=? m) && negb (is RateReduced) && negb (is Isolated)
          && negb (is Killed) then
    (set RateReduced (match orig n with None => nrate n | Some r => Some r end) 0,
     AReduce (half (match nrate n with Some r => r | None => dflt end)))
  else if (warn_after p <=? m) && is Normal then (set Warned (orig n) (recov n), AWarn)
  else (n, ANone).

(** [record_successful_tick], 1053-1110. *)
Definition success (p : policy) (n : node) : node * action :=
  let set s o c := {| stg := s; orig := o; recov := c; misses := misses n;
                      nrate := nrate n; isolated := isolated n; stopped := stopped n;
                      safe_calls := safe_calls n; shutdown_calls := shutdown_calls n;
                      estop := estop n |} in
  match stg n with
  | RateReduced =>
      if recovery_ticks p <=? recov n + 1 then
        (set Normal None 0,
         match orig n with Some r => ARestore r | None => ANone end)
      else (set RateReduced (orig n) (recov n + 1), ANone)
  | Warned => (set Normal (orig n) 0, ANone)
  | Isolated =>
      if recovery_ticks p <=? recov n + 1 then (set RateReduced (orig n) 0, ADeisolate)
      else (set Isolated (orig n) (recov n + 1), ANone)
  | Normal | Killed => (n, ANone)
  end.

(** [apply_degradation_action], primitives.rs:87-196 and
    scheduler/mod.rs:4837-4929, with callbacks that return (callbacks that
    panic are in Model/ExecLoop.v). *)
Definition apply (n : node) (a : action) : node :=
  let upd r i s sc dc :=
    {| stg := stg n; orig := orig n; recov := recov n; misses := misses n;
       nrate := r; isolated := i; stopped := s; safe_calls := sc; shutdown_calls := dc;
       estop := estop n |} in
  match a with
  | ANone | AWarn => n
  | AReduce r => upd (Some r) (isolated n) (stopped n) (safe_calls n) (shutdown_calls n)
  | AIsolate => upd (nrate n) true (stopped n) (safe_calls n + 1) (shutdown_calls n)
  | AKill => upd (nrate n) true true (safe_calls n) (shutdown_calls n + 1)
  | ARestore r => upd (Some r) false (stopped n) (safe_calls n) (shutdown_calls n)
  | ADeisolate => upd (nrate n) false (stopped n) (safe_calls n) (shutdown_calls n)
  end.

(** [NodeTimingState::record_tick], 389-418: resets the run of misses on a
    tick inside its budget only. *)
Definition record_tick (over : bool) (n : node) : node :=
  if over then n else
  {| stg := stg n; orig := orig n; recov := recov n; misses := 0;
     nrate := nrate n; isolated := isolated n; stopped := stopped n;
     safe_calls := safe_calls n; shutdown_calls := shutdown_calls n; estop := estop n |}.
(** [record_miss], 422-428. *)
Definition record_miss (n : node) : node :=
  {| stg := stg n; orig := orig n; recov := recov n; misses := misses n + 1;
     nrate := nrate n; isolated := isolated n; stopped := stopped n;
     safe_calls := safe_calls n; shutdown_calls := shutdown_calls n; estop := estop n |}.
(** Auxiliary: the emergency stop is set. *)
Definition latch (n : node) : node :=
  {| stg := stg n; orig := orig n; recov := recov n; misses := misses n;
     nrate := nrate n; isolated := isolated n; stopped := stopped n;
     safe_calls := safe_calls n; shutdown_calls := shutdown_calls n; estop := true |}.

(** Which executor runs the node: the scheduler's own loop, which reports to
    the monitor's budget accounting only when the budget was exceeded
    (scheduler/mod.rs:4662-4694), or the RT thread, which does so at every
    tick of a node with a budget (rt_executor.rs:292-299).  Neither does for a
    node without one. *)
Inductive exec := MainLoop | RtThread.

(** What one tick did: did it exceed the budget, did it miss the deadline,
    did it return.  [has_budget] and [critical] are fixed per node. *)
Record outcome := { over : bool; missed : bool; ok : bool }.

(** One tick's effect on the ladder: rt_executor.rs:372-436, mod.rs:4736-4785. *)
Definition tick (p : policy) (e : exec) (has_budget critical : bool) (n : node)
  (o : outcome) : node :=
  if stopped n then n else
  (* budget phase: rt_executor.rs:292-299, scheduler/mod.rs:4662-4694 and
     [check_tick_budget], safety_monitor.rs:930-958 *)
  let n1 :=
    if has_budget then
      let n' := match e with
                | RtThread => record_tick (over o) n
                | MainLoop => n
                end in
      if over o && critical then latch n' else n'
    else n in
  (* deadline phase: rt_executor.rs:372-436, scheduler/mod.rs:4736-4785 and
     [record_deadline_miss_with_severity], 968-982 (the process-wide ceiling is
     left out) *)
  let n2 :=
    if missed o then
      let n' := record_miss n1 in
      let n' := if critical then latch n' else n' in
      let '(n'', a) := evaluate p n' in apply n'' a
    else n1 in
  (* result phase: rt_executor.rs:491-524, scheduler/mod.rs:4569-4573 *)
  if ok o then let '(n3, a) := success p n2 in apply n3 a else n2.

(** A whole history, event by event; no code of its own. *)
Fixpoint run (p : policy) (e : exec) (b c : bool) (n : node) (os : list outcome) : node :=
  match os with [] => n | o :: r => run p e b c (tick p e b c n o) r end.

End Rates.
Arguments ANone {rate}. Arguments AWarn {rate}. Arguments AReduce {rate}.
Arguments AIsolate {rate}. Arguments AKill {rate}. Arguments ARestore {rate}.
Arguments ADeisolate {rate}.
Arguments stg {rate}. Arguments orig {rate}. Arguments recov {rate}. Arguments misses {rate}.
Arguments nrate {rate}. Arguments isolated {rate}. Arguments stopped {rate}.
Arguments safe_calls {rate}. Arguments shutdown_calls {rate}. Arguments estop {rate}.
Arguments fresh {rate}. Arguments evaluate {rate}. Arguments success {rate}.
Arguments apply {rate}. Arguments record_tick {rate}. Arguments record_miss {rate}.
Arguments latch {rate}. Arguments tick {rate}. Arguments run {rate}.
End Ladder.

(** ** Emergency-stop latch, under any interleaving of its users *)
Module Latch.

(** [SafetyState], safety_monitor.rs:128-140 (those the monitor stores). *)
Inductive sstate := SNormal | SSafe | SEstop.

(** Reasons are numbers.  [flag]: [emergency_stop]; [st]: [state];
    [pending]: [PENDING_LOCAL_ESTOP]; [sent]: what
    [take_pending_local_estop] (106-111) has handed to the network, in
    order. *)
Record shared := { flag : bool; st : sstate; pending : option nat; sent : list nat }.
(** A monitor just created. *)
Definition init : shared := {| flag := false; st := SNormal; pending := None; sent := [] |}.

(** A thread is at one point of one of the entry points:
    - a local trigger with reason [r]: [trigger_emergency_stop] 1135-1156 and
      [EstopTrigger::trigger] 691-703 — swap, store state, and on the rising
      edge store the pending reason;
    - the remote e-stop hook, 1188-1197 — store flag, store state;
    - the safe-state hook, 1176-1186 — store state;
    - the replicator draining the pending slot, 106-111. *)
Inductive pc :=
| LSwap (r : nat) | LState (r : nat) (edge : bool) | LPend (r : nat)
| RFlag | RState | SState | Drain | Done.

(** One atomic access of the thread at [p]. *)
Definition step (s : shared) (p : pc) : shared * pc :=
  match p with
  | LSwap r =>
      ({| flag := true; st := st s; pending := pending s; sent := sent s |},
       LState r (negb (flag s)))
  | LState r e =>
      ({| flag := flag s; st := SEstop; pending := pending s; sent := sent s |},
       if e then LPend r else Done)
  | LPend r =>
      ({| flag := flag s; st := st s; pending := Some r; sent := sent s |}, Done)
  | RFlag =>
      ({| flag := true; st := st s; pending := pending s; sent := sent s |}, RState)
  | RState =>
      ({| flag := flag s; st := SEstop; pending := pending s; sent := sent s |}, Done)
  | SState =>
      ({| flag := flag s; st := SSafe; pending := pending s; sent := sent s |}, Done)
  | Drain =>
      ({| flag := flag s; st := st s; pending := None;
          sent := match pending s with Some r => sent s ++ [r] | None => sent s end |}, Done)
  | Done => (s, Done)
  end.

(** A schedule picks which thread steps next. *)
Fixpoint upd (ts : list pc) (i : nat) (p : pc) : list pc :=
  match ts, i with
  | [], _ => []
  | _ :: r, O => p :: r
  | x :: r, S i => x :: upd r i p
  end.
(** The chosen thread takes one step. *)
Definition sched_step (w : shared * list pc) (i : nat) : shared * list pc :=
  match nth_error (snd w) i with
  | None => w
  | Some p => let '(s', p') := step (fst w) p in (s', upd (snd w) i p')
  end.
(** A whole history, event by event; no code of its own. *)
Fixpoint exec (w : shared * list pc) (sch : list nat) : shared * list pc :=
  match sch with [] => w | i :: r => exec (sched_step w i) r end.

End Latch.
