(** Failure policies: what the scheduler does when a node's [tick] panics.
    Models horus_core/src/scheduling/fault_tolerance/failure_policy.rs and
    the executors' use of it.  Time is a number of nanoseconds. *)
From Verif Require Import Base.Prelude.
Local Open Scope N_scope.

(** [enum FailurePolicy], failure_policy.rs:31-58.  [u32] counts and
    [Duration]s (here: nanoseconds) are natural numbers. *)
Inductive policy :=
| PFatal
| PRestart (max_restarts initial_backoff : N)
| PSkip (max_failures cooldown : N)
| PIgnore.

(** [enum FailureHandlerState], failure_policy.rs:93-116. *)
Inductive hstate :=
| HFatal
| HRestart (count max backoff : N) (until : option N)
| HSkip (count max cooldown : N) (until : option N)
| HIgnore.

(** [enum FailureAction], failure_policy.rs:126-138. *)
Inductive action := StopScheduler | RestartNode | SkipNode | Continue | FatalAfterRestarts.

(** 2^32. *)
Definition u32_mod : N := 4294967296.
(** [u32::MAX]. *)
Definition u32_max : N := 4294967295.
(** [Duration::MAX]: 2^64-1 seconds and 999 999 999 ns. *)
Definition dur_max : N := (18446744073709551615 * 1000000000) + 999999999.

(** [FailureHandler::new], failure_policy.rs:188-213 ([reset], 411-437, is the
    same match). *)
Definition h_new (p : policy) : hstate :=
  match p with
  | PFatal => HFatal
  | PRestart m b => HRestart 0 m b None
  | PSkip m c => HSkip 0 m c None
  | PIgnore => HIgnore
  end.

(** [should_allow], failure_policy.rs:219-235, at time [now]. *)
Definition h_allow (h : hstate) (now : N) : bool :=
  match h with
  | HFatal | HIgnore => true
  | HRestart _ _ _ u | HSkip _ _ _ u =>
      match u with None => true | Some t => t <=? now end
  end.

(** [record_success], failure_policy.rs:238-265. *)
Definition h_success (h : hstate) : hstate :=
  match h with
  | HFatal => HFatal
  | HRestart c m b _ => HRestart c m b None
  | HSkip _ m c _ => HSkip 0 m c None
  | HIgnore => HIgnore
  end.

(** [2u32.saturating_pow(n)]. *)
Definition pow2_sat (n : N) : N := N.min (2 ^ n) u32_max.
(** [Duration::saturating_mul]. *)
Definition dur_mul_sat (d k : N) : N := N.min (d * k) dur_max.

(** [record_failure], failure_policy.rs:282-318, at time [now].  [*c += 1] on
    a [u32] wraps in a release build and is modelled so.  [Instant + Duration]
    panics when the sum is not representable; [lim] is the largest
    representable instant, and [None] is that panic. *)
Definition h_failure (lim : N) (h : hstate) (now : N) : option (hstate * action) :=
  match h with
  | HFatal => Some (HFatal, StopScheduler)
  | HRestart c m b u =>
      let c' := (c + 1) mod u32_mod in
      if m <? c' then Some (HRestart c' m b u, FatalAfterRestarts)
      else
        let t := now + dur_mul_sat b (pow2_sat (c' - 1)) in
        if t <=? lim then Some (HRestart c' m b (Some t), RestartNode) else None
  | HSkip c m d u =>
      let c' := (c + 1) mod u32_mod in
      if m <=? c' then
        let t := now + d in
        if t <=? lim then Some (HSkip 0 m d (Some t), SkipNode) else None
      else Some (HSkip c' m d u, Continue)
  | HIgnore => Some (HIgnore, Continue)
  end.

(** [enum Severity] and [record_failure_with_severity],
    failure_policy.rs:344-358. *)
Inductive severity := Transient | Permanent | SevFatal.
(** [record_failure_with_severity], failure_policy.rs:344-358. *)
Definition h_failure_sev (lim : N) (h : hstate) (s : severity) (now : N)
  : option (hstate * action) :=
  match s with
  | SevFatal => Some (h, StopScheduler)
  | Transient =>
      match h with HFatal => Some (h, RestartNode) | _ => h_failure lim h now end
  | Permanent => h_failure lim h now
  end.

(** What one executor iteration did with a node.  [Held]: the node was not
    ticked; [Ran]: its tick returned; [Failed a]: its tick panicked and the
    policy answered [a]; [Crashed]: the policy itself panicked; [Stopped]: the
    scheduler had already been stopped. *)
Inductive step := Held | Ran | Failed (a : action) | Crashed | Stopped.

(** Callbacks made on the node by [apply_failure_policy_after_panic],
    types.rs:581-609 (each one is panic-guarded there). *)
Inductive callback := CbSafe | CbInit.
(** The calls [apply_failure_policy_after_panic] makes for each action. *)
Definition callbacks_of (a : action) : list callback :=
  match a with
  | StopScheduler | FatalAfterRestarts => [CbSafe]
  | RestartNode => [CbInit]
  | SkipNode | Continue => []
  end.
(** Its result: must the scheduler stop? *)
Definition stops (a : action) : bool :=
  match a with StopScheduler | FatalAfterRestarts => true | _ => false end.

(** A node as seen by an executor: [None] handler = no policy configured. *)
Record fnode := { fn_handler : option hstate; fn_stopped : bool }.

(** A node registered with this policy. *)
Definition fn_new (p : option policy) : fnode :=
  {| fn_handler := match p with None => None | Some p => Some (h_new p) end;
     fn_stopped := false |}.

(** Run the node's tick at time [now] with outcome [ok] ([false] = panic), no
    gate: [record_tick_success] / [apply_failure_policy_after_panic],
    types.rs:570-609.  The caller stores [running := false] when told to stop
    (scheduler/mod.rs:5030, rt_executor.rs tick_node, compute_executor.rs,
    async_executor.rs, event_executor.rs:299-302). *)
Definition fn_exec (lim : N) (n : fnode) (now : N) (ok : bool) : fnode * step :=
  match fn_handler n with
  | None => (n, if ok then Ran else Failed Continue)
  | Some h =>
      if ok then ({| fn_handler := Some (h_success h); fn_stopped := fn_stopped n |}, Ran)
      else match h_failure lim h now with
           | None => ({| fn_handler := Some h; fn_stopped := true |}, Crashed)
           | Some (h', a) =>
               ({| fn_handler := Some h'; fn_stopped := stops a |}, Failed a)
           end
  end.

(** One gated iteration: [failure_policy_allows_tick] (types.rs:562-566) then
    the tick — main loop (scheduler/mod.rs:4172), RT, compute and async
    executors. *)
Definition fn_offer (lim : N) (n : fnode) (now : N) (ok : bool) : fnode * step :=
  if fn_stopped n then (n, Stopped)
  else match fn_handler n with
       | None => fn_exec lim n now ok
       | Some h => if h_allow h now then fn_exec lim n now ok else (n, Held)
       end.

(** A run: the iterations' times and tick outcomes, oldest first. *)
Fixpoint fn_run (lim : N) (n : fnode) (offers : list (N * bool)) : list step :=
  match offers with
  | [] => []
  | (now, ok) :: rest =>
      let '(n', s) := fn_offer lim n now ok in s :: fn_run lim n' rest
  end.

(** The event executor: one poll (event_executor.rs:165-302) is gated once,
    then ticks once per missed notification without consulting the policy
    again; only [running] is re-checked.  [burst] lists time and outcome of
    each of those ticks. *)
Fixpoint fn_burst (lim : N) (n : fnode) (burst : list (N * bool)) : fnode * list step :=
  match burst with
  | [] => (n, [])
  | (now, ok) :: rest =>
      if fn_stopped n then
        let '(n', ss) := fn_burst lim n rest in (n', Stopped :: ss)
      else
        let '(n1, s) := fn_exec lim n now ok in
        let '(n2, ss) := fn_burst lim n1 rest in (n2, s :: ss)
  end.
(** One poll of the event executor, event_executor.rs:165-302. *)
Definition fn_poll (lim : N) (n : fnode) (poll : N) (burst : list (N * bool))
  : fnode * list step :=
  if fn_stopped n then (n, [Stopped])
  else match fn_handler n with
       | Some h => if h_allow h poll then fn_burst lim n burst else (n, [Held])
       | None => fn_burst lim n burst
       end.
