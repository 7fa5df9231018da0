(** The action server.  Models horus_core/src/actions/server.rs. *)
From Verif Require Import Base.Prelude Base.AMap.

(** [GoalStatus], actions/types.rs:60-100 (Pending is only ever a client-side
    value). *)
Inductive gstatus := Active | Succeeded | Aborted | Canceled | Preempted | Rejected.
(** [is_terminal], types.rs:102-111. *)
Definition terminal (s : gstatus) : bool := match s with Active => false | _ => true end.
(** [GoalOutcome], server.rs:93-103: what an execute callback can return. *)
Inductive outcome := OSucceeded | OAborted | OCanceled | OPreempted.
(** The status each outcome maps to, server.rs:106-113. *)
Definition outcome_status (o : outcome) : gstatus :=
  match o with OSucceeded => Succeeded | OAborted => Aborted | OCanceled => Canceled | OPreempted => Preempted end.

(** [GoalRequest] with its payload left out; goal ids are 128-bit numbers, 0 is the
    nil UUID.  A lower priority number is more urgent (types.rs:311-313). *)
Record req := { r_id : N; r_prio : N }.
(** [GoalState], server.rs:287-302; [received_at] always equals [started_at]. *)
Record goal := {
  g_prio : N; g_cancel : bool; g_preempt : bool; g_start : N;
  g_signalled : bool; g_abandoned : bool }.
(** [PreemptionPolicy], types.rs:324-334. *)
Inductive policy := RejectNew | PreemptOld | Priority | Queue (max_size : nat).
(** [ActionServerConfig], types.rs:338-349. *)
Record config := { max_goals : option nat; timeout : option N; pol : policy }.

(** [ServerEvent], 63-77. *)
Inductive inbox_event :=
| Feedback (id : N) (x : N) | Completed (id : N) (o : outcome) | Panicked (id : N).
(** Messages on the feedback, result and status topics, in the order sent. *)
Inductive msg :=
| MFeedback (id : N) (x : N) | MResult (id : N) (s : gstatus) | MStatus (id : N) (s : gstatus).

(** [ActionServerNode], 435-488.  [live] are the goal threads still in their
    callback; [threads] the ids with a join handle.  Counters do not wrap. *)
Record srv := {
  active : list (N * goal); queue : list req; threads : list N; live : list N;
  inbox : list inbox_event; now : N; out : list msg;
  received : nat; accepted : nat; rejected : nat;
  succeeded : nat; aborted : nat; canceled : nat; preempted : nat }.

(** The server as [new] creates it, server.rs:493-525. *)
Definition start : srv :=
  {| active := []; queue := []; threads := []; live := []; inbox := []; now := 0; out := [];
     received := 0; accepted := 0; rejected := 0; succeeded := 0; aborted := 0; canceled := 0;
     preempted := 0 |}.

(** Field updates. *)
Definition set_active (s : srv) (a : list (N * goal)) : srv :=
  {| active := a; queue := queue s; threads := threads s; live := live s; inbox := inbox s;
     now := now s; out := out s; received := received s; accepted := accepted s;
     rejected := rejected s; succeeded := succeeded s; aborted := aborted s;
     canceled := canceled s; preempted := preempted s |}.
(** Auxiliary: assignment to one field, where the code assigns to it in place. *)
Definition set_queue (s : srv) (q : list req) : srv :=
  {| active := active s; queue := q; threads := threads s; live := live s; inbox := inbox s;
     now := now s; out := out s; received := received s; accepted := accepted s;
     rejected := rejected s; succeeded := succeeded s; aborted := aborted s;
     canceled := canceled s; preempted := preempted s |}.
(** Auxiliary: assignment to one field, where the code assigns to it in place. *)
Definition set_threads (s : srv) (t l : list N) (i : list inbox_event) : srv :=
  {| active := active s; queue := queue s; threads := t; live := l; inbox := i;
     now := now s; out := out s; received := received s; accepted := accepted s;
     rejected := rejected s; succeeded := succeeded s; aborted := aborted s;
     canceled := canceled s; preempted := preempted s |}.
(** Publishing on a topic: appended to what was sent. *)
Definition send (s : srv) (m : list msg) : srv :=
  {| active := active s; queue := queue s; threads := threads s; live := live s; inbox := inbox s;
     now := now s; out := out s ++ m; received := received s; accepted := accepted s;
     rejected := rejected s; succeeded := succeeded s; aborted := aborted s;
     canceled := canceled s; preempted := preempted s |}.
(** The metrics counters, server.rs:1164-1200. *)
Definition count (s : srv) (rc ac rj su ab ca pr : nat) : srv :=
  {| active := active s; queue := queue s; threads := threads s; live := live s; inbox := inbox s;
     now := now s; out := out s; received := received s + rc; accepted := accepted s + ac;
     rejected := rejected s + rj; succeeded := succeeded s + su; aborted := aborted s + ab;
     canceled := canceled s + ca; preempted := preempted s + pr |}.
(** Time passes; no code of its own. *)
Definition advance (s : srv) (dt : N) : srv :=
  {| active := active s; queue := queue s; threads := threads s; live := live s; inbox := inbox s;
     now := now s + dt; out := out s; received := received s; accepted := accepted s;
     rejected := rejected s; succeeded := succeeded s; aborted := aborted s;
     canceled := canceled s; preempted := preempted s |}.

Section Server.
Variable cfg : config.
(** The user's goal and cancel callbacks (542-547, 994-999). *)
Variable wants : req -> bool.
Variable cancel_ok : N -> bool.
(** Is there an execute callback (733), and does its thread start (751-790)? *)
Variable has_exec : bool.
Variable spawns : req -> bool.
(** The iteration order of the [active_goals] hash map. *)
Variable order : list (N * goal) -> list (N * goal).

(** [occupied_slots], 1128-1130. *)
Definition occupied (s : srv) : nat :=
  length (filter (fun p => negb (g_abandoned (snd p))) (active s)).
(** [occupied_slots() < max_concurrent], 585-590 and 1136. *)
Definition has_slot (s : srv) : bool :=
  match max_goals cfg with None => true | Some m => occupied s <? m end.
(** [pending_preemptions], 811-816. *)
Definition pending (s : srv) : nat := length (filter (fun p => g_preempt (snd p)) (active s)).

(** [get_oldest_goal_id], 647-652: [min_by_key] keeps the first of equals. *)
Fixpoint min_by (l : list (N * goal)) (best : option (N * goal)) : option (N * goal) :=
  match l with
  | [] => best
  | p :: l => min_by l (match best with
                        | Some b => if (g_start (snd p) <? g_start (snd b))%N then Some p else Some b
                        | None => Some p end)
  end.
(** [get_oldest_goal_id], 647-652. *)
Definition oldest (s : srv) : option N := option_map fst (min_by (order (active s)) None).
(** [get_lowest_priority_goal], 655-660: [max_by_key] keeps the last of equals. *)
Fixpoint max_by (l : list (N * goal)) (best : option (N * goal)) : option (N * goal) :=
  match l with
  | [] => best
  | p :: l => max_by l (match best with
                        | Some b => if (g_prio (snd p) <? g_prio (snd b))%N then Some b else Some p
                        | None => Some p end)
  end.
(** [get_lowest_priority_goal], 655-660. *)
Definition lowest (s : srv) : option (N * N) :=
  option_map (fun p => (fst p, g_prio (snd p))) (max_by (order (active s)) None).

(** [active_goals.get_mut(&id)]: change one goal in place. *)
Definition on_goal (f : goal -> goal) (id : N) (l : list (N * goal)) : list (N * goal) :=
  map (fun p => if (fst p =? id)%N then (fst p, f (snd p)) else p) l.
(** The cancel flag set by [handle_cancel], server.rs:1049. *)
Definition ask_cancel (g : goal) : goal :=
  {| g_prio := g_prio g; g_cancel := true; g_preempt := g_preempt g; g_start := g_start g;
     g_signalled := g_signalled g; g_abandoned := g_abandoned g |}.
(** [preempt_goal], server.rs:818-823. *)
Definition ask_preempt (g : goal) : goal :=
  {| g_prio := g_prio g; g_cancel := g_cancel g; g_preempt := true; g_start := g_start g;
     g_signalled := g_signalled g; g_abandoned := g_abandoned g |}.
(** [preempt_goal], 818-823. *)
Definition preempt (s : srv) (id : N) : srv := set_active s (on_goal ask_preempt id (active s)).

(** [accept_goal], 663-792. *)
Definition accept (s : srv) (r : req) : srv :=
  if mem N.eqb (r_id r) (active s) then send s [MStatus (r_id r) Rejected]
  else
    let g := {| g_prio := r_prio r; g_cancel := false; g_preempt := false; g_start := now s;
                g_signalled := false; g_abandoned := false |} in
    let s := count s 0 1 0 0 0 0 0 in
    let s := set_active s (insert N.eqb (r_id r) g (active s)) in
    let s := send s [MStatus (r_id r) Active] in
    if has_exec then
      if spawns r then set_threads s (r_id r :: threads s) (r_id r :: live s) (inbox s)
      else
        let s := set_active s (remove N.eqb (r_id r) (active s)) in
        send (count s 0 0 0 0 1 0 0) [MStatus (r_id r) Aborted]
    else s.

(** [reject_goal], 795-805. *)
Definition reject (s : srv) (id : N) : srv :=
  send (count s 0 0 1 0 0 0 0) [MStatus id Rejected].

(** [handle_goal] with [admit_goal], 533-644. *)
Definition handle_goal (s : srv) (r : req) : srv :=
  let s := count s 1 0 0 0 0 0 0 in
  if negb (wants r) then reject s (r_id r)
  else if has_slot s then accept s r
  else match pol cfg with
       | RejectNew => reject s (r_id r)
       | PreemptOld =>
           if 0 <? pending s then reject s (r_id r)
           else match oldest s with
                | Some id => accept (preempt s id) r
                | None => reject s (r_id r)
                end
       | Priority =>
           match lowest s with
           | Some (id, p) =>
               if (r_prio r <? p)%N then accept (preempt s id) r else reject s (r_id r)
           | None => reject s (r_id r)
           end
       | Queue max =>
           if length (queue s) <? max then set_queue s (queue s ++ [r]) else reject s (r_id r)
       end.

(** [process_goal_queue], 1133-1143. *)
Fixpoint start_queued (q : list req) (s : srv) : srv :=
  match q with
  | [] => s
  | r :: q' => if has_slot s then start_queued q' (accept s r) else set_queue s q
  end.
(** [process_goal_queue], 1133-1143: the whole queue is tried in order. *)
Definition process_queue (s : srv) : srv := start_queued (queue s) (set_queue s []).

(** [complete_goal], 826-871. *)
Definition complete (s : srv) (id : N) (o : outcome) : srv :=
  let s := match o with
           | OSucceeded => count s 0 0 0 1 0 0 0
           | OAborted => count s 0 0 0 0 1 0 0
           | OCanceled => count s 0 0 0 0 0 1 0
           | OPreempted => count s 0 0 0 0 0 0 1
           end in
  let s := set_active s (remove N.eqb id (active s)) in
  process_queue (send s [MResult id (outcome_status o); MStatus id (outcome_status o)]).
(** [abort_goal_without_result], 885-897. *)
Definition abort_silent (s : srv) (id : N) : srv :=
  let s := count s 0 0 0 0 1 0 0 in
  let s := set_active s (remove N.eqb id (active s)) in
  process_queue (send s [MStatus id Aborted]).

(** Auxiliary: removal from a list. *)
Definition without (id : N) (l : list N) : list N := filter (fun x => negb (x =? id)%N) l.
(** [drain_goal_events], 905-935: the join of a thread that has pushed its
    result returns at once. *)
Definition dispatch (s : srv) (e : inbox_event) : srv :=
  match e with
  | Feedback id x => send s [MFeedback id x]
  | Completed id o => complete (set_threads s (without id (threads s)) (live s) (inbox s)) id o
  | Panicked id => abort_silent (set_threads s (without id (threads s)) (live s) (inbox s)) id
  end.
(** [drain_goal_events], 905-935, over the whole inbox. *)
Definition drain (s : srv) : srv :=
  fold_left dispatch (inbox s) (set_threads s (threads s) (live s) []).

(** [goal_queue.remove(pos)] at the first match, 989-1013. *)
Fixpoint drop_first (id : N) (q : list req) : list req :=
  match q with [] => [] | r :: q => if (r_id r =? id)%N then q else r :: drop_first id q end.
(** [handle_cancel], 958-1061.  The nil id means every goal, and the call then
    recurses on each; [None] is running out of [fuel] (stack). *)
Definition cancel_one (s : srv) (id : N) : srv :=
  match find (fun r => (r_id r =? id)%N) (queue s) with
  | Some _ =>
      if cancel_ok id then
        send (count (set_queue s (drop_first id (queue s))) 0 0 0 0 0 1 0) [MStatus id Canceled]
      else s
  | None =>
      if mem N.eqb id (active s) && cancel_ok id
      then set_active s (on_goal ask_cancel id (active s)) else s
  end.
(** [handle_cancel], 958-1061. *)
Fixpoint handle_cancel (fuel : nat) (s : srv) (id : N) : option srv :=
  match fuel with
  | 0 => None
  | S fuel =>
      if (id =? 0)%N then
        fold_left (fun os i => match os with Some s => handle_cancel fuel s i | None => None end)
          (map fst (order (active s)) ++ map r_id (queue s)) (Some s)
      else Some (cancel_one s id)
  end.

(** [check_timeouts], 1064-1121. *)
Definition over (s : srv) (k : N) (g : goal) : bool :=
  match timeout cfg with None => false | Some t => (k * t <? now s - g_start g)%N end.
(** [check_timeouts], 1064-1121: the goals whose grace period is over. *)
Definition to_abandon (s : srv) : list N :=
  map fst (filter (fun p => negb (g_abandoned (snd p)) && g_signalled (snd p) && over s 2 (snd p))
             (order (active s))).
(** [check_timeouts]: a goal over its time limit is asked to stop and the time noted. *)
Definition time_out (s : srv) (g : goal) : goal :=
  if g_abandoned g then g
  else if g_signalled g then
    {| g_prio := g_prio g; g_cancel := g_cancel g; g_preempt := g_preempt g; g_start := g_start g;
       g_signalled := true; g_abandoned := over s 2 g |}
  else if over s 1 g then
    {| g_prio := g_prio g; g_cancel := true; g_preempt := g_preempt g; g_start := g_start g;
       g_signalled := true; g_abandoned := false |}
  else g.
(** [check_timeouts], 1064-1121. *)
Definition check_timeouts (s : srv) : srv :=
  send (set_active s (map (fun p => (fst p, time_out s (snd p))) (active s)))
    (map (fun id => MStatus id Aborted) (to_abandon s)).

(** [stop_all_goals], 944-955: the joins wait for every thread. *)
Definition shutdown (s : srv) : srv :=
  set_queue (set_active (set_threads s [] [] []) []) [].

(** What can happen: the parts of [tick] (1256-1348), the goal threads running
    beside it, and time passing. *)
Inductive op :=
| Goal (r : req) | Cancel (id : N) | Drain | Timeouts | Advance (dt : N)
| Emit (id : N) (x : N) | Finish (id : N) (o : option outcome) | Shutdown.
(** One event of a history: applies the function above that the event names; no code of its own. *)
Definition step (s : srv) (o : op) : option srv :=
  match o with
  | Goal r => Some (handle_goal s r)
  | Cancel id => handle_cancel 2 s id
  | Drain => Some (drain s)
  | Timeouts => Some (check_timeouts s)
  | Advance dt => Some (advance s dt)
  | Emit id x =>
      Some (if existsb (N.eqb id) (live s)
            then set_threads s (threads s) (live s) (inbox s ++ [Feedback id x]) else s)
  | Finish id o =>
      Some (if existsb (N.eqb id) (live s)
            then set_threads s (threads s) (without id (live s))
                   (inbox s ++ [match o with Some o => Completed id o | None => Panicked id end])
            else s)
  | Shutdown => Some (shutdown s)
  end.
(** A whole history, event by event; no code of its own. *)
Fixpoint run (s : srv) (ops : list op) : option srv :=
  match ops with
  | [] => Some s
  | o :: ops => match step s o with Some s => run s ops | None => None end
  end.
End Server.
