(** Comparing recordings and debugging replays: horus_core/src/scheduling/record_replay.rs:1075-1974.

    A [HashMap] is an association list.  Numbers of breakpoints do not overflow ([u32]), nor does [offset + length].
    Left out: the names of breakpoints and watches, the text shown for a value, the files of debug sessions. *)
From Coq Require Import String.
From Verif.Base Require Import Prelude Bytes AMap Str.
From Verif.Model Require Import Recording.
Local Open Scope N_scope.
Local Open Scope list_scope.

(** ** Comparing *)
(** [RecordingDiff], record_replay.rs:1164-1180 *)
Inductive Diff :=
| OutputDifference (tick : N) (topic : bytes) (size1 size2 : nat)
| MissingOutput (tick : N) (topic : bytes) (in_recording : N)
| MissingTick (tick : N) (in_recording : N).
(** The maps of [diff_recordings], record_replay.rs:1086-1089: of two snapshots with one tick the later stays. *)
Definition at_tick (r : Rec) (t : N) : option Snap := find (fun s => sn_tick s =? t) (rev (r_snaps r)).
(** [sort_unstable] and [dedup], record_replay.rs:1103-1104: insertion into a strictly increasing list. *)
Fixpoint put_tick (t : N) (l : list N) : list N :=
  match l with
  | [] => [t]
  | u :: r => if t <? u then t :: l else if t =? u then l else u :: put_tick t r
  end.
(** The ticks that are compared, record_replay.rs:1093-1104. *)
Definition diff_ticks (r1 r2 : Rec) : list N :=
  let a := N.max (r_first r1) (r_first r2) in
  let b := N.min (r_last r1) (r_last r2) in
  fold_right put_tick [] (filter (fun t => (a <=? t) && (t <=? b)) (map sn_tick (r_snaps r1) ++ map sn_tick (r_snaps r2))).
(** The differences of one tick, record_replay.rs:1106-1157. *)
Definition diff_tick (r1 r2 : Rec) (t : N) : list Diff :=
  match at_tick r1 t, at_tick r2 t with
  | Some s1, Some s2 =>
      flat_map (fun p => match lookup beqb (fst p) (sn_out s2) with
                         | Some d2 => if beqb (snd p) d2 then [] else [OutputDifference t (fst p) (length (snd p)) (length d2)]
                         | None => [MissingOutput t (fst p) 1]
                         end) (sn_out s1) ++
      flat_map (fun p => match lookup beqb (fst p) (sn_out s1) with Some _ => [] | None => [MissingOutput t (fst p) 2] end) (sn_out s2)
  | Some _, None => [MissingTick t 2]
  | None, Some _ => [MissingTick t 1]
  | None, None => []
  end.
(** [diff_recordings], record_replay.rs:1079-1160 *)
Definition diff_recordings (r1 r2 : Rec) : list Diff := flat_map (diff_tick r1 r2) (diff_ticks r1 r2).

(** ** The debugger *)
(** [WatchExpression], record_replay.rs:1247-1260 *)
Record Watch := mkWatch { w_id : bytes; w_topic : bytes; w_output : bool; w_off : option nat; w_len : option nat }.
(** [WatchExpression::evaluate], record_replay.rs:1292-1322: the bytes *)
Definition evaluate (w : Watch) (s : Snap) : option bytes :=
  match lookup beqb (w_topic w) (if w_output w then sn_out s else sn_in s) with
  | None => None
  | Some d =>
      match w_off w, w_len w with
      | Some o, Some n => if (o + n <=? length d)%nat then Some (firstn n (skipn o d)) else None
      | Some o, None => if (o <? length d)%nat then Some (skipn o d) else None
      | _, _ => Some d
      end
  end.
(** [BreakpointCondition], record_replay.rs:1228-1243 *)
Inductive Cond :=
| AtTick (t : N) | TickEquals (t : N) | TopicHasData (topic : bytes) | OutputMatches (topic pattern : bytes) | OnError | AfterTicks (n : N) | Expression (w : Watch).
(** [Breakpoint], record_replay.rs:1397-1408 *)
Record Bp := mkBp { b_id : N; b_cond : Cond; b_on : bool; b_hits : N }.
(** [DebuggerState], record_replay.rs:1382-1393 *)
Inductive dstate := Running | Paused | StepForward | StepBackward | Stopped.
(** Equality of states. *)
Definition dstate_eqb (a b : dstate) : bool :=
  match a, b with
  | Running, Running | Paused, Paused | StepForward, StepForward | StepBackward, StepBackward | Stopped, Stopped => true
  | _, _ => false
  end.
(** [DebugEvent], record_replay.rs:1465-1485, without [Error], which nothing emits *)
Inductive event :=
| EHit (id : N) (tick : N)
| EWatch (id : bytes) (old : option bytes) (new : bytes)
| EPos (tick : N) (index : nat)
| EState (old new : dstate)
| EFinished (ticks : N).
(** [ReplayDebugger], record_replay.rs:1488-1505 *)
Record Dbg := mkDbg { d_rp : Replayer; d_state : dstate; d_bps : list Bp; d_watches : list Watch; d_last : list (bytes * bytes); d_events : list event; d_next : N }.
(** record_replay.rs:1518 *)
Definition MAX_EVENTS : nat := 1000.
(** [ReplayDebugger::new], record_replay.rs:1509-1520 *)
Definition dbg_new (rp : Replayer) : Dbg := mkDbg rp Paused [] [] [] [] 1.
(** [emit_event], record_replay.rs:1852-1857 *)
Definition emit (e : event) (d : Dbg) : Dbg :=
  let es := d_events d ++ [e] in
  mkDbg (d_rp d) (d_state d) (d_bps d) (d_watches d) (d_last d) (if (MAX_EVENTS <? length es)%nat then tl es else es) (d_next d).
(** Assignment to [state]. *)
Definition with_state (s : dstate) (d : Dbg) : Dbg := mkDbg (d_rp d) s (d_bps d) (d_watches d) (d_last d) (d_events d) (d_next d).
(** Moving the replayer. *)
Definition with_rp (rp : Replayer) (d : Dbg) : Dbg := mkDbg rp (d_state d) (d_bps d) (d_watches d) (d_last d) (d_events d) (d_next d).
(** Assignment to [breakpoints]. *)
Definition with_bps (b : list Bp) (d : Dbg) : Dbg := mkDbg (d_rp d) (d_state d) b (d_watches d) (d_last d) (d_events d) (d_next d).
(** Assignment to [last_watch_values]. *)
Definition with_last (l : list (bytes * bytes)) (d : Dbg) : Dbg := mkDbg (d_rp d) (d_state d) (d_bps d) (d_watches d) l (d_events d) (d_next d).
(** [add_breakpoint], record_replay.rs:1556-1561 *)
Definition add_breakpoint (c : Cond) (d : Dbg) : Dbg * N :=
  (mkDbg (d_rp d) (d_state d) (d_bps d ++ [mkBp (d_next d) c true 0]) (d_watches d) (d_last d) (d_events d) (d_next d + 1), d_next d).
(** The first element with this property goes, [position] and [remove]. *)
Fixpoint remove_first {A} (f : A -> bool) (l : list A) : list A :=
  match l with [] => [] | x :: r => if f x then r else x :: remove_first f r end.
(** [remove_breakpoint], record_replay.rs:1573-1580 *)
Definition remove_breakpoint (id : N) (d : Dbg) : Dbg := with_bps (remove_first (fun b => b_id b =? id) (d_bps d)) d.
(** The first breakpoint of this number is switched. *)
Fixpoint set_first (id : N) (on : bool) (l : list Bp) : list Bp :=
  match l with [] => [] | b :: r => if b_id b =? id then mkBp (b_id b) (b_cond b) on (b_hits b) :: r else b :: set_first id on r end.
(** [set_breakpoint_enabled], record_replay.rs:1583-1590 *)
Definition set_enabled (id : N) (on : bool) (d : Dbg) : Dbg := with_bps (set_first id on (d_bps d)) d.
(** [clear_breakpoints], record_replay.rs:1598-1600 *)
Definition clear_breakpoints (d : Dbg) : Dbg := with_bps [] d.
(** [add_watch], record_replay.rs:1605-1607 *)
Definition add_watch (w : Watch) (d : Dbg) : Dbg := mkDbg (d_rp d) (d_state d) (d_bps d) (d_watches d ++ [w]) (d_last d) (d_events d) (d_next d).
(** [remove_watch], record_replay.rs:1610-1618 *)
Definition remove_watch (id : bytes) (d : Dbg) : Dbg :=
  if existsb (fun w => beqb (w_id w) id) (d_watches d) then
    mkDbg (d_rp d) (d_state d) (d_bps d) (remove_first (fun w => beqb (w_id w) id) (d_watches d)) (remove beqb id (d_last d)) (d_events d) (d_next d)
  else d.
(** The first pass of [evaluate_watches], record_replay.rs:1633-1659: last values, events, values. *)
Fixpoint watch_pass (s : Snap) (ws : list Watch) (last : list (bytes * bytes)) : list (bytes * bytes) * list event * list (bytes * bytes) :=
  match ws with
  | [] => (last, [], [])
  | w :: r =>
      match evaluate w s with
      | None => watch_pass s r last
      | Some v =>
          let old := lookup beqb (w_id w) last in
          let ev := match old with Some o => if beqb o v then [] else [EWatch (w_id w) old v] | None => [EWatch (w_id w) None v] end in
          let '(last', es, vs) := watch_pass s r (insert beqb (w_id w) v last) in
          (last', ev ++ es, (w_id w, v) :: vs)
      end
  end.
(** [evaluate_watches], record_replay.rs:1626-1667 *)
Definition evaluate_watches (d : Dbg) : Dbg * list (bytes * bytes) :=
  match current (d_rp d) with
  | None => (d, [])
  | Some s => let '(last, es, vs) := watch_pass s (d_watches d) (d_last d) in (fold_left (fun d e => emit e d) es (with_last last d), vs)
  end.
(** [is_finished], record_replay.rs:892-894 *)
Definition is_finished (rp : Replayer) : bool := (length (r_snaps (rp_rec rp)) <=? rp_idx rp)%nat.

Section Debugger.
  (** [to_lowercase().contains("error")] of a topic, record_replay.rs:1443-1453 *)
  Variable mentions_error : bytes -> bool.
  (** The condition of [should_trigger], record_replay.rs:1432-1459; [prev] is the tick before the step. *)
  Definition cond_holds (c : Cond) (s : Snap) (prev : N) : bool :=
    match c with
    | AtTick t => sn_tick s =? t
    | TickEquals t => sn_tick s =? t
    | TopicHasData topic => mem beqb topic (sn_in s) || mem beqb topic (sn_out s)
    | OutputMatches topic pattern => match lookup beqb topic (sn_out s) with Some d => beqb d pattern | None => false end
    | OnError => existsb mentions_error (map fst (sn_out s)) || existsb mentions_error (map fst (sn_in s))
    | AfterTicks n => prev + n <=? sn_tick s
    | Expression w => match evaluate w s with Some _ => true | None => false end
    end.
  (** [should_trigger], record_replay.rs:1427-1460 *)
  Definition triggers (b : Bp) (s : Snap) (prev : N) : bool := if b_on b then cond_holds (b_cond b) s prev else false.
  (** The loop over the breakpoints, record_replay.rs:1829-1837 *)
  Definition hit_all (s : Snap) (prev : N) (l : list Bp) : list Bp :=
    map (fun b => if triggers b s prev then mkBp (b_id b) (b_cond b) (b_on b) (b_hits b + 1) else b) l.
  (** Breakpoints after a step, record_replay.rs:1826-1847 *)
  Definition check_bps (prev : N) (d : Dbg) : Dbg :=
    match current (d_rp d) with
    | None => d
    | Some s =>
        let d1 := with_bps (hit_all s prev (d_bps d)) d in
        match find (fun b => triggers b s prev) (d_bps d) with
        | Some b => emit (EHit (b_id b) (rp_tick (d_rp d))) (with_state Paused d1)
        | None => d1
        end
    end.
  (** [step_internal], record_replay.rs:1796-1850 *)
  Definition step_internal (check : bool) (d : Dbg) : Dbg * bool :=
    let prev := rp_tick (d_rp d) in
    if is_finished (d_rp d) then (emit (EFinished prev) (with_state Stopped d), false)
    else
      let '(rp, moved) := advance (d_rp d) in
      if negb moved then (emit (EFinished prev) (with_state Stopped d), false)
      else
        let d1 := emit (EPos (rp_tick rp) (rp_idx rp)) (with_rp rp d) in
        let d2 := fst (evaluate_watches d1) in
        (if check then check_bps prev d2 else d2, true).
  (** The loop of [continue_execution], record_replay.rs:1680-1684; at most [fuel] rounds, see the proofs *)
  Fixpoint run_on (fuel : nat) (d : Dbg) : Dbg :=
    match fuel with
    | O => d
    | S k => if dstate_eqb (d_state d) Running then let '(d', go) := step_internal true d in if go then run_on k d' else d' else d
    end.
  (** [continue_execution], record_replay.rs:1672-1687 *)
  Definition continue_execution (d : Dbg) : Dbg :=
    let d1 := emit (EState (d_state d) Running) (with_state Running d) in
    run_on (S (length (r_snaps (rp_rec (d_rp d1))))) d1.
  (** The change of state at the beginning of [step_forward] and others, record_replay.rs:1691-1698, 1707-1714, 1747-1754 and 1759-1766 *)
  Definition change_state (s : dstate) (d : Dbg) : Dbg :=
    let d1 := with_state s d in if dstate_eqb (d_state d) s then d1 else emit (EState (d_state d) s) d1.
  (** [step_forward], record_replay.rs:1690-1703 *)
  Definition step_forward (d : Dbg) : Dbg * bool :=
    let '(d1, ok) := step_internal false (change_state StepForward d) in (with_state Paused d1, ok).
  (** The search of [step_backward], record_replay.rs:1720-1728 *)
  Fixpoint prev_tick (cur : N) (l : list Snap) (acc : option N) : option N :=
    match l with
    | [] => acc
    | s :: r => if sn_tick s <? cur then prev_tick cur r (Some (sn_tick s)) else acc
    end.
  (** [step_backward], record_replay.rs:1706-1743 *)
  Definition step_backward (d : Dbg) : Dbg * bool :=
    let d1 := change_state StepBackward d in
    match prev_tick (rp_tick (d_rp d1)) (r_snaps (rp_rec (d_rp d1))) None with
    | Some t =>
        let d2 := fst (evaluate_watches (with_rp (fst (seek t (d_rp d1))) d1)) in
        (with_state Paused (emit (EPos t (rp_idx (d_rp d2))) d2), true)
    | None => (with_state Paused d1, false)
    end.
  (** [pause], record_replay.rs:1746-1755 *)
  Definition pause (d : Dbg) : Dbg := change_state Paused d.
  (** [stop], record_replay.rs:1758-1767 *)
  Definition stop (d : Dbg) : Dbg := change_state Stopped d.
  (** [ReplayDebugger::seek], record_replay.rs:1770-1781 *)
  Definition dbg_seek (t : N) (d : Dbg) : Dbg * bool :=
    let '(rp, found) := seek t (d_rp d) in
    if found then let d1 := fst (evaluate_watches (with_rp rp d)) in (emit (EPos (rp_tick rp) (rp_idx rp)) d1, true) else (d, false).
  (** [ReplayDebugger::reset], record_replay.rs:1784-1792 *)
  Definition dbg_reset (d : Dbg) : Dbg :=
    let rp := reset (d_rp d) in emit (EPos (rp_tick rp) 0) (with_state Paused (with_last [] (with_rp rp d))).
  (** [DebugSessionState], record_replay.rs:1892-1907 *)
  Record Session := mkSession { se_rec : Rec; se_tick : N; se_bps : list Bp; se_watches : list Watch }.
  (** [update_from_debugger], record_replay.rs:1965-1973 *)
  Definition session_of (d : Dbg) : Session := mkSession (rp_rec (d_rp d)) (rp_tick (d_rp d)) (d_bps d) (d_watches d).
  (** [create_debugger], record_replay.rs:1942-1962; the recording is loaded from the same file *)
  Definition create_debugger (se : Session) : Dbg :=
    fst (dbg_seek (se_tick se)
      (mkDbg (replayer_new (se_rec se)) Paused (se_bps se) (se_watches se) [] [] (fold_left (fun n b => if n <=? b_id b then b_id b + 1 else n) (se_bps se) 1))).
  (** What a user does with a debugger. *)
  Inductive dop :=
  | DAdd (c : Cond) | DRemove (id : N) | DSet (id : N) (on : bool) | DClear | DWatch (w : Watch) | DUnwatch (id : bytes)
  | DContinue | DForward | DBackward | DPause | DStop | DSeek (t : N) | DReset | DRestore.
  (** One operation. *)
  Definition dop_do (d : Dbg) (o : dop) : Dbg :=
    match o with
    | DAdd c => fst (add_breakpoint c d)
    | DRemove id => remove_breakpoint id d
    | DSet id on => set_enabled id on d
    | DClear => clear_breakpoints d
    | DWatch w => add_watch w d
    | DUnwatch id => remove_watch id d
    | DContinue => continue_execution d
    | DForward => fst (step_forward d)
    | DBackward => fst (step_backward d)
    | DPause => pause d
    | DStop => stop d
    | DSeek t => fst (dbg_seek t d)
    | DReset => dbg_reset d
    | DRestore => create_debugger (session_of d)
    end.
End Debugger.
