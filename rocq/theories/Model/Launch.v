(** Launching several nodes from one file: horus_manager/src/commands/launch.rs.

    Left out: parsing the file, the delays before a start, the environment of a process (its parameters, namespace and so on),
    what is printed and logged, the files of sessions.  A node whose process cannot be looked at ([try_wait] fails) is left
    alone, as if it were running. *)
From Coq Require Import String.
From Verif.Base Require Import Prelude Bytes AMap Str.
Local Open Scope N_scope.
Local Open Scope list_scope.

(** [LaunchNode], launch.rs:30-90; [l_what] stands for the command and everything else it is started with. *)
Record LNode := mkLNode { l_name : bytes; l_deps : list bytes; l_restart : bytes; l_what : N }.

(** ** The order *)
(** Membership in a [HashSet<String>]. *)
Definition has_name (k : bytes) (l : list bytes) : bool := existsb (beqb k) l.
(** [node_map.get], launch.rs:1060 and 1085: of several nodes with one name the last stays. *)
Definition node_named (nodes : list LNode) (k : bytes) : option LNode := find (fun n => beqb (l_name n) k) (rev nodes).
(** What [visit] leaves: the visited names and the result, or its error.  [VFuel] does not occur, see the proofs. *)
Inductive vres := VOk (visited : list bytes) (out : list LNode) | VCycle (name : bytes) | VFuel.
(** The loop over [depends_on], launch.rs:1084-1089; [go] is the recursive call. *)
Fixpoint visit_deps (go : LNode -> list bytes -> list LNode -> vres) (nodes : list LNode) (ds : list bytes) (visited : list bytes) (out : list LNode) : vres :=
  match ds with
  | [] => VOk visited out
  | d :: r =>
      match node_named nodes d with
      | None => visit_deps go nodes r visited out
      | Some m => match go m visited out with VOk v o => visit_deps go nodes r v o | e => e end
      end
  end.
(** [visit], launch.rs:1062-1096.  [temp] is [temp_visited], which every call that succeeds leaves as it was. *)
Fixpoint visit (fuel : nat) (nodes : list LNode) (n : LNode) (visited temp : list bytes) (out : list LNode) : vres :=
  match fuel with
  | O => VFuel
  | S f =>
      if has_name (l_name n) temp then VCycle (l_name n)
      else if has_name (l_name n) visited then VOk visited out
      else
        match visit_deps (fun m v o => visit f nodes m v (l_name n :: temp) o) nodes (l_deps n) visited out with
        | VOk v o => VOk (l_name n :: v) (o ++ [n])
        | e => e
        end
  end.
(** The loop of [sort_by_dependencies], launch.rs:1098-1106. *)
Fixpoint visit_all (nodes todo : list LNode) (visited : list bytes) (out : list LNode) : vres :=
  match todo with
  | [] => VOk visited out
  | n :: r => match visit (S (length nodes)) nodes n visited [] out with VOk v o => visit_all nodes r v o | e => e end
  end.
(** [sort_by_dependencies], launch.rs:1055-1108 *)
Definition sort_by_dependencies (nodes : list LNode) : vres := visit_all nodes nodes [] [].

(** ** Starting *)
(** How the start ends: every node has a process; a dependency is missing; a process could not be started.  With it the processes
    that the launcher has started and not killed. *)
Inductive lres := LStarted (ps : list (LNode * N)) | LMissing (dep name : bytes) (left : list N) | LFailed (name : bytes) (left : list N).
(** The loop of [run_launch], launch.rs:444-522: [spawn] says for each node which process [launch_node] makes of it, if any. *)
Fixpoint start_all (spawn : LNode -> option N) (todo : list LNode) (started : list (LNode * N)) : lres :=
  match todo with
  | [] => LStarted started
  | n :: r =>
      match find (fun d => negb (has_name d (map (fun p => l_name (fst p)) started))) (l_deps n) with
      | Some d => LMissing d (l_name n) (map snd started)
      | None => match spawn n with Some pid => start_all spawn r (started ++ [(n, pid)]) | None => LFailed (l_name n) [] end
      end
  end.

(** ** Watching *)
(** launch.rs:15 *)
Definition MAX_RESTARTS : N := 10.
(** launch.rs:17, in milliseconds *)
Definition INITIAL_BACKOFF : N := 100.
(** launch.rs:19, in milliseconds *)
Definition MAX_BACKOFF : N := 10000.
(** [ProcessEntry], launch.rs:21-28 *)
Record Proc := mkProc { p_name : bytes; p_pid : N; p_restart : bytes; p_count : N; p_backoff : N }.
(** [LaunchProcessEntry], launch.rs:213-227; [s_ctl] is the scheduler behind [control_topic]. *)
Record Entry := mkEntry { s_name : bytes; s_pid : N; s_count : N; s_ctl : option bytes }.
(** The launcher while it watches: its processes, its session, and the processes that exist. *)
Record Launcher := mkLauncher { lc_procs : list Proc; lc_session : list Entry; lc_alive : list N }.
(** What follows a successful start, launch.rs:495-501 and 530-552 *)
Definition watch_from (ps : list (LNode * N)) : Launcher :=
  mkLauncher (map (fun p => mkProc (l_name (fst p)) (snd p) (l_restart (fst p)) 0 INITIAL_BACKOFF) ps)
             (map (fun p => mkEntry (l_name (fst p)) (snd p) 0 None) ps) (map snd ps).
(** [LaunchControlCommand], launch.rs:121-131 *)
Inductive cmd := StopNode (name : bytes) | RestartNode (name : bytes) | StopAll.
(** What the launcher sends to others: SIGTERM to a process, or [GracefulShutdown] to a scheduler. *)
Inductive sent := Term (pid : N) | Graceful (scheduler : bytes).
(** [should_restart_node], launch.rs:1003-1009 *)
Definition should_restart (policy : bytes) (success : bool) : bool :=
  if beqb policy (bs "always") then true else if beqb policy (bs "on-failure") then negb success else false.
(** The first process with a name gets another policy, launch.rs:642-667. *)
Fixpoint force_restart (name : bytes) (ps : list Proc) : list Proc :=
  match ps with
  | [] => []
  | p :: r => if beqb (p_name p) name then mkProc (p_name p) (p_pid p) (bs "always") (p_count p) (p_backoff p) :: r else p :: force_restart name r
  end.
(** [GracefulShutdown] to the scheduler of a session entry, if it is known. *)
Definition graceful (e : option Entry) : list sent := match e with Some x => match s_ctl x with Some s => [Graceful s] | None => [] end | None => [] end.
(** One command, launch.rs:613-674: the state, what is sent, and whether to stop. *)
Definition command (c : cmd) (l : Launcher) : Launcher * list sent * bool :=
  match c with
  | StopNode name =>
      let e := find (fun e => beqb (s_name e) name) (lc_session l) in
      (l, match e with
          | Some _ => graceful e ++ match find (fun p => beqb (p_name p) name) (lc_procs l) with Some p => [Term (p_pid p)] | None => [] end
          | None => []
          end, false)
  | RestartNode name =>
      match find (fun p => beqb (p_name p) name) (lc_procs l) with
      | Some p => (mkLauncher (force_restart name (lc_procs l)) (lc_session l) (lc_alive l),
                   graceful (find (fun e => beqb (s_name e) name) (lc_session l)) ++ [Term (p_pid p)], false)
      | None => (l, [], false)
      end
  | StopAll => (l, [], true)
  end.
(** The commands of one round, launch.rs:611-676. *)
Fixpoint commands (cs : list cmd) (l : Launcher) : Launcher * list sent * bool :=
  match cs with
  | [] => (l, [], false)
  | c :: r => let '(l1, s1, b1) := command c l in let '(l2, s2, b2) := commands r l1 in (l2, s1 ++ s2, b1 || b2)
  end.
(** What a round finds of a process: it runs, or it is gone, successfully or not; with what starting it again would give. *)
Inductive obs := Still | Gone (success : bool) (respawn : option N).
(** One process in one round, launch.rs:705-793: what becomes of it, how long the launcher sleeps (milliseconds), whether its
    process is gone, and which process is new. *)
Definition tend (p : Proc) (o : obs) : option Proc * N * list N * list N :=
  match o with
  | Still => (Some p, 0, [], [])
  | Gone ok respawn =>
      if should_restart (p_restart p) ok && (p_count p <? MAX_RESTARTS) then
        match respawn with
        | Some q => (Some (mkProc (p_name p) q (p_restart p) (p_count p + 1) (N.min (p_backoff p * 2) MAX_BACKOFF)), p_backoff p, [p_pid p], [q])
        | None => (None, p_backoff p, [p_pid p], [])
        end
      else (None, 0, [p_pid p], [])
  end.
(** All of them: processes, sleep, gone, new. *)
Fixpoint tend_all (ps : list Proc) (os : list obs) : list Proc * N * list N * list N :=
  match ps, os with
  | p :: ps', o :: os' =>
      let '(q, t, g, n) := tend p o in let '(qs, t', g', n') := tend_all ps' os' in
      (match q with Some x => x :: qs | None => qs end, t + t', g ++ g', n ++ n')
  | _, _ => (ps, 0, [], [])
  end.
(** The session is told the processes, by their position: launch.rs:800-806. *)
Fixpoint update_session (ps : list Proc) (es : list Entry) : list Entry :=
  match ps, es with
  | p :: ps', e :: es' => mkEntry (s_name e) (p_pid p) (p_count p) (s_ctl e) :: update_session ps' es'
  | _, _ => es
  end.
(** [discover_schedulers], launch.rs:303-356: [sched_of] is the scheduler that the presence files give for a process ([None] inside
    if they give none), [known] the names in the scheduler directory. *)
Definition discover (sched_of : N -> option (option bytes)) (known : list bytes) (e : Entry) : Entry :=
  match s_ctl e with
  | Some _ => e
  | None =>
      match sched_of (s_pid e) with
      | Some s => mkEntry (s_name e) (s_pid e) (s_count e) s
      | None => if has_name (s_name e) known then mkEntry (s_name e) (s_pid e) (s_count e) (Some (s_name e)) else e
      end
  end.
(** What happens to a launcher in one round of its loop. *)
Record Round := mkRound { r_cmds : list cmd; r_estop : bool; r_obs : list obs; r_sched : N -> option (option bytes); r_known : list bytes }.
(** One round, launch.rs:607-819: the state, what was sent, for how long it slept, and whether the loop ends. *)
Definition round (l : Launcher) (r : Round) : Launcher * list sent * N * bool :=
  let '(l1, s1, stop) := commands (r_cmds r) l in
  if r_estop r then (l1, s1 ++ flat_map (fun e => graceful (Some e)) (lc_session l1), 0, true)
  else
    let '(ps, t, gone, new) := tend_all (lc_procs l1) (r_obs r) in
    let alive := filter (fun x => negb (existsb (N.eqb x) gone)) (lc_alive l1) ++ new in
    let es := map (discover (r_sched r) (r_known r)) (update_session ps (lc_session l1)) in
    (mkLauncher ps es alive, s1, t, stop || match ps with [] => true | _ => false end).
(** Rounds one after the other. *)
Fixpoint rounds (l : Launcher) (rs : list Round) : Launcher * list sent :=
  match rs with
  | [] => (l, [])
  | r :: rest => let '(l1, s1, _, _) := round l r in let '(l2, s2) := rounds l1 rest in (l2, s1 ++ s2)
  end.
(** The end, launch.rs:822-871: a process that still runs is killed and waited for. *)
Definition shut_down (l : Launcher) : list N := filter (fun x => negb (existsb (N.eqb x) (map p_pid (lc_procs l)))) (lc_alive l).
