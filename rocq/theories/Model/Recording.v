(** Recording and replay: horus_core/src/scheduling/record_replay.rs, horus_core/src/scheduling/scheduler/recording.rs and
    the places of horus_core/src/scheduling/scheduler/mod.rs and of the executors that use them.

    A [HashMap] is an association list; nothing depends on its order except where an order is an argument.  Instants are
    microseconds.  Left out: compression, [config], [topic_types], [source_host], [is_remote], [schema_version]. *)
From Coq Require Import String.
From Verif.Base Require Import Prelude Bytes AMap Str.
Local Open Scope N_scope.
Local Open Scope list_scope.

(** ** Snapshots and recordings *)
(** [NodeTickSnapshot], record_replay.rs:385-406 *)
Record Snap := mkSnap { sn_tick : N; sn_time : N; sn_in : list (bytes * bytes); sn_out : list (bytes * bytes); sn_state : option bytes; sn_dur : N }.
(** [NodeRecording], record_replay.rs:476-504 *)
Record Rec := mkRec { r_id : bytes; r_name : bytes; r_session : bytes; r_ended : option N; r_first : N; r_last : N; r_snaps : list Snap }.
(** [NodeRecording::new], record_replay.rs:507-524 *)
Definition rec_new (name id session : bytes) : Rec := mkRec id name session None 0 0 [].
(** [add_snapshot], record_replay.rs:534-540 *)
Definition add_snapshot (r : Rec) (s : Snap) : Rec :=
  mkRec (r_id r) (r_name r) (r_session r) (r_ended r) (match r_snaps r with [] => sn_tick s | _ => r_first r end) (sn_tick s) (r_snaps r ++ [s]).
(** [snapshot], record_replay.rs:543-545 *)
Definition snapshot (r : Rec) (tick : N) : option Snap := find (fun s => sn_tick s =? tick) (r_snaps r).
(** [snapshots_range], record_replay.rs:548-553 *)
Definition snapshots_range (r : Rec) (a b : N) : list Snap := filter (fun s => (a <=? sn_tick s) && (sn_tick s <=? b)) (r_snaps r).

(** ** The recorder *)
(** The fields of [RecordingConfig] used while recording, record_replay.rs:55-76 *)
Record RecCfg := mkRecCfg { cf_interval : N; cf_in : bool; cf_out : bool; cf_timing : bool; cf_max_size : N; cf_max_snaps : nat }.
(** [NodeRecorder], record_replay.rs:638-653, without its capacity hint *)
Record Recorder := mkRecorder { rc_rec : Rec; rc_cfg : RecCfg; rc_cur : option Snap; rc_on : bool; rc_size : N }.
(** [NodeRecorder::new], record_replay.rs:656-671 *)
Definition recorder_new (name id session : bytes) (cfg : RecCfg) : Recorder := mkRecorder (rec_new name id session) cfg None true 0.
(** [begin_tick], record_replay.rs:677-696; [now] is the recorder's own time stamp *)
Definition begin_tick (tick now : N) (rc : Recorder) : Recorder :=
  if negb (rc_on rc) then rc
  else if negb (tick mod N.max 1 (cf_interval (rc_cfg rc)) =? 0) then mkRecorder (rc_rec rc) (rc_cfg rc) None (rc_on rc) (rc_size rc)
  else mkRecorder (rc_rec rc) (rc_cfg rc) (Some (mkSnap tick now [] [] None 0)) (rc_on rc) (rc_size rc).
(** [record_input], record_replay.rs:784-790 *)
Definition record_input (topic data : bytes) (rc : Recorder) : Recorder :=
  if cf_in (rc_cfg rc) then
    match rc_cur rc with
    | Some s => mkRecorder (rc_rec rc) (rc_cfg rc) (Some (mkSnap (sn_tick s) (sn_time s) (insert beqb topic data (sn_in s)) (sn_out s) (sn_state s) (sn_dur s))) (rc_on rc) (rc_size rc)
    | None => rc
    end
  else rc.
(** [record_output], record_replay.rs:797-803 *)
Definition record_output (topic data : bytes) (rc : Recorder) : Recorder :=
  if cf_out (rc_cfg rc) then
    match rc_cur rc with
    | Some s => mkRecorder (rc_rec rc) (rc_cfg rc) (Some (mkSnap (sn_tick s) (sn_time s) (sn_in s) (insert beqb topic data (sn_out s)) (sn_state s) (sn_dur s))) (rc_on rc) (rc_size rc)
    | None => rc
    end
  else rc.
(** The bytes of the messages of a map. *)
Definition data_size (m : list (bytes * bytes)) : N := fold_right (fun p n => N.of_nat (length (snd p)) + n) 0 m.
(** The size a snapshot is charged with, record_replay.rs:714-716 *)
Definition snap_size (s : Snap) : N := 64 + data_size (sn_in s) + data_size (sn_out s).
(** The oldest snapshots go, record_replay.rs:727-736 *)
Definition evict (max : nat) (r : Rec) : Rec :=
  if (0 <? max)%nat && (max <? length (r_snaps r))%nat then
    let kept := skipn (length (r_snaps r) - max) (r_snaps r) in
    mkRec (r_id r) (r_name r) (r_session r) (r_ended r) (match kept with s :: _ => sn_tick s | [] => r_first r end) (r_last r) kept
  else r.
(** [end_tick], record_replay.rs:699-738 *)
Definition end_tick (dur : N) (rc : Recorder) : Recorder :=
  match rc_cur rc with
  | None => rc
  | Some s0 =>
      let s := if cf_timing (rc_cfg rc) then mkSnap (sn_tick s0) (sn_time s0) (sn_in s0) (sn_out s0) (sn_state s0) dur else s0 in
      let size := rc_size rc + snap_size s in
      if (0 <? cf_max_size (rc_cfg rc)) && (cf_max_size (rc_cfg rc) <? size) then mkRecorder (rc_rec rc) (rc_cfg rc) None false size
      else mkRecorder (evict (cf_max_snaps (rc_cfg rc)) (add_snapshot (rc_rec rc) s)) (rc_cfg rc) None (rc_on rc) size
  end.
(** One tick of a recorded node on the main thread, scheduler/mod.rs:4277-4307 and 4503-4535: its inputs are what is
    newest on the topics it subscribes to, its outputs what is newest on those it publishes to, whether or not it
    published anything during this tick. *)
Record Tick := mkTick { t_tick : N; t_now : N; t_in : list (bytes * bytes); t_out : list (bytes * bytes); t_dur : N }.
(** One such tick, seen by the recorder; no code of its own. *)
Definition record_tick (rc : Recorder) (t : Tick) : Recorder :=
  end_tick (t_dur t)
    (fold_left (fun rc p => record_output (fst p) (snd p) rc) (t_out t)
      (fold_left (fun rc p => record_input (fst p) (snd p) rc) (t_in t) (begin_tick (t_tick t) (t_now t) rc))).
(** A tick of a node on a real-time thread, rt_executor.rs:213-237 and 285-287: tick number 0, no outputs. *)
Definition rt_tick (t : Tick) : Tick := mkTick 0 (t_now t) (t_in t) [] (t_dur t).
(** A tick of a compute or async node, compute_executor.rs:184-185 and 322-324, async_executor.rs:174-176 and 277-279:
    tick number 0, neither inputs nor outputs. *)
Definition pool_tick (t : Tick) : Tick := mkTick 0 (t_now t) [] [] (t_dur t).
(** The ticks of a node that publishes on one topic, as the recorder sees them, scheduler/mod.rs:4503-4530: [pubs] are the
    messages of each tick; the output is the newest message on the topic, [read_latest_slot_bytes] with no position. *)
Fixpoint node_ticks (topic : bytes) (tick : N) (newest : option bytes) (pubs : list (list bytes)) : list Tick :=
  match pubs with
  | [] => []
  | ms :: r =>
      let newest' := match rev ms with m :: _ => Some m | [] => newest end in
      mkTick tick 0 [] (match newest' with Some m => [(topic, m)] | None => [] end) 0 :: node_ticks topic (tick + 1) newest' r
  end.
(** What [finish] leaves in the recording, record_replay.rs:205-212 and 741-743; [None] if there is nothing to save. *)
Definition finish (now : N) (rc : Recorder) : option Rec :=
  let r := rc_rec rc in
  match r_snaps r with
  | [] => None
  | _ => Some (mkRec (r_id r) (r_name r) (r_session r) (Some now) (r_first r) (r_last r) (r_snaps r))
  end.

(** ** The replayer *)
(** [NodeReplayer], record_replay.rs:807-811 *)
Record Replayer := mkReplayer { rp_rec : Rec; rp_idx : nat; rp_tick : N }.
(** [from_recording] and the end of [load], record_replay.rs:830-844 *)
Definition replayer_new (r : Rec) : Replayer := mkReplayer r 0 0.
(** [current_snapshot], record_replay.rs:846-848 *)
Definition current (rp : Replayer) : option Snap := nth_error (r_snaps (rp_rec rp)) (rp_idx rp).
(** [advance], record_replay.rs:861-871 *)
Definition advance (rp : Replayer) : Replayer * bool :=
  if (rp_idx rp + 1 <? length (r_snaps (rp_rec rp)))%nat then
    (mkReplayer (rp_rec rp) (rp_idx rp + 1) (match nth_error (r_snaps (rp_rec rp)) (rp_idx rp + 1) with Some s => sn_tick s | None => rp_tick rp end), true)
  else (rp, false).
(** Where [seek] goes, record_replay.rs:874-883: the first snapshot at or after the tick. *)
Fixpoint seek_from (i : nat) (l : list Snap) (tick : N) : option (nat * N) :=
  match l with
  | [] => None
  | s :: r => if tick <=? sn_tick s then Some (i, sn_tick s) else seek_from (S i) r tick
  end.
(** [seek], record_replay.rs:874-883 *)
Definition seek (tick : N) (rp : Replayer) : Replayer * bool :=
  match seek_from 0 (r_snaps (rp_rec rp)) tick with
  | Some (i, t) => (mkReplayer (rp_rec rp) i t, true)
  | None => (rp, false)
  end.
(** [reset], record_replay.rs:886-889 *)
Definition reset (rp : Replayer) : Replayer := mkReplayer (rp_rec rp) 0 (r_first (rp_rec rp)).

(** ** A replaying scheduler *)
(** What a replay node publishes in one tick, scheduler/mod.rs:4309-4330: the outputs of the current snapshot, with
    the overrides; the replayer moves on. *)
Definition replay_tick (overrides : list (bytes * bytes)) (rp : Replayer) : Replayer * list (bytes * bytes) :=
  match current rp with
  | None => (rp, [])
  | Some s => (fst (advance rp), map (fun p => (fst p, match lookup beqb (fst p) overrides with Some v => v | None => snd p end)) (sn_out s))
  end.
(** [n] ticks of the scheduler; no code of its own. *)
Fixpoint replay_ticks (overrides : list (bytes * bytes)) (n : nat) (rp : Replayer) : Replayer * list (list (bytes * bytes)) :=
  match n with
  | O => (rp, [])
  | S k => let '(rp1, o) := replay_tick overrides rp in let '(rp2, os) := replay_ticks overrides k rp1 in (rp2, o :: os)
  end.
(** [start_at_tick], recording.rs:209-218, for one node: whether the tick was found is not looked at. *)
Definition start_at_tick (tick : N) (rp : Replayer) : Replayer := fst (seek tick rp).

(** ** The recording of a scheduler *)
(** [SchedulerRecording], record_replay.rs:582-599; the map of node recordings in the order of its iteration *)
Record SchedRec := mkSchedRec { sr_started : N; sr_ended : option N; sr_total : N; sr_nodes : list (bytes * bytes); sr_order : list (list bytes) }.
(** [SchedulerRecording::new], record_replay.rs:602-616 *)
Definition sched_rec_new (now : N) : SchedRec := mkSchedRec now None 0 [] [].
(** A node is added to a recording scheduler, scheduler/mod.rs:1789-1803: the file it names. *)
Definition sched_add (name id : bytes) (sr : SchedRec) : SchedRec :=
  mkSchedRec (sr_started sr) (sr_ended sr) (sr_total sr) (insert beqb id (name ++ bs "@" ++ id ++ bs ".horus") (sr_nodes sr)) (sr_order sr).
(** One tick is recorded, scheduler/mod.rs:2218-2241 (only in [tick_once]). *)
Definition sched_tick (order : list bytes) (sr : SchedRec) : SchedRec :=
  mkSchedRec (sr_started sr) (sr_ended sr) (sr_total sr) (sr_nodes sr) (sr_order sr ++ [order]).
(** [finish], record_replay.rs:205-212 *)
Definition sched_finish (now : N) (sr : SchedRec) : SchedRec := mkSchedRec (sr_started sr) (Some now) (sr_total sr) (sr_nodes sr) (sr_order sr).
(** recording.rs:348 *)
Definition DEFAULT_PERIOD_NS : N := 10000000.
(** [replay_tick_period_ns], recording.rs:347-358 *)
Definition replay_period (started : N) (ended : option N) (total : N) : N :=
  if total =? 0 then DEFAULT_PERIOD_NS
  else match ended with
       | Some e => if e <? started then DEFAULT_PERIOD_NS
                   else let p := N.min ((e - started) * 1000) (2 ^ 64 - 1) / total in if p =? 0 then DEFAULT_PERIOD_NS else p
       | None => DEFAULT_PERIOD_NS
       end.
(** The time stamps of the replay's clock, recording.rs:135-164; [None] when the recording is refused. *)
Definition replay_times (sr : SchedRec) : option (list N) :=
  if 100000000 <? sr_total sr then None
  else Some (map (fun i => N.of_nat i * replay_period (sr_started sr) (sr_ended sr) (sr_total sr)) (seq 0 (N.to_nat (sr_total sr)))).
(** [ReplayClock], core/clock.rs:196-201 *)
Record RClock := mkRClock { ck_times : list N; ck_idx : nat }.
(** [ReplayClock::now] and [elapsed], core/clock.rs:231-240 and 255-257 *)
Definition ck_now (c : RClock) : N :=
  match nth_error (ck_times c) (ck_idx c) with
  | Some t => t
  | None => last (ck_times c) 0
  end.
(** [ReplayClock::advance], core/clock.rs:243-249 *)
Definition ck_advance (c : RClock) : RClock :=
  if (ck_idx c <? length (ck_times c) - 1)%nat then mkRClock (ck_times c) (S (ck_idx c)) else c.
(** The position of a node in the first recorded order, recording.rs:184-194. *)
Fixpoint position (name : bytes) (i : N) (order : list bytes) : option N :=
  match order with
  | [] => None
  | x :: r => match position name (i + 1) r with Some j => Some j | None => if beqb x name then Some i else None end
  end.
(** The priority a replayed node gets, recording.rs:207: the recorded order holds names, it is searched for the id. *)
Definition replay_priority (sr : SchedRec) (id : bytes) : N :=
  match sr_order sr with
  | [] => 0
  | o :: _ => match position id 0 o with Some p => p | None => 0 end
  end.
(** [sort_by_key], stable: recording.rs:99 after every [push]. *)
Fixpoint put {A} (p : N) (x : A) (l : list (N * A)) : list (N * A) :=
  match l with
  | [] => [(p, x)]
  | (q, y) :: r => if p <? q then (p, x) :: l else (q, y) :: put p x r
  end.
(** [replay_from], recording.rs:196-215: which nodes run, in which order.  [load] reads a file of the session. *)
Definition replay_nodes {A} (load : bytes -> option A) (path_of : bytes -> bytes) (sr : SchedRec) : list (N * A) :=
  fold_left (fun l e => match load (path_of (snd e)) with Some x => put (replay_priority sr (fst e)) x l | None => l end) (sr_nodes sr) [].

(** ** File names *)
(** The components of a path, [Path::components]: split at [/]. *)
Fixpoint split_slash (acc s : bytes) : list bytes :=
  match s with
  | [] => [rev acc]
  | c :: r => if c =? 47 then rev acc :: split_slash [] r else split_slash (c :: acc) r
  end.
(** A [Component::Normal]. *)
Definition normal (c : bytes) : bool := negb (beqb c [] || beqb c (bs ".") || beqb c (bs "..")).
(** [sanitize_path_component], record_replay.rs:21-37 *)
Definition sanitize (s : bytes) : bytes := last (filter normal (split_slash [] s)) (bs "unnamed").
(** [str::replace('@', "_")] *)
Definition no_at (s : bytes) : bytes := map (fun c => if c =? 64 then 95 else c) s.
(** The file name of a node recording, record_replay.rs:126-131 *)
Definition node_file (name id : bytes) : bytes := no_at (sanitize name) ++ bs "@" ++ no_at (sanitize id) ++ bs ".horus".
(** [session_dir] and [node_path], record_replay.rs:116-131, as the components below the base directory *)
Definition node_path (session name id : bytes) : list bytes := [sanitize session; node_file name id].
(** The file [replay_from] looks for, recording.rs:203-205 *)
Definition replay_file (relative : bytes) : bytes := sanitize relative.

(** ** Saving and loading *)
Section Files.
  Context {T : Type}.
  (** [bincode::serialize], record_replay.rs:263 *)
  Variable enc : T -> bytes.
  (** [bincode::deserialize], record_replay.rs:311 *)
  Variable dec : bytes -> option T.
  (** [bincode::deserialize_from] of a file without header, record_replay.rs:369-371 *)
  Variable dec_legacy : bytes -> option T.
  (** record_replay.rs:187 and 190 *)
  Definition MAGIC : bytes := bs "HORUS" ++ [0].
  (** What a file begins with, record_replay.rs:258-259 *)
  Definition header : bytes := MAGIC ++ le_enc 4 1.
  (** record_replay.rs:278 *)
  Definition MAX_RECORDING_SIZE : N := 104857600.
  (** The file system operations of [save], record_replay.rs:226-268: the temporary file is made, written in pieces
      (the buffered writer decides where they end) and renamed.  No [fsync] takes place; what follows is about a process that dies,
      not about a machine that loses power. *)
  Inductive fsop := FsCreate (p : bytes) | FsWrite (p : bytes) (d : bytes) | FsRename (p q : bytes).
  (** Files by name. *)
  Definition FS := list (bytes * bytes).
  (** One operation. *)
  Definition fs_step (f : FS) (o : fsop) : FS :=
    match o with
    | FsCreate p => insert beqb p [] f
    | FsWrite p d => match lookup beqb p f with Some old => insert beqb p (old ++ d) f | None => f end
    | FsRename p q => match lookup beqb p f with Some d => insert beqb q d (remove beqb p f) | None => f end
    end.
  (** [with_extension("horus.tmp")] of a name that ends in [.horus], record_replay.rs:234 *)
  Definition tmp_of (path : bytes) : bytes := path ++ bs ".tmp".
  (** The operations of a save whose writes come in these pieces, record_replay.rs:234-266. *)
  Definition save_ops (path : bytes) (pieces : list bytes) : list fsop :=
    FsCreate (tmp_of path) :: map (FsWrite (tmp_of path)) pieces ++ [FsRename (tmp_of path) path].
  (** [load], record_replay.rs:274-381, without compression *)
  Definition load (content : bytes) : option T :=
    if MAX_RECORDING_SIZE <? N.of_nat (length content) then None
    else if (length content <? 6)%nat then dec_legacy content
    else if beqb (firstn 6 content) MAGIC then
      if (length content <? 10)%nat then None
      else if le_dec (firstn 4 (skipn 6 content)) =? 1 then dec (skipn 10 content) else None
    else dec_legacy content.
End Files.
