(** Model of the replicator: horus_net/src/replicator.rs, what one received datagram does to this host and what one
    export pass sends.  It composes the models of the pieces (peer filter, discovery, guard, wire, fragments,
    dedup, flow control, token buckets, e-stop).

    Simplified: metrics, log lines, black-box events and the heartbeat table are left out (the last is
    Model/Heartbeat.v); the optimizer chain is empty, which is the default (config.rs:277, 404; Model/Optimize.v
    has the chain); [HashMap] iteration order is the order of the list, and the theorems hold for any list. *)
From Verif.Base Require Import Prelude Bytes AMap Str.
From Verif.Model Require Import Wire Fragment Registry NetFilter NetPath Reliability FlowControl Guard Estop Discovery EncodingSwap.
Open Scope N_scope.

(** replicator.rs:48-92 and config.rs: what does not change after start *)
Record Conf := mkConf {
  c_filter : PeerFilter; c_key : option bytes; c_policy : EstopRemotePolicy;
  c_import : ImportMode; c_export : ExportMode; c_timeout : N }.
(** replicator.rs:48-92: what does.  [r_last]: the readers' [last_write_idx] (shm_reader.rs:31-39). *)
Record Repl := mkRepl {
  r_disc : Disc; r_dedup : Dedup; r_latch : Latches; r_reasm : Reassembler; r_flow : FlowState;
  r_presence : Bucket; r_logs : Bucket; r_estop : Bucket;
  r_seq : N; r_frag : N; r_last : list (bytes * N) }.
(** What a step does outside the replicator.  [RTaken] records that a message was taken out of a datagram; it
    has no effect of its own. *)
Inductive reff :=
| RTaken (m : InMessage)
| RWrite (topic payload : bytes)
| RSend (to : Addr) (packet : bytes)
| RPresence (payload : bytes)
| RLogs (payload : bytes)
| RHalt (host : N) (reason : bytes).

(** The instant of a step: monotonic nanoseconds and wall-clock nanoseconds. *)
Record Clock := mkClock { k_mono : N; k_wall : N }.
(** The instant in milliseconds. *)
Definition k_ms (k : Clock) : N := k_mono k / 1000000.

(** Auxiliary: assignment to one field, where the code assigns to it in place. *)
Definition with_disc (r : Repl) (d : Disc) : Repl :=
  mkRepl d (r_dedup r) (r_latch r) (r_reasm r) (r_flow r) (r_presence r) (r_logs r) (r_estop r) (r_seq r) (r_frag r) (r_last r).
(** Auxiliary: assignment to one field, where the code assigns to it in place. *)
Definition with_dedup (r : Repl) (d : Dedup) : Repl :=
  mkRepl (r_disc r) d (r_latch r) (r_reasm r) (r_flow r) (r_presence r) (r_logs r) (r_estop r) (r_seq r) (r_frag r) (r_last r).
(** Auxiliary: assignment to one field, where the code assigns to it in place. *)
Definition with_latch (r : Repl) (l : Latches) : Repl :=
  mkRepl (r_disc r) (r_dedup r) l (r_reasm r) (r_flow r) (r_presence r) (r_logs r) (r_estop r) (r_seq r) (r_frag r) (r_last r).
(** Auxiliary: assignment to one field, where the code assigns to it in place. *)
Definition with_reasm (r : Repl) (x : Reassembler) : Repl :=
  mkRepl (r_disc r) (r_dedup r) (r_latch r) x (r_flow r) (r_presence r) (r_logs r) (r_estop r) (r_seq r) (r_frag r) (r_last r).
(** Auxiliary: assignment to one field, where the code assigns to it in place. *)
Definition with_flow (r : Repl) (f : FlowState) : Repl :=
  mkRepl (r_disc r) (r_dedup r) (r_latch r) (r_reasm r) f (r_presence r) (r_logs r) (r_estop r) (r_seq r) (r_frag r) (r_last r).
(** Auxiliary: assignment to one field, where the code assigns to it in place. *)
Definition with_presence (r : Repl) (b : Bucket) : Repl :=
  mkRepl (r_disc r) (r_dedup r) (r_latch r) (r_reasm r) (r_flow r) b (r_logs r) (r_estop r) (r_seq r) (r_frag r) (r_last r).
(** Auxiliary: assignment to one field, where the code assigns to it in place. *)
Definition with_logs (r : Repl) (b : Bucket) : Repl :=
  mkRepl (r_disc r) (r_dedup r) (r_latch r) (r_reasm r) (r_flow r) (r_presence r) b (r_estop r) (r_seq r) (r_frag r) (r_last r).
(** Auxiliary: assignment to one field, where the code assigns to it in place. *)
Definition with_estop (r : Repl) (b : Bucket) : Repl :=
  mkRepl (r_disc r) (r_dedup r) (r_latch r) (r_reasm r) (r_flow r) (r_presence r) (r_logs r) b (r_seq r) (r_frag r) (r_last r).
(** Auxiliary: assignment to one field, where the code assigns to it in place. *)
Definition with_seq (r : Repl) (s : N) : Repl :=
  mkRepl (r_disc r) (r_dedup r) (r_latch r) (r_reasm r) (r_flow r) (r_presence r) (r_logs r) (r_estop r) s (r_frag r) (r_last r).
(** Auxiliary: assignment to one field, where the code assigns to it in place. *)
Definition with_export (r : Repl) (s f : N) (last : list (bytes * N)) (l : Latches) : Repl :=
  mkRepl (r_disc r) (r_dedup r) l (r_reasm r) (r_flow r) (r_presence r) (r_logs r) (r_estop r) s f last.

(** replicator.rs:103-170 [new]: a replicator of peer [me] at time [now] *)
Definition repl_new (me secret : bytes) (now : N) : Repl :=
  mkRepl (mkDisc me secret [] [] []) [] [] reassembler_new [] (presence_bucket now) (logs_bucket now) (estop_bucket now) 0 0 [].

(** replicator.rs:1050-1064 [topic_name_by_hash], [find_writer_by_hash]: the first writer with that hash *)
Definition writer_by_hash (writers : list bytes) (h : N) : option bytes :=
  find (fun name => topic_hash name =? h) writers.

(** replicator.rs:1042: readers that are no longer matched are dropped, and with them their position *)
Definition forget (r : Repl) : Repl :=
  with_export r (r_seq r) (r_frag r) (filter (fun kv => existsb (beqb (fst kv)) (d_readers (r_disc r))) (r_last r)) (r_latch r).

(** replicator.rs:916-954 [frame_system_topic]: how this host's own system messages are framed; [sq] is the
    incremented [system_seq].  The packet number is not advanced. *)
Definition system_priority (name : bytes) : Priority :=
  if beqb name SYSTEM_TOPIC_ESTOP then Immediate else if beqb name SYSTEM_TOPIC_PRESENCE then Normal
  else if beqb name SYSTEM_TOPIC_LOGS then Bulk else Normal.
(** priority.rs:111-119: the stop is sent latched. *)
Definition system_reliability (name : bytes) : Reliability := if beqb name SYSTEM_TOPIC_ESTOP then Latched else RelNone.
(** replicator.rs:916-954 [frame_system_topic] *)
Definition frame_system_topic (peer_hash pseq sq : N) (name payload : bytes) : option bytes :=
  if MAX_UDP_PAYLOAD <? 12 + 24 + N.of_nat (length payload) then None
  else Some (encode_packet_header (packet_header_new 0 peer_hash pseq) ++
             encode_message_header (mkMH (topic_hash name) (N.of_nat (length payload)) 0 sq (system_priority name)
               (system_reliability name) Bincode (peer_hash mod 256)) ++ payload).

Section Replicator.
  Variable order : Peers -> Peers.
  Variable can_open : bytes -> bool.
  Variable conf : Conf.

  (** replicator.rs:489-532: the import guard and the type check, for the writer found under the hash *)
  Definition import_refused (reg : Registry) (r : Repl) (from : Addr) (name : bytes) : bool :=
    if negb (allow_import (mkGuard (c_import conf) (c_export conf) (Some reg)) name) then true
    else match lookup beqb name reg with
         | None => false
         | Some e =>
             let remote := match announced_type_hash (d_peers (r_disc r)) from name with Some h => h | None => 0 end in
             negb (te_type_hash e =? 0) && negb (remote =? 0) && negb (te_type_hash e =? remote)
         end.
  (** replicator.rs:534-570: conversion, the write, the acknowledgement *)
  Definition import (r : Repl) (from : Addr) (m : InMessage) : Repl * list reff :=
    let payload := snd (process_incoming_payload (om_payload m) (om_enc m) (length (om_payload m))) in
    let written := match writer_by_hash (d_writers (r_disc r)) (om_topic m) with
                   | Some name => [RWrite name payload]
                   | None => []
                   end in
    match om_rel m with
    | Latched =>
        let ack := encode_ack (peer_id_hash (d_me (r_disc r))) (r_seq r) (mkAP (om_topic m) (om_seq m)) in
        (with_seq r ((r_seq r + 1) mod 2 ^ 32), written ++ [RSend from ack])
    | _ => (r, written)
    end.
  (** replicator.rs:431-571; [None]: the counters of flow_control.rs:90-119 overflowed (a panic in a build with
      overflow checks; see FlowControl.v) *)
  Definition process_incoming_message (now : Clock) (reg : Registry) (from : Addr) (sender : N) (m : InMessage) (r : Repl)
    : option (Repl * list reff) :=
    match on_received (k_mono now) (r_flow r) sender (om_topic m) (om_seq m) with
    | None => None
    | Some flow =>
        let r := with_flow r flow in
        let h := om_topic m in
        let tail :=
          if h =? topic_hash SYSTEM_TOPIC_PRESENCE then
            let '(b, ok) := bucket_take (k_mono now) (r_presence r) in
            (with_presence r b, if ok then [RPresence (om_payload m)] else [])
          else if h =? topic_hash SYSTEM_TOPIC_LOGS then
            let '(b, ok) := bucket_take (k_mono now) (r_logs r) in
            (with_logs r b, if ok then [RLogs (om_payload m)] else [])
          else if h =? topic_hash SYSTEM_TOPIC_ESTOP then
            if negb (estop_packet_is_authentic (c_key conf) (om_payload m)) then (r, [])
            else
              let '(b, ok) := bucket_take (k_mono now) (r_estop r) in
              (with_estop r b,
               if ok then match handle_remote_estop (om_payload m) (c_policy conf) (c_key conf) (k_wall now) with
                          | Some (host, reason) => [RHalt host reason]
                          | None => []
                          end
               else [])
          else
            match writer_by_hash (d_writers (r_disc r)) h with
            | Some name => if import_refused reg r from name then (r, []) else import r from m
            | None => import r from m
            end in
        Some (fst tail, RTaken m :: snd tail)
    end.
  (** replicator.rs:424-426 *)
  Fixpoint process_messages (now : Clock) (reg : Registry) (from : Addr) (sender : N) (ms : list InMessage) (r : Repl)
    : option (Repl * list reff) :=
    match ms with
    | [] => Some (r, [])
    | m :: rest =>
        match process_incoming_message now reg from sender m r with
        | None => None
        | Some (r1, out1) =>
            match process_messages now reg from sender rest r1 with
            | None => None
            | Some (r2, out2) => Some (r2, out1 ++ out2)
            end
        end
    end.
  (** replicator.rs:285-427 *)
  Definition process_packet (now : Clock) (reg : Registry) (from : Addr) (buf : bytes) (r : Repl)
    : option (Repl * list reff) :=
    if negb (admits (c_filter conf) (fst from)) then Some (r, [])
    else
      match decode_announcement buf from with
      | Some ann => Some (forget (with_disc r (on_announcement order can_open (k_mono now) reg ann (r_disc r))), [])
      | None =>
        match decode_packet_header buf with
        | None => Some (r, [])
        | Some h =>
          if has_flag (ph_flags h) FLAG_HEARTBEAT then Some (r, [])
          else if has_flag (ph_flags h) FLAG_ACK then
            match decode_ack buf with
            | Some a => Some (with_latch r (on_ack (r_latch r) (ap_topic a) (ap_seq a)), [])
            | None => Some (r, [])
            end
          else if has_flag (ph_flags h) FLAG_FRAGMENT then
            match parse_fragment buf with
            | None => Some (r, [])
            | Some f =>
                let '(re, out) := feed (k_ms now) (r_reasm r) f in
                let r := with_reasm r re in
                match out with
                | Some x => process_incoming_message now reg from (ph_sender h) (reassembled_msg x) r
                | None => Some (r, [])
                end
            end
          else
            match decode_packet buf with
            | None => Some (r, [])
            | Some (_, ms) =>
                let '(d, ms) := dedup_messages (r_dedup r) (ph_sender h) ms in
                process_messages now reg from (ph_sender h) ms (with_dedup r d)
            end
        end
      end.

  (** ** Export: replicator.rs:577-686 *)
  (** priority.rs:44-59 with [node_has_budget = false] *)
  Definition auto_infer (name : bytes) (size : nat) : Priority :=
    match infer_from_topic name with
    | Immediate => Immediate
    | _ => if 65536 <? N.of_nat size then Bulk else Normal
    end.
  (** replicator.rs:599-611: the message built from what the topic's reader returned *)
  Definition out_message (name payload : bytes) (idx : N) (e : Encoding) : OutMessage :=
    let p := auto_infer name (length payload) in
    mkOut (topic_hash name) payload 0 (idx mod 2 ^ 32) p (reliability_default_for p) e.
  (** shm_reader.rs:71-100: [tap name] is the topic's newest message as the shared memory shows it *)
  Definition try_read_latest (tap : bytes -> option (N * bytes * Encoding)) (last : list (bytes * N)) (name : bytes)
    : option (N * bytes * Encoding) :=
    match tap name with
    | Some (idx, payload, e) =>
        if (idx =? 0) || (idx =? match lookup beqb name last with Some i => i | None => 0 end) then None
        else Some (idx, payload, e)
    | None => None
    end.
  (** replicator.rs:578-612 *)
  Definition export_names (r : Repl) (reg : Registry) : list bytes :=
    filter (fun n => has_remote_subscribers (d_peers (r_disc r)) n
                     && allow_export (mkGuard (c_import conf) (c_export conf) (Some reg)) n) (d_readers (r_disc r)).
  (** replicator.rs:588-611: the tap of every exported topic *)
  Fixpoint read_all (tap : bytes -> option (N * bytes * Encoding)) (names : list bytes) (last : list (bytes * N))
    : list (bytes * N) * list (bytes * OutMessage) :=
    match names with
    | [] => (last, [])
    | n :: rest =>
        match try_read_latest tap last n with
        | Some (idx, payload, e) =>
            let '(last', out) := read_all tap rest (insert beqb n idx last) in
            (last', (n, out_message n payload idx e) :: out)
        | None => read_all tap rest last
        end
    end.
  (** replicator.rs:666-678: the copies of one datagram *)
  Definition send_copies (r : Repl) (m : OutMessage) (subs : list (bytes * PeerInfo)) (packet : bytes) : list reff :=
    if (length packet =? 0)%nat then []
    else flat_map (fun _ =>
           flat_map (fun kp => if transmit_allowed (r_flow r) (om_prio m) (peer_id_hash (fst kp)) (om_topic m)
                               then [RSend (data_addr (snd kp)) packet] else []) subs)
         (repeat tt (N.to_nat (copies_for (om_rel m)))).
  (** replicator.rs:620-685: one message of the outbox *)
  Definition export_one (now : Clock) (r : Repl) (nm : bytes * OutMessage) : Repl * list reff :=
    let '(name, m) := nm in
    let '(fid, frags) := fragment (r_frag r) m in
    let packets := export_fragments (peer_id_hash (d_me (r_disc r))) (r_seq r) frags in
    let subs := subscribers_of (d_peers (r_disc r)) name in
    let latches := match om_rel m with
                   | Latched => start_latch (k_ms now) (r_latch r) (om_topic m) (om_seq m) (om_payload m)
                   | _ => r_latch r
                   end in
    (with_export r ((r_seq r + N.of_nat (length frags)) mod 2 ^ 32) fid (r_last r) latches,
     flat_map (send_copies r m subs) packets).
  (** replicator.rs:620-684: the outbox in order *)
  Fixpoint export_all (now : Clock) (r : Repl) (outbox : list (bytes * OutMessage)) : Repl * list reff :=
    match outbox with
    | [] => (r, [])
    | nm :: rest =>
        let '(r1, out1) := export_one now r nm in
        let '(r2, out2) := export_all now r1 rest in (r2, out1 ++ out2)
    end.
  (** replicator.rs:577-685 [handle_export] *)
  Definition handle_export (now : Clock) (reg : Registry) (tap : bytes -> option (N * bytes * Encoding)) (r : Repl)
    : Repl * list reff :=
    let '(last, outbox) := read_all tap (export_names r reg) (r_last r) in
    export_all now (with_export r (r_seq r) (r_frag r) last (r_latch r)) outbox.

  (** ** The timer: replicator.rs:692-902, the parts that use these pieces *)
  (** replicator.rs:745-777 *)
  Fixpoint resend_all (r : Repl) (l : list ((N * N) * bytes)) : Repl * list reff :=
    match l with
    | [] => (r, [])
    | ((topic, sq), payload) :: rest =>
        let packet := encode_single (packet_header_new 0 (peer_id_hash (d_me (r_disc r))) (r_seq r))
                        (mkOut topic payload 0 sq Immediate Latched PodLe) 65536 in
        let out := if (length packet =? 0)%nat then []
                   else map (fun kp => RSend (data_addr (snd kp)) packet) (alive_peers (d_peers (r_disc r))) in
        let '(r2, out2) := resend_all (with_seq r ((r_seq r + 1) mod 2 ^ 32)) rest in (r2, out ++ out2)
    end.
  (** [second]: whether DISCOVERY_INTERVAL has passed *)
  Definition handle_timer (now : Clock) (reg : Registry) (tap : bytes -> option (N * bytes * Encoding)) (second : bool) (r : Repl)
    : Repl * list reff :=
    let '(r, out1) := handle_export now reg tap r in
    let '(latch, due) := tick_resends (k_ms now) (r_latch r) in
    let '(r, out2) := resend_all (with_latch r latch) due in
    let r := with_reasm r (gc_stale (k_ms now) (r_reasm r)) in
    let r := if second then forget (with_disc r (fst (on_liveness order can_open (c_timeout conf) (k_mono now) reg (r_disc r)))) else r in
    (r, out1 ++ out2).

  (** A history: what happened, when, and the registry and shared memory at that moment. *)
  Inductive rev :=
  | EvPacket (from : Addr) (buf : bytes)
  | EvExport (tap : bytes -> option (N * bytes * Encoding))
  | EvTimer (tap : bytes -> option (N * bytes * Encoding)) (second : bool).
  (** One event of a history: applies the function above that the event names; no code of its own. *)
  Definition rstep (r : Repl) (now : Clock) (reg : Registry) (e : rev) : option (Repl * list reff) :=
    match e with
    | EvPacket from buf => process_packet now reg from buf r
    | EvExport tap => Some (handle_export now reg tap r)
    | EvTimer tap second => Some (handle_timer now reg tap second r)
    end.
  (** A whole history, event by event; no code of its own. *)
  Fixpoint rrun (r : Repl) (h : list (Clock * Registry * rev)) : option (Repl * list (list reff)) :=
    match h with
    | [] => Some (r, [])
    | (now, reg, e) :: rest =>
        match rstep r now reg e with
        | None => None
        | Some (r1, out) =>
            match rrun r1 rest with
            | None => None
            | Some (r2, outs) => Some (r2, out :: outs)
            end
        end
    end.
End Replicator.

(** ** The socket and its edge-triggered wake-up *)
(** event_loop/epoll.rs:174-178 registers the socket with EPOLLIN|EPOLLET: the wait returns for it once after new
    data came in.  replicator.rs:243-272 then reads until the socket is empty or 256 datagrams were read.
    [so_drain]: what is left of that budget while the loop runs. *)
Record Sock := mkSock { so_queue : list bytes; so_edge : bool; so_drain : option nat; so_read : list bytes }.
(** A socket just opened. *)
Definition sock_new : Sock := mkSock [] false None [].
(** replicator.rs:260 (datagrams read per wake-up) *)
Definition MAX_DATAGRAMS_PER_WAKEUP : nat := 256.
(** A datagram comes in, or the replicator thread takes one step: a wait that returns for the socket, one
    [recv_from], or (when there is no edge) a wait that times out and runs [handle_timer], which does not read. *)
Inductive sev := SArrive (d : bytes) | SStep.
(** One event of a history: applies the function above that the event names; no code of its own. *)
Definition sock_step (s : Sock) (e : sev) : Sock :=
  match e with
  | SArrive d => mkSock (so_queue s ++ [d]) true (so_drain s) (so_read s)
  | SStep =>
      match so_drain s with
      | None => if so_edge s then mkSock (so_queue s) false (Some MAX_DATAGRAMS_PER_WAKEUP) (so_read s) else s
      | Some O => mkSock (so_queue s) (so_edge s) None (so_read s)
      | Some (S n) =>
          match so_queue s with
          | [] => mkSock [] (so_edge s) None (so_read s)
          | d :: q => mkSock q (so_edge s) (Some n) (so_read s ++ [d])
          end
      end
  end.
(** A whole history, event by event; no code of its own. *)
Definition sock_run (evs : list sev) : Sock := fold_left sock_step evs sock_new.
