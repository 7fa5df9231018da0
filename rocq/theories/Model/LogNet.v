(** Log entries sent to other machines: horus_net/src/log_replication.rs and its use in horus_net/src/replicator.rs:815-818, 957-966.

    Left out: the rate limit of the receiver, the metrics, and that the receiver's buffer shortens long fields again
    (log_buffer.rs:286-292, see Model/LogEntry.v).  The log buffer is the list of all entries pushed; what a read returns of it is
    proved of the real one in Props/LogBufferProps.v. *)
From Coq Require Import String.
From Verif.Base Require Import Prelude Bytes Str.
From Verif.Model Require Import LogEntry.
Local Open Scope N_scope.
Local Open Scope list_scope.

(** [LogReplicationLevel], log_replication.rs:13-20 *)
Inductive rlevel := LNone | LError | LWarning | LInfo | LDebug.
(** [should_replicate], log_replication.rs:39-48 *)
Definition should_replicate (l : rlevel) (t : log_type) : bool :=
  match l, t with
  | LNone, _ => false
  | LError, Error => true
  | LWarning, (Error | Warning) => true
  | LInfo, (Error | Warning | Info) => true
  | LDebug, _ => true
  | _, _ => false
  end.
(** The level byte, log_replication.rs:134-140 *)
Definition level_byte (t : log_type) : N := match t with Error => 4 | Warning => 3 | Info => 2 | Debug => 1 | _ => 0 end.
(** A string with its length in two bytes: [as u16] keeps the low 16 bits. *)
Definition enc16 (s : bytes) : bytes := le_enc 2 (N.of_nat (length s) mod 65536) ++ s.
(** [encode_entry], log_replication.rs:131-150 *)
Definition enc_entry (e : entry) : bytes := enc16 (le_node e) ++ [level_byte (le_type e)] ++ enc16 (le_message e).
(** [LogDrain], log_replication.rs:52-65; the time of the last broadcast is given to [poll]. *)
Record LogDrain := mkLogDrain { ld_last : nat; ld_level : rlevel; ld_batch : bytes; ld_count : N; ld_host : bytes }.
(** [MAX_BATCH_SIZE], log_replication.rs:68 *)
Definition MAX_BATCH_SIZE : N := 64.
(** [LogDrain::new], log_replication.rs:73-82, when [n] entries were pushed before *)
Definition drain_new (n : nat) (level : rlevel) (host : bytes) : LogDrain := mkLogDrain n level [] 0 host.
(** [LogBuffer::get_since], for a ring of [cap] entries: those from [after] on that are still there *)
Definition since (cap : nat) (log : list entry) (after : nat) : list entry := skipn (Nat.max after (length log - cap)) log.
(** The first half of [poll], log_replication.rs:91-108: [cur] is the index it read first, [log] the buffer when it reads the entries. *)
Definition take_new (cap : nat) (d : LogDrain) (cur : nat) (log : list entry) : LogDrain :=
  if (ld_last d <? cur)%nat then
    let es := filter (fun e => should_replicate (ld_level d) (le_type e)) (since cap log (ld_last d)) in
    mkLogDrain cur (ld_level d) (ld_batch d ++ flat_map enc_entry es) (ld_count d + N.of_nat (length es)) (ld_host d)
  else d.
(** The second half, log_replication.rs:110-128: [late] says that the interval has passed. *)
Definition flush (d : LogDrain) (late : bool) : LogDrain * option bytes :=
  if (MAX_BATCH_SIZE <=? ld_count d) || ((0 <? ld_count d) && late)
  then (mkLogDrain (ld_last d) (ld_level d) [] 0 (ld_host d), Some (enc16 (ld_host d) ++ le_enc 2 (ld_count d mod 65536) ++ ld_batch d))
  else (d, None).
(** [poll], log_replication.rs:86-129.  The count is a [u16]; at most 50000 entries are read at once (log_buffer.rs:41) and all are sent, so
    it does not overflow, and the model lets it grow. *)
Definition poll (cap : nat) (d : LogDrain) (cur : nat) (log : list entry) (late : bool) : LogDrain * option bytes :=
  match ld_level d with LNone => (d, None) | _ => flush (take_new cap d cur log) late end.
(** [MAX_UDP_PAYLOAD], wire.rs:26 *)
Definition MAX_UDP_PAYLOAD : N := 65507.
(** [send_system_topic] with [frame_system_topic], replicator.rs:916-953, 957-966: 12 bytes of packet header and 24 of message header (wire.rs:46, 181); a payload that
    does not fit is not sent. *)
Definition sent_payload (p : bytes) : option bytes := if MAX_UDP_PAYLOAD <? 12 + 24 + N.of_nat (length p) then None else Some p.

(** ** Receiving *)
(** [&data[i..i+k]]: [None] is the panic. *)
Definition sub (data : bytes) (i k : nat) : option bytes := if (i + k <=? length data)%nat then Some (slice i k data) else None.
(** What the receiver's buffer gets: the node's name with the host before it, the type, the text *)
Record remote := mkRemote { rm_name : bytes; rm_type : log_type; rm_text : bytes }.
(** log_replication.rs:210-216 *)
Definition type_of_level (b : N) : log_type := match b with 4 => Error | 3 => Warning | 2 => Info | 1 => Debug | _ => Info end.
(** [format!("{}/{}", host_id, node_name)] *)
Definition prefixed (host name : bytes) : bytes := host ++ 47 :: name.
(** A length and that many bytes at [pos], as read at log_replication.rs:163-169, 181-190 and 199-208: [inl] is the text and the position behind it,
    [inr false] that the data ends, [inr true] a panic. *)
Definition text_at (data : bytes) (pos : nat) : (bytes * nat) + bool :=
  if (length data <? pos + 2)%nat then inr false
  else match sub data pos 2 with
       | None => inr true
       | Some w => let n := N.to_nat (le_dec w) in
                   if (length data <? pos + 2 + n)%nat then inr false
                   else match sub data (pos + 2) n with None => inr true | Some s => inl (s, (pos + 2 + n)%nat) end
       end.
(** The loop, log_replication.rs:179-230; [None] is a panic.  [lossy] is [String::from_utf8_lossy]. *)
Fixpoint entries_at (lossy : bytes -> bytes) (host data : bytes) (pos : nat) (count : nat) : option (list remote) :=
  match count with
  | O => Some []
  | S c =>
      match text_at data pos with
      | inr p => if p then None else Some []
      | inl (name, p1) =>
          if (length data <=? p1)%nat then Some []
          else match nth_error data p1 with
               | None => None
               | Some level =>
                   match text_at data (p1 + 1) with
                   | inr p => if p then None else Some []
                   | inl (msg, p2) =>
                       match entries_at lossy host data p2 c with
                       | None => None
                       | Some r => Some (mkRemote (prefixed host (lossy name)) (type_of_level level) (lossy msg) :: r)
                       end
                   end
               end
      end
  end.
(** [handle_remote_logs], log_replication.rs:154-231 *)
Definition handle_remote_logs (lossy : bytes -> bytes) (data : bytes) : option (list remote) :=
  if (length data <? 4)%nat then Some []
  else match text_at data 0 with
       | inr p => if p then None else Some []
       | inl (host, p1) =>
           if (length data <? p1 + 2)%nat then Some []
           else match sub data p1 2 with
                | None => None
                | Some w => entries_at lossy (lossy host) data (p1 + 2) (N.to_nat (le_dec w))
                end
       end.
