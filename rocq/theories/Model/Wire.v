(** Model of horus_net/src/wire.rs and the enums of horus_net/src/priority.rs.
    An encoder that fills a prefix of a caller-supplied buffer is modelled as a function
    returning the bytes written (the returned length is the list's length). *)
From Verif.Base Require Import Prelude Bytes.
Open Scope N_scope.

(** wire.rs:20 *) Definition MAGIC : N := 0x484F5253.
(** wire.rs:23 *) Definition VERSION : N := 1.
(** wire.rs:26 *) Definition MAX_UDP_PAYLOAD : N := 65507.

(** priority.rs:8-17 *)
Inductive Priority := Immediate | RealTime | Normal | Bulk.
(** priority.rs:9 ([repr(u8)] discriminants, as written by [as u8]) *)
Definition priority_to_u8 (p : Priority) : N :=
  match p with Immediate => 0 | RealTime => 1 | Normal => 2 | Bulk => 3 end.
(** priority.rs:21-29 *)
Definition priority_from_u8 (v : N) : Priority :=
  match v with 0 => Immediate | 1 => RealTime | 2 => Normal | 3 => Bulk | _ => Normal end.

(** priority.rs:90-97 *)
Inductive Reliability := RelNone | Redundant | Latched.
(** priority.rs:89 *)
Definition reliability_to_u8 (r : Reliability) : N :=
  match r with RelNone => 0 | Redundant => 1 | Latched => 2 end.
(** priority.rs:100-107 *)
Definition reliability_from_u8 (v : N) : Reliability :=
  match v with 0 => RelNone | 1 => Redundant | 2 => Latched | _ => RelNone end.
(** priority.rs:121-128 *)
Definition reliability_default_for (p : Priority) : Reliability :=
  match p with Immediate => Latched | RealTime => Redundant | Normal => RelNone | Bulk => RelNone end.

(** priority.rs:134-141 *)
Inductive Encoding := PodLe | PodBe | Bincode.
(** priority.rs:133 *)
Definition encoding_to_u8 (e : Encoding) : N :=
  match e with PodLe => 0 | PodBe => 1 | Bincode => 2 end.
(** priority.rs:144-151 *)
Definition encoding_from_u8 (v : N) : Encoding :=
  match v with 0 => PodLe | 1 => PodBe | 2 => Bincode | _ => Bincode end.

(** wire.rs:32-43; the flags byte is kept as a raw number, as [PacketFlags(u8)] does *)
Record PacketHeader := mkPH {
  ph_magic : N; ph_version : N; ph_flags : N; ph_sender : N; ph_seq : N }.

(** wire.rs:101-106 *)
Definition FLAG_BATCH : N := 1.
(** wire.rs:103 *)
Definition FLAG_DELTA : N := 2.
(** wire.rs:104 *)
Definition FLAG_COMPRESSED : N := 4.
(** wire.rs:105 *)
Definition FLAG_FRAGMENT : N := 8.
(** wire.rs:106 *)
Definition FLAG_HEARTBEAT : N := 16.
(** wire.rs:107 *)
Definition FLAG_ACK : N := 32.
(** wire.rs:124-146 [self.0 & FLAG != 0] *)
Definition has_flag (flags f : N) : bool := negb (N.land flags f =? 0).
(** wire.rs:148-150 *)
Definition with_flag (flags f : N) : N := N.lor flags f.

(** wire.rs:48-56 *)
Definition packet_header_new (flags sender seq : N) : PacketHeader :=
  mkPH MAGIC VERSION flags sender seq.
(** wire.rs:59-66 *)
Definition encode_packet_header (h : PacketHeader) : bytes :=
  le_enc 4 (ph_magic h) ++ le_enc 1 (ph_version h) ++ le_enc 1 (ph_flags h)
  ++ le_enc 2 (ph_sender h) ++ le_enc 4 (ph_seq h).
(** wire.rs:69-92 *)
Definition decode_packet_header (buf : bytes) : option PacketHeader :=
  if (length buf <? 12)%nat then None
  else let magic := get_le 0 4 buf in
  if negb (magic =? MAGIC) then None
  else let version := get_le 4 1 buf in
  if negb (version =? VERSION) then None
  else Some (mkPH magic version (get_le 5 1 buf) (get_le 6 2 buf) (get_le 8 4 buf)).

(** wire.rs:157-178 *)
Record MessageHeader := mkMH {
  mh_topic : N; mh_len : N; mh_ts : N; mh_seq : N;
  mh_prio : Priority; mh_rel : Reliability; mh_enc : Encoding; mh_host : N }.
(** wire.rs:184-194 *)
Definition encode_message_header (h : MessageHeader) : bytes :=
  le_enc 4 (mh_topic h) ++ le_enc 4 (mh_len h) ++ le_enc 8 (mh_ts h) ++ le_enc 4 (mh_seq h)
  ++ le_enc 1 (priority_to_u8 (mh_prio h)) ++ le_enc 1 (reliability_to_u8 (mh_rel h))
  ++ le_enc 1 (encoding_to_u8 (mh_enc h)) ++ le_enc 1 (mh_host h).
(** wire.rs:197-213 *)
Definition decode_message_header (buf : bytes) : option MessageHeader :=
  if (length buf <? 24)%nat then None
  else Some (mkMH (get_le 0 4 buf) (get_le 4 4 buf) (get_le 8 8 buf) (get_le 16 4 buf)
    (priority_from_u8 (get_le 20 1 buf)) (reliability_from_u8 (get_le 21 1 buf))
    (encoding_from_u8 (get_le 22 1 buf)) (get_le 23 1 buf)).

(** wire.rs:222-232 *)
Definition fnv1a_step (hash byte : N) : N := (N.lxor hash byte * 16777619) mod 2 ^ 32.
(** wire.rs:222-232 [fnv1a_hash] *)
Definition fnv1a_hash (data : bytes) : N := fold_left fnv1a_step data 2166136261.
(** wire.rs:235-237 (a topic name is its UTF-8 bytes) *)
Definition topic_hash (name : bytes) : N := fnv1a_hash name.

(** wire.rs:243-252 *)
Record FragmentHeader := mkFH { fh_id : N; fh_index : N; fh_count : N; fh_total : N }.
(** wire.rs:257-263 *)
Definition encode_fragment_header (h : FragmentHeader) : bytes :=
  le_enc 4 (fh_id h) ++ le_enc 2 (fh_index h) ++ le_enc 2 (fh_count h) ++ le_enc 4 (fh_total h).
(** wire.rs:265-275 *)
Definition decode_fragment_header (buf : bytes) : option FragmentHeader :=
  if (length buf <? 12)%nat then None
  else Some (mkFH (get_le 0 4 buf) (get_le 4 2 buf) (get_le 6 2 buf) (get_le 8 4 buf)).

(** wire.rs:283-288; [hp_peer] is a 16-byte array *)
Record HeartbeatPayload := mkHP { hp_peer : bytes; hp_seq : N }.
(** wire.rs:293-297 *)
Definition encode_heartbeat_payload (h : HeartbeatPayload) : bytes :=
  hp_peer h ++ le_enc 4 (hp_seq h).
(** wire.rs:299-309 *)
Definition decode_heartbeat_payload (buf : bytes) : option HeartbeatPayload :=
  if (length buf <? 20)%nat then None
  else Some (mkHP (slice 0 16 buf) (get_le 16 4 buf)).

(** wire.rs:317-322 *)
Record AckPayload := mkAP { ap_topic : N; ap_seq : N }.
(** wire.rs:327-331 *)
Definition encode_ack_payload (a : AckPayload) : bytes := le_enc 4 (ap_topic a) ++ le_enc 4 (ap_seq a).
(** wire.rs:333-341 *)
Definition decode_ack_payload (buf : bytes) : option AckPayload :=
  if (length buf <? 8)%nat then None else Some (mkAP (get_le 0 4 buf) (get_le 4 4 buf)).

(** wire.rs:347-363 *)
Definition encode_heartbeat (sender seq : N) (p : HeartbeatPayload) : bytes :=
  encode_packet_header (packet_header_new (with_flag 0 FLAG_HEARTBEAT) sender seq)
  ++ encode_heartbeat_payload p.
(** wire.rs:366-371 *)
Definition decode_heartbeat (buf : bytes) : option HeartbeatPayload :=
  if (length buf <? 32)%nat then None else decode_heartbeat_payload (skipn 12 buf).
(** wire.rs:374-390 *)
Definition encode_ack (sender seq : N) (p : AckPayload) : bytes :=
  encode_packet_header (packet_header_new (with_flag 0 FLAG_ACK) sender seq) ++ encode_ack_payload p.
(** wire.rs:393-398 *)
Definition decode_ack (buf : bytes) : option AckPayload :=
  if (length buf <? 20)%nat then None else decode_ack_payload (skipn 12 buf).

(** wire.rs:404-414 (the topic name is carried only for diagnostics and is omitted) *)
Record OutMessage := mkOut {
  om_topic : N; om_payload : bytes; om_ts : N; om_seq : N;
  om_prio : Priority; om_rel : Reliability; om_enc : Encoding }.
(** wire.rs:417-426: InMessage has the same fields *)
Notation InMessage := OutMessage (only parsing).

(** wire.rs:455-464 / 486-495: header built for an outgoing message *)
Definition header_of (m : OutMessage) : MessageHeader :=
  mkMH (om_topic m) (N.of_nat (length (om_payload m)) mod 2 ^ 32) (om_ts m) (om_seq m)
       (om_prio m) (om_rel m) (om_enc m) 0.
(** wire.rs:442-474; [] models the return value 0 ("not encoded") *)
Definition encode_single (h : PacketHeader) (m : OutMessage) (buf_len : N) : bytes :=
  let total := 12 + 24 + N.of_nat (length (om_payload m)) in
  if buf_len <? total then []
  else encode_packet_header h ++ encode_message_header (header_of m) ++ om_payload m.

(** wire.rs:485-500, loop body *)
Definition encode_one (m : OutMessage) : bytes := encode_message_header (header_of m) ++ om_payload m.
(** wire.rs:478-503; [None] models the slice-index panic on an undersized buffer *)
Definition encode_batch (h : PacketHeader) (ms : list OutMessage) (buf_len : N) : option bytes :=
  let out := encode_packet_header h ++ flat_map encode_one ms in
  if N.of_nat (length out) <=? buf_len then Some out else None.

(** wire.rs:518-539: the loop, on the unread suffix [rest] of the packet; fuel = its length *)
Fixpoint decode_messages (fuel : nat) (rest : bytes) : list InMessage :=
  match fuel with
  | O => []
  | S fuel' =>
    if (24 <=? length rest)%nat then
      match decode_message_header rest with
      | None => []
      | Some mh =>
        let rest1 := skipn 24 rest in
        if (N.of_nat (length rest1) <? mh_len mh) then []
        else
          let n := N.to_nat (mh_len mh) in
          mkOut (mh_topic mh) (firstn n rest1) (mh_ts mh) (mh_seq mh)
                (mh_prio mh) (mh_rel mh) (mh_enc mh)
          :: decode_messages fuel' (skipn n rest1)
      end
    else []
  end.
(** wire.rs:507-542 *)
Definition decode_packet (buf : bytes) : option (PacketHeader * list InMessage) :=
  match decode_packet_header buf with
  | None => None
  | Some h =>
    if has_flag (ph_flags h) FLAG_HEARTBEAT || has_flag (ph_flags h) FLAG_ACK then Some (h, [])
    else Some (h, decode_messages (length buf) (skipn 12 buf))
  end.
