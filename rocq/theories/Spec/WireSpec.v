(** What the wire format means, independently of the model's encoder and decoder. *)
From Verif.Base Require Import Prelude Bytes.
From Verif.Model Require Import Wire.
Open Scope N_scope.

(** The value of a little-endian byte string: [sum b_i * 256^i]. *)
Fixpoint value_at (i : N) (l : bytes) : N :=
  match l with [] => 0 | b :: r => b * 256 ^ i + value_at (i + 1) r end.
Definition le_value (l : bytes) : N := value_at 0 l.

Definition u8 (n : N) := n < 2 ^ 8.
Definition u16 (n : N) := n < 2 ^ 16.
Definition u32 (n : N) := n < 2 ^ 32.
Definition u64 (n : N) := n < 2 ^ 64.

Definition packet_header_wf (h : PacketHeader) :=
  ph_magic h = 0x484F5253 /\ ph_version h = 1 /\ u8 (ph_flags h) /\ u16 (ph_sender h) /\ u32 (ph_seq h).
Definition message_header_wf (h : MessageHeader) :=
  u32 (mh_topic h) /\ u32 (mh_len h) /\ u64 (mh_ts h) /\ u32 (mh_seq h) /\ u8 (mh_host h).
Definition fragment_header_wf (h : FragmentHeader) :=
  u32 (fh_id h) /\ u16 (fh_index h) /\ u16 (fh_count h) /\ u32 (fh_total h).
Definition heartbeat_wf (h : HeartbeatPayload) :=
  length (hp_peer h) = 16%nat /\ bytes_ok (hp_peer h) /\ u32 (hp_seq h).
Definition ack_wf (a : AckPayload) := u32 (ap_topic a) /\ u32 (ap_seq a).
Definition message_wf (m : OutMessage) :=
  u32 (om_topic m) /\ u64 (om_ts m) /\ u32 (om_seq m) /\ bytes_ok (om_payload m)
  /\ N.of_nat (length (om_payload m)) < 2 ^ 32.

(** A data packet is neither a heartbeat nor an acknowledgement. *)
Definition is_data_flags (flags : N) : Prop :=
  N.testbit flags 4 = false /\ N.testbit flags 5 = false.

(** The layout of the message area of a packet as a grammar.  A message occupies 24 header bytes
    followed by exactly as many payload bytes as bytes 4..7 of the header say. *)
Inductive message_area : bytes -> list InMessage -> Prop :=
| ma_short rest : (length rest < 24)%nat -> message_area rest []
| ma_truncated hdr tail :
    length hdr = 24%nat ->
    N.of_nat (length tail) < le_value (slice 4 4 hdr) ->
    message_area (hdr ++ tail) []
| ma_cons hdr payload tail m ms :
    length hdr = 24%nat ->
    N.of_nat (length payload) = le_value (slice 4 4 hdr) ->
    om_topic m = le_value (slice 0 4 hdr) ->
    om_ts m = le_value (slice 8 8 hdr) ->
    om_seq m = le_value (slice 16 4 hdr) ->
    om_prio m = priority_from_u8 (le_value (slice 20 1 hdr)) ->
    om_rel m = reliability_from_u8 (le_value (slice 21 1 hdr)) ->
    om_enc m = encoding_from_u8 (le_value (slice 22 1 hdr)) ->
    om_payload m = payload ->
    message_area tail ms ->
    message_area (hdr ++ payload ++ tail) (m :: ms).
