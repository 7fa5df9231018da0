(** Model of the data path of horus_net/src/replicator.rs: how one message is turned into datagrams by the
    exporter and how a datagram is turned back into messages by the receiver.
    Simplified: optimizers, flow control, duplicate copies, dedup and announcements are separate models;
    [dispatch] returns the messages that reach [process_incoming_message] before dedup. *)
From Verif.Base Require Import Prelude Bytes AMap.
From Verif.Model Require Import Wire Fragment.
Open Scope N_scope.

(** replicator.rs:649-658: the OutMessage built from a fragment *)
Definition frag_msg (f : Fragment) : OutMessage :=
  mkOut (me_topic (fr_meta f)) (fr_payload f) (me_ts (fr_meta f)) (me_seq (fr_meta f))
        (me_prio (fr_meta f)) (me_rel (fr_meta f)) (me_enc (fr_meta f)).
(** replicator.rs:637-664: one datagram per fragment; 65536-byte buffer; empty = skipped *)
Definition export_fragment (peer_hash seq : N) (f : Fragment) : bytes :=
  let flags := if 1 <? fr_count f then with_flag 0 FLAG_FRAGMENT else 0 in
  encode_single (packet_header_new flags peer_hash seq) (frag_msg f) 65536.
(** replicator.rs:637-678: all datagrams of one message (each is then sent [copies] times per peer) *)
Fixpoint export_fragments (peer_hash seq : N) (fs : list Fragment) : list bytes :=
  match fs with
  | [] => []
  | f :: r => export_fragment peer_hash seq f :: export_fragments peer_hash ((seq + 1) mod 2 ^ 32) r
  end.
(** replicator.rs:617-678 *)
Definition export_message (next_id peer_hash seq : N) (m : OutMessage) : list bytes :=
  filter (fun p => negb (length p =? 0)%nat)
    (export_fragments peer_hash seq (snd (fragment next_id m))).

(** replicator.rs:373-395: parse a FRAGMENT-flagged datagram *)
Definition parse_fragment (buf : bytes) : option Fragment :=
  match decode_message_header (skipn 12 buf) with
  | None => None
  | Some mh =>
    match decode_fragment_header (skipn 36 buf) with
    | None => None
    | Some fh =>
      Some (mkFrag (mkMeta (mh_topic mh) (mh_seq mh) (mh_ts mh) (mh_prio mh) (mh_rel mh) (mh_enc mh))
              (fh_id fh) (fh_index fh) (fh_count fh) (fh_total fh) (skipn 48 buf))
    end
  end.
(** replicator.rs:397-408 *)
Definition reassembled_msg (r : Reassembled) : InMessage :=
  mkOut (me_topic (re_meta r)) (re_payload r) (me_ts (re_meta r)) (me_seq (re_meta r))
        (me_prio (re_meta r)) (me_rel (re_meta r)) (me_enc (re_meta r)).

(** replicator.rs:345-427, after the announcement check *)
Definition dispatch (now : N) (st : Reassembler) (buf : bytes) : Reassembler * list InMessage :=
  match decode_packet_header buf with
  | None => (st, [])
  | Some h =>
    if has_flag (ph_flags h) FLAG_HEARTBEAT then (st, [])
    else if has_flag (ph_flags h) FLAG_ACK then (st, [])
    else if has_flag (ph_flags h) FLAG_FRAGMENT then
      match parse_fragment buf with
      | None => (st, [])
      | Some f =>
        let '(st', r) := feed now st f in
        (st', match r with Some r => [reassembled_msg r] | None => [] end)
      end
    else
      match decode_packet buf with
      | None => (st, [])
      | Some (_, ms) => (st, ms)
      end
  end.
(** A receiver fed with a sequence of (time, datagram) pairs; result: everything delivered. *)
Fixpoint receive (st : Reassembler) (l : list (N * bytes)) : list InMessage :=
  match l with
  | [] => []
  | (now, buf) :: r => let '(st', ms) := dispatch now st buf in ms ++ receive st' r
  end.
