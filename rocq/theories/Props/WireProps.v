(** C15, C16: packet codecs. *)
From Verif.Base Require Import Prelude Bytes.
From Verif.Model Require Import Wire.
From Verif.Spec Require Import WireSpec.
From Verif.Proofs Require Import WireProofs.
Open Scope N_scope.

(** C15. Every header value survives encode-then-decode, whatever bytes follow it. *)
Theorem C15_packet_header_roundtrip : forall h tail,
  packet_header_wf h ->
  length (encode_packet_header h) = 12%nat /\
  decode_packet_header (encode_packet_header h ++ tail) = Some h.
Proof. exact (fun h tail H => conj (encode_packet_header_length h) (decode_encode_packet_header h tail H)). Qed.
Print Assumptions C15_packet_header_roundtrip.
Example C15_packet_header_ex : packet_header_wf (packet_header_new 8 0xABCD 4294967295).
Proof. repeat split. Qed.

(** C15. The packet decoder accepts exactly the strings of at least 12 bytes that carry the
    magic and the version, and reads the other fields from their fixed positions. *)
Theorem C15_packet_header_rejects : forall buf,
  ((exists h, decode_packet_header buf = Some h) <->
   (12 <= length buf)%nat /\ le_value (slice 0 4 buf) = 0x484F5253 /\ le_value (slice 4 1 buf) = 1).
Proof.
  exact (fun buf => conj
    (fun '(ex_intro _ h H) => let '(conj a (conj _ (conj _ (conj b (conj c _))))) := decode_packet_header_sound buf h H in conj a (conj b c))
    (fun '(conj a (conj b c)) => match decode_packet_header buf as o return o <> None -> exists h, o = Some h with
       | Some h => fun _ => ex_intro _ h eq_refl
       | None => fun n => match n eq_refl with end end (decode_packet_header_complete buf a b c))).
Qed.
Print Assumptions C15_packet_header_rejects.

Theorem C15_packet_header_fields : forall buf h,
  decode_packet_header buf = Some h ->
  ph_flags h = le_value (slice 5 1 buf) /\ ph_sender h = le_value (slice 6 2 buf)
  /\ ph_seq h = le_value (slice 8 4 buf).
Proof. exact (fun buf h H => proj2 (proj2 (proj2 (proj2 (proj2 (decode_packet_header_sound buf h H)))))). Qed.
Print Assumptions C15_packet_header_fields.

Theorem C15_message_header_roundtrip : forall h tail,
  message_header_wf h ->
  length (encode_message_header h) = 24%nat /\
  decode_message_header (encode_message_header h ++ tail) = Some h.
Proof. exact (fun h tail H => conj (encode_message_header_length h) (decode_encode_message_header h tail H)). Qed.
Print Assumptions C15_message_header_roundtrip.
Example C15_message_header_ex :
  message_header_wf (mkMH 4294967295 77 18446744073709551615 3 Bulk Latched PodBe 255).
Proof. repeat split. Qed.

Theorem C15_fragment_header_roundtrip : forall h tail,
  fragment_header_wf h ->
  length (encode_fragment_header h) = 12%nat /\
  decode_fragment_header (encode_fragment_header h ++ tail) = Some h.
Proof. exact (fun h tail H => conj (encode_fragment_header_length h) (decode_encode_fragment_header h tail H)). Qed.
Print Assumptions C15_fragment_header_roundtrip.
Example C15_fragment_header_ex : fragment_header_wf (mkFH 4294967295 65535 749 1048576).
Proof. repeat split. Qed.

Theorem C15_heartbeat_roundtrip : forall sender seq p tail,
  heartbeat_wf p -> u16 sender -> u32 seq ->
  decode_heartbeat (encode_heartbeat sender seq p ++ tail) = Some p
  /\ decode_packet (encode_heartbeat sender seq p ++ tail) = Some (packet_header_new 16 sender seq, []).
Proof. exact decode_encode_heartbeat. Qed.
Print Assumptions C15_heartbeat_roundtrip.
Example C15_heartbeat_ex : heartbeat_wf (mkHP (repeat 255 16) 4294967295).
Proof. repeat split. repeat constructor. Qed.

Theorem C15_ack_roundtrip : forall sender seq p tail,
  ack_wf p -> u16 sender -> u32 seq ->
  decode_ack (encode_ack sender seq p ++ tail) = Some p
  /\ decode_packet (encode_ack sender seq p ++ tail) = Some (packet_header_new 32 sender seq, []).
Proof. exact decode_encode_ack. Qed.
Print Assumptions C15_ack_roundtrip.
Example C15_ack_ex : ack_wf (mkAP 4294967295 12).
Proof. repeat split. Qed.

(** C15. The other decoders reject exactly the strings that are too short. *)
Theorem C15_truncated_rejected : forall buf,
  (decode_message_header buf = None <-> (length buf < 24)%nat) /\
  (decode_fragment_header buf = None <-> (length buf < 12)%nat) /\
  (decode_heartbeat buf = None <-> (length buf < 32)%nat) /\
  (decode_ack buf = None <-> (length buf < 20)%nat).
Proof.
  intros buf. unfold decode_message_header, decode_fragment_header, decode_heartbeat, decode_heartbeat_payload, decode_ack, decode_ack_payload.
  rewrite !skipn_length. repeat split; intros H;
  repeat match goal with |- context[(?a <? ?b)%nat] => destruct (Nat.ltb_spec a b) | H : context[(?a <? ?b)%nat] |- _ => destruct (Nat.ltb_spec a b) end;
  try discriminate; try reflexivity; lia.
Qed.
Print Assumptions C15_truncated_rejected.

(** C15. The numeric fields of a message header sit at their documented little-endian positions. *)
Theorem C15_message_header_fields : forall buf h, decode_message_header buf = Some h ->
  mh_topic h = le_value (slice 0 4 buf) /\ mh_len h = le_value (slice 4 4 buf) /\
  mh_ts h = le_value (slice 8 8 buf) /\ mh_seq h = le_value (slice 16 4 buf).
Proof.
  intros buf h. unfold decode_message_header. destruct (_ <? _)%nat; [discriminate|]. intros E; injection E as <-.
  rewrite !le_value_dec. repeat split.
Qed.
Print Assumptions C15_message_header_fields.

(** C16. Batches of any number of messages round-trip, and encoding succeeds exactly when the
    buffer is large enough. *)
Theorem C16_batch_roundtrip : forall h ms buf_len pkt,
  packet_header_wf h -> is_data_flags (ph_flags h) -> Forall message_wf ms ->
  encode_batch h ms buf_len = Some pkt ->
  decode_packet pkt = Some (h, ms).
Proof. exact decode_encode_batch. Qed.
Print Assumptions C16_batch_roundtrip.

Theorem C16_batch_fits : forall h ms buf_len,
  N.of_nat (12 + list_sum (map (fun m => 24 + length (om_payload m)) ms))%nat <= buf_len <->
  (exists pkt, encode_batch h ms buf_len = Some pkt).
Proof. exact encode_batch_fits. Qed.
Print Assumptions C16_batch_fits.

Example C16_batch_ex :
  let m := mkOut 7 [1;2;3] 99 5 RealTime Redundant PodLe in
  let h := packet_header_new 1 3 4 in
  packet_header_wf h /\ is_data_flags (ph_flags h) /\ Forall message_wf [m; m]
  /\ exists pkt, encode_batch h [m; m] 100 = Some pkt.
Proof. split; [repeat split|split;[split; reflexivity|split]].
  - repeat constructor.
  - eexists; reflexivity.
Qed.

Theorem C16_single_roundtrip : forall h m buf_len,
  packet_header_wf h -> is_data_flags (ph_flags h) -> message_wf m ->
  36 + N.of_nat (length (om_payload m)) <= buf_len ->
  length (encode_single h m buf_len) = (36 + length (om_payload m))%nat
  /\ decode_packet (encode_single h m buf_len) = Some (h, [m]).
Proof. exact decode_encode_single. Qed.
Print Assumptions C16_single_roundtrip.

Theorem C16_single_too_big : forall h m buf_len,
  buf_len < 36 + N.of_nat (length (om_payload m)) -> encode_single h m buf_len = [].
Proof. exact encode_single_too_big. Qed.
Print Assumptions C16_single_too_big.

(** C16. On arbitrary bytes the decoder follows the packet grammar: a data packet's message list is
    the unique parse of the bytes after the 12-byte header; other packets carry no messages. *)
Theorem C16_hostile_grammar : forall buf h ms,
  decode_packet buf = Some (h, ms) ->
  (is_data_flags (ph_flags h) /\ message_area (skipn 12 buf) ms)
  \/ (~ is_data_flags (ph_flags h) /\ ms = []).
Proof. exact decode_packet_grammar. Qed.
Print Assumptions C16_hostile_grammar.

Theorem C16_grammar_unambiguous : forall rest ms1 ms2,
  message_area rest ms1 -> message_area rest ms2 -> ms1 = ms2.
Proof. exact message_area_det. Qed.
Print Assumptions C16_grammar_unambiguous.

(** C16. Every payload of a parse is a substring of the packet, and the payloads together with
    their headers do not exceed the packet. *)
Theorem C16_hostile_bounds : forall rest ms,
  message_area rest ms ->
  Forall (fun m => exists pre post, rest = pre ++ om_payload m ++ post) ms
  /\ (24 * length ms + list_sum (map (fun m => length (om_payload m)) ms) <= length rest)%nat.
Proof. exact message_area_payloads. Qed.
Print Assumptions C16_hostile_bounds.
