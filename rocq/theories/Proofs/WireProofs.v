From Verif.Base Require Import Prelude Bytes.
From Verif.Model Require Import Wire.
From Verif.Spec Require Import WireSpec.
Open Scope N_scope.

Lemma value_at_le_dec i l : value_at i l = 256 ^ i * le_dec l.
Proof.
  revert i; induction l; intros; simpl; [lia|].
  rewrite IHl, N.pow_add_r. change (256 ^ 1) with 256. lia.
Qed.
Lemma le_value_dec l : le_value l = le_dec l.
Proof. unfold le_value; rewrite value_at_le_dec; change (256 ^ 0) with 1; lia. Qed.

(** Locate a field in a concatenation of fixed-size fields. *)
Ltac len_norm := repeat (rewrite ?app_length, ?le_enc_length in *; cbn [length] in * ).
Ltac slice_at :=
  repeat (first
    [ rewrite slice_app_r by (len_norm; lia)
    | rewrite slice_app_l by (len_norm; lia) ]; len_norm; cbn [Nat.sub]).
Ltac field k :=
  unfold get_le; slice_at; rewrite slice_all by (len_norm; reflexivity); apply (le_dec_enc k); assumption.

Lemma ltb_false a b : (b <= a)%nat -> (a <? b)%nat = false.
Proof. intros; apply Nat.ltb_ge; auto. Qed.

Lemma pow256_1 : 256 ^ N.of_nat 1 = 2 ^ 8. Proof. reflexivity. Qed.
Lemma pow256_2 : 256 ^ N.of_nat 2 = 2 ^ 16. Proof. reflexivity. Qed.
Lemma pow256_4 : 256 ^ N.of_nat 4 = 2 ^ 32. Proof. reflexivity. Qed.
Lemma pow256_8 : 256 ^ N.of_nat 8 = 2 ^ 64. Proof. reflexivity. Qed.

(** Reading the middle field of [pre ++ le_enc k v ++ post]. *)
Lemma get_field pre k v post :
  v < 256 ^ N.of_nat k -> get_le (length pre) k (pre ++ le_enc k v ++ post) = v.
Proof.
  intros. unfold get_le. rewrite slice_app_r, Nat.sub_diag by lia.
  rewrite slice_app_l by (rewrite le_enc_length; lia).
  rewrite slice_all by apply le_enc_length. apply le_dec_enc; auto.
Qed.
Lemma get_field' pre k v post i l :
  l = pre ++ le_enc k v ++ post -> i = length pre -> v < 256 ^ N.of_nat k -> get_le i k l = v.
Proof. intros -> ->; apply get_field. Qed.

Lemma encode_packet_header_length h : length (encode_packet_header h) = 12%nat.
Proof. reflexivity. Qed.
Lemma encode_message_header_length h : length (encode_message_header h) = 24%nat.
Proof. reflexivity. Qed.
Lemma encode_fragment_header_length h : length (encode_fragment_header h) = 12%nat.
Proof. reflexivity. Qed.

Lemma u8_bound n : u8 n -> n < 256 ^ N.of_nat 1. Proof. rewrite pow256_1; auto. Qed.
Lemma u16_bound n : u16 n -> n < 256 ^ N.of_nat 2. Proof. rewrite pow256_2; auto. Qed.
Lemma u32_bound n : u32 n -> n < 256 ^ N.of_nat 4. Proof. rewrite pow256_4; auto. Qed.
Lemma u64_bound n : u64 n -> n < 256 ^ N.of_nat 8. Proof. rewrite pow256_8; auto. Qed.
Global Hint Resolve u8_bound u16_bound u32_bound u64_bound : wire.

Lemma priority_roundtrip p : priority_from_u8 (priority_to_u8 p) = p.
Proof. destruct p; reflexivity. Qed.
Lemma reliability_roundtrip p : reliability_from_u8 (reliability_to_u8 p) = p.
Proof. destruct p; reflexivity. Qed.
Lemma encoding_roundtrip p : encoding_from_u8 (encoding_to_u8 p) = p.
Proof. destruct p; reflexivity. Qed.
Lemma priority_u8 p : priority_to_u8 p < 256 ^ N.of_nat 1.
Proof. destruct p; reflexivity. Qed.
Lemma reliability_u8 p : reliability_to_u8 p < 256 ^ N.of_nat 1.
Proof. destruct p; reflexivity. Qed.
Lemma encoding_u8 p : encoding_to_u8 p < 256 ^ N.of_nat 1.
Proof. destruct p; reflexivity. Qed.
Global Hint Resolve priority_u8 reliability_u8 encoding_u8 : wire.

Lemma decode_encode_packet_header h tail :
  packet_header_wf h -> decode_packet_header (encode_packet_header h ++ tail) = Some h.
Proof.
  intros (Hm & Hv & Hf & Hs & Hq). destruct h as [m v f s q]; cbn [ph_magic ph_version ph_flags ph_sender ph_seq] in Hm, Hv, Hf, Hs, Hq; subst.
  unfold decode_packet_header.
  rewrite ltb_false by (rewrite app_length, encode_packet_header_length; lia).
  unfold encode_packet_header; cbn [ph_magic ph_version ph_flags ph_sender ph_seq].
  rewrite <- !app_assoc.
  pose proof (fun pre k v post => get_field pre k v post) as GF.
  rewrite (get_field' [] 4 0x484F5253 (le_enc 1 1 ++ le_enc 1 f ++ le_enc 2 s ++ le_enc 4 q ++ tail) 0)
    by (auto; reflexivity).
  change (negb (0x484F5253 =? MAGIC)) with false. cbv iota.
  rewrite (get_field' (le_enc 4 0x484F5253) 1 1 (le_enc 1 f ++ le_enc 2 s ++ le_enc 4 q ++ tail) 4)
    by (auto; reflexivity).
  change (negb (1 =? VERSION)) with false. cbv iota.
  rewrite (get_field' (le_enc 4 0x484F5253 ++ le_enc 1 1) 1 f (le_enc 2 s ++ le_enc 4 q ++ tail) 5)
    by (rewrite <- ?app_assoc; auto with wire).
  rewrite (get_field' (le_enc 4 0x484F5253 ++ le_enc 1 1 ++ le_enc 1 f) 2 s (le_enc 4 q ++ tail) 6)
    by (rewrite <- ?app_assoc; auto with wire).
  rewrite (get_field' (le_enc 4 0x484F5253 ++ le_enc 1 1 ++ le_enc 1 f ++ le_enc 2 s) 4 q tail 8)
    by (rewrite <- ?app_assoc; auto with wire).
  reflexivity.
Qed.

Lemma decode_packet_header_sound buf h :
  decode_packet_header buf = Some h ->
  (12 <= length buf)%nat /\ ph_magic h = 0x484F5253 /\ ph_version h = 1
  /\ le_value (slice 0 4 buf) = 0x484F5253 /\ le_value (slice 4 1 buf) = 1
  /\ ph_flags h = le_value (slice 5 1 buf)
  /\ ph_sender h = le_value (slice 6 2 buf)
  /\ ph_seq h = le_value (slice 8 4 buf).
Proof.
  unfold decode_packet_header. repeat case_match; try discriminate; intros H; inv H.
  bool_prop. unfold get_le, MAGIC, VERSION in *. rewrite !le_value_dec; simpl. repeat split; auto.
Qed.

Lemma decode_packet_header_complete buf :
  (12 <= length buf)%nat ->
  le_value (slice 0 4 buf) = 0x484F5253 -> le_value (slice 4 1 buf) = 1 ->
  decode_packet_header buf <> None.
Proof.
  intros Hl Hm Hv. unfold decode_packet_header, get_le, MAGIC, VERSION. rewrite !le_value_dec in *.
  rewrite Hm, Hv. replace (length buf <? 12)%nat with false by (symmetry; apply Nat.ltb_ge; lia).
  discriminate.
Qed.

Lemma decode_encode_message_header h tail :
  message_header_wf h -> decode_message_header (encode_message_header h ++ tail) = Some h.
Proof.
  intros (Ht & Hl & Hs & Hq & Hh). destruct h as [t l s q p r e o]; cbn [mh_topic mh_len mh_ts mh_seq mh_prio mh_rel mh_enc mh_host] in Ht, Hl, Hs, Hq, Hh.
  unfold decode_message_header.
  rewrite ltb_false by (rewrite app_length, encode_message_header_length; lia).
  unfold encode_message_header; cbn [mh_topic mh_len mh_ts mh_seq mh_prio mh_rel mh_enc mh_host].
  rewrite <- !app_assoc.
  set (P := priority_to_u8 p); set (R := reliability_to_u8 r); set (E := encoding_to_u8 e).
  rewrite (get_field' [] 4 t (le_enc 4 l ++ le_enc 8 s ++ le_enc 4 q ++ le_enc 1 P ++ le_enc 1 R ++ le_enc 1 E ++ le_enc 1 o ++ tail) 0)
    by (auto with wire).
  rewrite (get_field' (le_enc 4 t) 4 l (le_enc 8 s ++ le_enc 4 q ++ le_enc 1 P ++ le_enc 1 R ++ le_enc 1 E ++ le_enc 1 o ++ tail) 4)
    by (rewrite <- ?app_assoc; auto with wire).
  rewrite (get_field' (le_enc 4 t ++ le_enc 4 l) 8 s (le_enc 4 q ++ le_enc 1 P ++ le_enc 1 R ++ le_enc 1 E ++ le_enc 1 o ++ tail) 8)
    by (rewrite <- ?app_assoc; auto with wire).
  rewrite (get_field' (le_enc 4 t ++ le_enc 4 l ++ le_enc 8 s) 4 q (le_enc 1 P ++ le_enc 1 R ++ le_enc 1 E ++ le_enc 1 o ++ tail) 16)
    by (rewrite <- ?app_assoc; auto with wire).
  rewrite (get_field' (le_enc 4 t ++ le_enc 4 l ++ le_enc 8 s ++ le_enc 4 q) 1 P (le_enc 1 R ++ le_enc 1 E ++ le_enc 1 o ++ tail) 20)
    by (rewrite <- ?app_assoc; unfold P; auto with wire).
  rewrite (get_field' (le_enc 4 t ++ le_enc 4 l ++ le_enc 8 s ++ le_enc 4 q ++ le_enc 1 P) 1 R (le_enc 1 E ++ le_enc 1 o ++ tail) 21)
    by (rewrite <- ?app_assoc; unfold R; auto with wire).
  rewrite (get_field' (le_enc 4 t ++ le_enc 4 l ++ le_enc 8 s ++ le_enc 4 q ++ le_enc 1 P ++ le_enc 1 R) 1 E (le_enc 1 o ++ tail) 22)
    by (rewrite <- ?app_assoc; unfold E; auto with wire).
  rewrite (get_field' (le_enc 4 t ++ le_enc 4 l ++ le_enc 8 s ++ le_enc 4 q ++ le_enc 1 P ++ le_enc 1 R ++ le_enc 1 E) 1 o tail 23)
    by (rewrite <- ?app_assoc; auto with wire).
  unfold P, R, E. rewrite priority_roundtrip, reliability_roundtrip, encoding_roundtrip. reflexivity.
Qed.

Lemma decode_encode_fragment_header h tail :
  fragment_header_wf h -> decode_fragment_header (encode_fragment_header h ++ tail) = Some h.
Proof.
  intros (Ha & Hb & Hc & Hd). destruct h as [a b c d]; cbn [fh_id fh_index fh_count fh_total] in Ha, Hb, Hc, Hd.
  unfold decode_fragment_header.
  rewrite ltb_false by (rewrite app_length, encode_fragment_header_length; lia).
  unfold encode_fragment_header; cbn [fh_id fh_index fh_count fh_total]. rewrite <- !app_assoc.
  rewrite (get_field' [] 4 a (le_enc 2 b ++ le_enc 2 c ++ le_enc 4 d ++ tail) 0) by auto with wire.
  rewrite (get_field' (le_enc 4 a) 2 b (le_enc 2 c ++ le_enc 4 d ++ tail) 4) by auto with wire.
  rewrite (get_field' (le_enc 4 a ++ le_enc 2 b) 2 c (le_enc 4 d ++ tail) 6) by (rewrite <- ?app_assoc; auto with wire).
  rewrite (get_field' (le_enc 4 a ++ le_enc 2 b ++ le_enc 2 c) 4 d tail 8) by (rewrite <- ?app_assoc; auto with wire).
  reflexivity.
Qed.

Lemma decode_encode_heartbeat_payload h tail :
  heartbeat_wf h -> decode_heartbeat_payload (encode_heartbeat_payload h ++ tail) = Some h.
Proof.
  intros (Hl & Hb & Hq). destruct h as [p q]; cbn [hp_peer hp_seq] in Hl, Hb, Hq.
  unfold decode_heartbeat_payload, encode_heartbeat_payload; cbn [hp_peer hp_seq].
  rewrite ltb_false by (rewrite !app_length, le_enc_length; lia).
  rewrite <- app_assoc. rewrite slice_app_l by lia. rewrite slice_all by auto.
  rewrite (get_field' p 4 q tail 16) by auto with wire. reflexivity.
Qed.

Lemma decode_encode_ack_payload h tail :
  ack_wf h -> decode_ack_payload (encode_ack_payload h ++ tail) = Some h.
Proof.
  intros (Ha & Hb). destruct h as [a b]; cbn [ap_topic ap_seq] in Ha, Hb.
  unfold decode_ack_payload, encode_ack_payload; cbn [ap_topic ap_seq].
  rewrite ltb_false by (rewrite !app_length, !le_enc_length; lia).
  rewrite <- app_assoc.
  rewrite (get_field' [] 4 a (le_enc 4 b ++ tail) 0) by auto with wire.
  rewrite (get_field' (le_enc 4 a) 4 b tail 4) by auto with wire. reflexivity.
Qed.

Lemma skipn_encode_header h tail : skipn 12 (encode_packet_header h ++ tail) = tail.
Proof. rewrite skipn_app, skipn_all2 by (rewrite encode_packet_header_length; lia). reflexivity. Qed.

Lemma decode_encode_heartbeat s q p tail :
  heartbeat_wf p -> u16 s -> u32 q ->
  decode_heartbeat (encode_heartbeat s q p ++ tail) = Some p
  /\ decode_packet (encode_heartbeat s q p ++ tail) = Some (packet_header_new 16 s q, []).
Proof.
  intros Hp Hs Hq. unfold encode_heartbeat. rewrite <- app_assoc. split.
  - unfold decode_heartbeat. destruct Hp as (Hl & Hr).
    rewrite ltb_false by (rewrite !app_length, encode_packet_header_length;
          unfold encode_heartbeat_payload; rewrite app_length, le_enc_length; lia).
    rewrite skipn_encode_header. apply decode_encode_heartbeat_payload; split; auto.
  - unfold decode_packet. rewrite decode_encode_packet_header; [reflexivity|].
    repeat split; auto.
Qed.

Lemma decode_encode_ack s q p tail :
  ack_wf p -> u16 s -> u32 q ->
  decode_ack (encode_ack s q p ++ tail) = Some p
  /\ decode_packet (encode_ack s q p ++ tail) = Some (packet_header_new 32 s q, []).
Proof.
  intros Hp Hs Hq. unfold encode_ack. rewrite <- app_assoc. split.
  - unfold decode_ack. destruct Hp as (Hl & Hr).
    rewrite ltb_false by (rewrite !app_length, encode_packet_header_length;
          unfold encode_ack_payload; rewrite app_length, !le_enc_length; lia).
    rewrite skipn_encode_header. apply decode_encode_ack_payload; split; auto.
  - unfold decode_packet. rewrite decode_encode_packet_header; [reflexivity|].
    repeat split; auto.
Qed.

(** ** Message area *)

Lemma decode_messages_fuel f rest :
  (length rest <= f)%nat -> message_area rest (decode_messages f rest).
Proof.
  revert rest; induction f; intros rest Hf; cbn [decode_messages].
  - destruct rest; simpl in *; [|lia]. apply ma_short; simpl; lia.
  - destruct (24 <=? length rest)%nat eqn:E; bool_prop; [|apply ma_short; lia].
    unfold decode_message_header.
    replace (length rest <? 24)%nat with false by (symmetry; apply Nat.ltb_ge; lia).
    cbn [mh_len mh_topic mh_ts mh_seq mh_prio mh_rel mh_enc].
    pose proof (firstn_skipn 24 rest) as Hsplit.
    set (hdr := firstn 24 rest) in *. set (tl := skipn 24 rest) in *.
    assert (Hh : length hdr = 24%nat) by (unfold hdr; rewrite firstn_length; lia).
    rewrite <- Hsplit in E, Hf |- *.
    assert (Hg : forall i k, (i + k <= 24)%nat -> get_le i k (hdr ++ tl) = le_value (slice i k hdr)).
    { intros. rewrite le_value_dec. unfold get_le. rewrite slice_app_l by lia. reflexivity. }
    rewrite (Hg 4%nat 4%nat) by lia.
    destruct (N.of_nat (length tl) <? _) eqn:E2; bool_prop.
    + apply ma_truncated; auto.
    + set (n := N.to_nat _).
      assert (Hn : (n <= length tl)%nat) by (unfold n; lia).
      rewrite <- (firstn_skipn n tl) at 1.
      apply ma_cons; simpl; auto; try (apply Hg; lia); try (f_equal; apply Hg; lia).
      * rewrite firstn_length_le by auto. unfold n; lia.
      * apply IHf. rewrite skipn_length. rewrite app_length in Hf. lia.
Qed.

Lemma app_eq_length {A} (a b c d : list A) :
  length a = length c -> a ++ b = c ++ d -> a = c /\ b = d.
Proof.
  revert c; induction a; destruct c; simpl; intros; try lia; auto.
  inv H0. destruct (IHa c) as [-> ->]; auto.
Qed.

Lemma message_area_det rest ms1 ms2 :
  message_area rest ms1 -> message_area rest ms2 -> ms1 = ms2.
Proof.
  intros Ha; revert ms2; induction Ha; intros ms2 Hb; inversion Hb; subst; auto;
    try (rewrite ?app_length in *; lia);
    match goal with Hx : ?a ++ ?b = ?c ++ ?d |- _ =>
      apply app_eq_length in Hx; [|lia]; destruct Hx as [? Hx]; subst end.
  - rewrite app_length in *. lia.
  - rewrite app_length in *. lia.
  - match goal with Hx : ?a ++ ?b = ?c ++ ?d |- _ =>
      apply app_eq_length in Hx; [|lia]; destruct Hx; subst end.
    f_equal; auto. destruct m, m0; simpl in *; subst; auto.
Qed.

Lemma message_area_encode ms :
  Forall message_wf ms -> message_area (flat_map encode_one ms) ms.
Proof.
  induction 1 as [|m ms Hm _ IH]; cbn [flat_map].
  - apply ma_short; simpl; lia.
  - unfold encode_one at 1. rewrite <- app_assoc.
    destruct Hm as (Ht & Hts & Hsq & Hb & Hlen).
    assert (Hd : decode_message_header (encode_message_header (header_of m) ++ []) = Some (header_of m)).
    { apply decode_encode_message_header. unfold header_of, message_header_wf; simpl.
      rewrite N.mod_small by auto. repeat split; auto. }
    rewrite app_nil_r in Hd. unfold decode_message_header in Hd.
    rewrite encode_message_header_length in Hd. change (24 <? 24)%nat with false in Hd. cbv iota in Hd.
    unfold header_of in Hd at 9. injection Hd as Htp Hln Hs Hq Hp Hr He.
    assert (Hg : forall i k, get_le i k (encode_message_header (header_of m))
                             = le_value (slice i k (encode_message_header (header_of m)))).
    { intros; rewrite le_value_dec; reflexivity. }
    apply ma_cons; rewrite <- ?Hg; auto.
    rewrite Hln. rewrite N.mod_small; auto.
Qed.

Lemma flags_data flags : is_data_flags flags ->
  has_flag flags FLAG_HEARTBEAT || has_flag flags FLAG_ACK = false.
Proof.
  intros [H4 H5]. unfold has_flag.
  assert (N.land flags FLAG_HEARTBEAT = 0).
  { apply N.bits_inj; intros n. rewrite N.land_spec, N.bits_0. change FLAG_HEARTBEAT with (2 ^ 4).
    destruct (N.eq_dec n 4); [subst; rewrite H4; auto|]. rewrite (N.pow2_bits_false 4 n) by auto. apply andb_false_r. }
  assert (N.land flags FLAG_ACK = 0).
  { apply N.bits_inj; intros n. rewrite N.land_spec, N.bits_0. change FLAG_ACK with (2 ^ 5).
    destruct (N.eq_dec n 5); [subst; rewrite H5; auto|]. rewrite (N.pow2_bits_false 5 n) by auto. apply andb_false_r. }
  rewrite H, H0. reflexivity.
Qed.

Lemma decode_encode_batch h ms n pkt :
  packet_header_wf h -> is_data_flags (ph_flags h) -> Forall message_wf ms ->
  encode_batch h ms n = Some pkt ->
  decode_packet pkt = Some (h, ms).
Proof.
  intros Hh Hf Hms. unfold encode_batch. remember (encode_packet_header h ++ flat_map encode_one ms) as out eqn:Ho. case_match; [|discriminate]. intros [= <-]. subst out.
  unfold decode_packet. rewrite decode_encode_packet_header by auto.
  rewrite flags_data by auto. do 2 f_equal.
  rewrite skipn_encode_header.
  eapply message_area_det; [|apply message_area_encode; auto].
  apply decode_messages_fuel. rewrite app_length. lia.
Qed.

Lemma encode_batch_fits h ms n :
  N.of_nat (12 + list_sum (map (fun m => 24 + length (om_payload m))%nat ms)) <= n <->
  (exists pkt, encode_batch h ms n = Some pkt).
Proof.
  unfold encode_batch.
  assert (Hl : length (encode_packet_header h ++ flat_map encode_one ms) =
               (12 + list_sum (map (fun m => 24 + length (om_payload m))%nat ms))%nat).
  { rewrite app_length, encode_packet_header_length. f_equal.
    induction ms as [|m ms IH]; [reflexivity|].
    cbn [flat_map map list_sum fold_right]. rewrite app_length, IH. unfold encode_one at 1.
    rewrite app_length, encode_message_header_length. unfold list_sum. reflexivity. }
  rewrite Hl. case_match; bool_prop; split; intros H; eauto; try lia.
  destruct H; discriminate.
Qed.

Lemma decode_encode_single h m n :
  packet_header_wf h -> is_data_flags (ph_flags h) -> message_wf m ->
  36 + N.of_nat (length (om_payload m)) <= n ->
  length (encode_single h m n) = (36 + length (om_payload m))%nat
  /\ decode_packet (encode_single h m n) = Some (h, [m]).
Proof.
  intros Hh Hf Hm Hn. unfold encode_single.
  rewrite (proj2 (N.ltb_ge _ _)) by lia.
  split.
  - rewrite !app_length, encode_packet_header_length, encode_message_header_length. lia.
  - apply (decode_encode_batch h [m] n); auto.
    unfold encode_batch. cbn [flat_map]. rewrite app_nil_r. unfold encode_one.
    rewrite (proj2 (N.leb_le _ _)); [auto|].
    rewrite !app_length, encode_packet_header_length, encode_message_header_length. lia.
Qed.

Lemma encode_single_too_big h m n :
  n < 36 + N.of_nat (length (om_payload m)) -> encode_single h m n = [].
Proof. intros. unfold encode_single. rewrite (proj2 (N.ltb_lt _ _)) by lia. reflexivity. Qed.

Lemma decode_packet_grammar buf h ms :
  decode_packet buf = Some (h, ms) ->
  (is_data_flags (ph_flags h) /\ message_area (skipn 12 buf) ms)
  \/ (~ is_data_flags (ph_flags h) /\ ms = []).
Proof.
  unfold decode_packet. destruct (decode_packet_header buf) as [h'|] eqn:E; [|discriminate].
  remember (skipn 12 buf) as body eqn:Hbody.
  destruct (_ || _)%bool eqn:F; intros H; inv H.
  - right; split; auto. intros Hd. rewrite flags_data in F by auto. discriminate.
  - left; split.
    + apply orb_false_elim in F; destruct F as [F4 F5]. unfold has_flag in *.
      apply negb_false_iff, N.eqb_eq in F4, F5. split.
      * apply (f_equal (fun z => N.testbit z 4)) in F4. rewrite N.land_spec in F4.
        change (N.testbit FLAG_HEARTBEAT 4) with true in F4. rewrite andb_true_r in F4. rewrite F4. apply N.bits_0.
      * apply (f_equal (fun z => N.testbit z 5)) in F5. rewrite N.land_spec in F5.
        change (N.testbit FLAG_ACK 5) with true in F5. rewrite andb_true_r in F5. rewrite F5. apply N.bits_0.
    + apply decode_messages_fuel. rewrite skipn_length; lia.
Qed.

Lemma message_area_payloads rest ms :
  message_area rest ms ->
  Forall (fun m => exists pre post, rest = pre ++ om_payload m ++ post) ms
  /\ (24 * length ms + list_sum (map (fun m => length (om_payload m)) ms) <= length rest)%nat.
Proof.
  induction 1; try (split; [constructor|simpl; lia]).
  destruct IHmessage_area as [IH1 IH2]. split.
  - constructor.
    + exists hdr, tail. subst; auto.
    + eapply Forall_impl; [|exact IH1]. intros a (pre & post & Ht).
      exists (hdr ++ payload ++ pre), post. rewrite Ht, <- !app_assoc. reflexivity.
  - cbn [map list_sum fold_right length]. rewrite !app_length. subst. unfold list_sum in *. lia.
Qed.
