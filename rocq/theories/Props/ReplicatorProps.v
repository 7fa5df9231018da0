(** C65 (what remote data can do to a host), C66 (a message from one host to another), C67 (a networked stop through the
    whole receive path), C68 (every datagram is read), C69 (whom an export reaches), C71 (no echo). *)
From Coq Require Import String.
From Verif.Base Require Import Prelude Bytes AMap Str.
From Verif.Model Require Import Wire Fragment Registry NetFilter NetPath Reliability FlowControl Guard Estop Discovery EncodingSwap Replicator.
From Verif.Spec Require Import WireSpec GuardSpec EstopSpec NetFilterSpec DiscoverySpec ReplicatorSpec.
From Verif.Proofs Require Import MacProofs WireProofs GuardProofs EstopProofs ReplicatorProofs ReplicatorPathProofs.
Open Scope list_scope. Open Scope N_scope.

(** ** C65 *)
(** A datagram from an address the host does not admit has no influence: the host ends in the same state, with the
    same effects, as if it had never come, over any history. *)
Theorem C65_outsider_no_influence : forall order can_open conf r h,
  outcome (rrun order can_open conf r h) =
  outcome (rrun order can_open conf r (filter (fun x => negb (from_outside (c_filter conf) (snd x))) h)).
Proof. intros. apply outside_run. Qed.
Print Assumptions C65_outsider_no_influence.
(** Whatever arrives, a local topic is written only from an admitted address, if its import is allowed, if the sender did
    not announce another type for it, and with a message of that topic's hash (never a reserved one) in the
    byte order of this host. *)
Theorem C65_write_sound : forall order can_open conf now reg from buf r r' out t p,
  process_packet order can_open conf now reg from buf r = Some (r', out) -> In (t, p) (writes out) ->
  admits (c_filter conf) (fst from) = true /\ In t (d_writers (r_disc r)) /\
  import_allowed (mkGuard (c_import conf) (c_export conf) (Some reg)) t /\
  ~ types_differ reg (d_peers (r_disc r)) from t /\
  exists m, In m (taken out) /\ ~ on_reserved m /\ om_topic m = topic_hash t /\
    p = snd (process_incoming_payload (om_payload m) (om_enc m) (length (om_payload m))).
Proof.
  intros order can_open conf now reg from buf r r' out t p E H. destruct (packet_write order can_open _ _ _ _ _ _ _ _ _ _ E H) as [A B].
  split; auto.
Qed.
Print Assumptions C65_write_sound.
(** What is taken out of an unfragmented datagram was in it. *)
Theorem C65_taken_was_sent : forall order can_open conf now reg from buf r r' out m,
  process_packet order can_open conf now reg from buf r = Some (r', out) -> In m (taken out) ->
  admits (c_filter conf) (fst from) = true /\ (has_flag (get_le 5 1 buf) FLAG_FRAGMENT = false -> carries buf m).
Proof. intros. eapply packet_taken; eauto. Qed.
Print Assumptions C65_taken_was_sent.
(** Conversely an allowed message of the right type on a topic of this host is written, once, and nothing else is. *)
Theorem C65_import_complete : forall conf now reg from s m r r' out t,
  process_incoming_message conf now reg from s m r = Some (r', out) -> ~ on_reserved m ->
  only_writer (d_writers (r_disc r)) t -> om_topic m = topic_hash t ->
  import_allowed (mkGuard (c_import conf) (c_export conf) (Some reg)) t -> ~ types_differ reg (d_peers (r_disc r)) from t ->
  writes out = [(t, snd (process_incoming_payload (om_payload m) (om_enc m) (length (om_payload m))))].
Proof. intros. eapply (pim_complete (fun _ => true)) in H; eauto. apply H. Qed.
Print Assumptions C65_import_complete.

(** A host that subscribes to "scan" and hears of it from a peer. *)
Definition me_b : bytes := repeat 9 16.
Definition id_p : bytes := repeat 1 16.
Definition from_p : Addr := (V4 167772161, 9100).
Definition peer_p (role hash : N) (name : bytes) (addr : Addr) : PeerInfo :=
  peer_of 0 (mkAnn id_p 9100 zero_secret false [mkWireTopic name hash 4 role 1 2] addr).
Definition conf0 : Conf := mkConf PAny (Some [1; 2; 3]) PolicyWarn IAuto EAll 3000000000.
Definition sub_reg (name : bytes) : Registry := [(name, mkEntry 7 4 Subscriber true false)].
Definition host_with (peers : Peers) (readers writers : list bytes) : Repl :=
  with_disc (repl_new me_b zero_secret 0) (mkDisc me_b zero_secret peers readers writers).
Definition scan : bytes := bs "scan"%string.
Definition clk (n : N) : Clock := mkClock n (1700000000000000000 + n).
Definition msg (t p : bytes) (sq : N) : OutMessage := mkOut (topic_hash t) p 0 sq Normal RelNone PodLe.
Definition data (m : OutMessage) : bytes := encode_single (packet_header_new 0 (peer_id_hash id_p) 5) m 65536.
Example C65_ex : exists r' out,
  process_packet (fun s => s) (fun _ => true) conf0 (clk 1) (sub_reg scan) from_p (data (msg scan [1; 2; 3; 4] 8))
    (host_with [(id_p, peer_p 1 7 scan from_p)] [] [scan]) = Some (r', out) /\
  writes out = [(scan, [1; 2; 3; 4])] /\ only_writer [scan] scan.
Proof.
  eexists. eexists. split; [vm_compute; reflexivity|]. split; [vm_compute; reflexivity|].
  split; [left; reflexivity|]. intros u [<-|[]] _. reflexivity.
Qed.
Example C65_ex_outsider : from_outside (PAllow []) (EvPacket from_p []) = true.
Proof. reflexivity. Qed.
(** A message of another type is dropped. *)
Example C65_ex_type : exists r' out,
  process_packet (fun s => s) (fun _ => true) conf0 (clk 1) (sub_reg scan) from_p (data (msg scan [1; 2; 3; 4] 8))
    (host_with [(id_p, peer_p 1 8 scan from_p)] [] [scan]) = Some (r', out) /\ writes out = [].
Proof. eexists. eexists. split; [vm_compute; reflexivity|vm_compute; reflexivity]. Qed.

(** False: topics are told apart by a 32-bit hash of the name only.  Of two topics with the same hash the host's first
    one gets the messages of both. *)
Theorem C65_hash_collision_refuted : forall conf now reg from s m r r' out t u ws,
  process_incoming_message conf now reg from s m r = Some (r', out) -> ~ on_reserved m ->
  d_writers (r_disc r) = u :: ws -> topic_hash u = topic_hash t -> om_topic m = topic_hash t ->
  import_allowed (mkGuard (c_import conf) (c_export conf) (Some reg)) u -> ~ types_differ reg (d_peers (r_disc r)) from u ->
  writes out = [(u, snd (process_incoming_payload (om_payload m) (om_enc m) (length (om_payload m))))].
Proof.
  intros conf now reg from s m r r' out t u ws E NR Ew Eh Et Ia Td.
  assert (G : forall flow x, x = with_flow r flow -> writes (snd (import x from m)) = [(u, snd (process_incoming_payload (om_payload m) (om_enc m) (length (om_payload m))))]).
  { intros flow x ->. rewrite import_writes. change (d_writers (r_disc (with_flow r flow))) with (d_writers (r_disc r)).
    rewrite Ew, Et, <- Eh. unfold writer_by_hash. cbn [find]. rewrite N.eqb_refl. reflexivity. }
  apply pim_cases in E as (flow & rest & _ & -> & _ & _ & _ & _ & _ & C).
  change (writes (RTaken m :: rest)) with (writes rest).
  destruct C as [[R _]|(_ & _ & _ & [(w & W & Rf & _)|(_ & -> & _)])]; [tauto| |eapply G; reflexivity].
  exfalso. rewrite Ew, Et, <- Eh in W. unfold writer_by_hash in W. cbn [find] in W. rewrite N.eqb_refl in W. injection W as <-.
  apply (refused_iff (fun _ => true) conf) in Rf. destruct Rf; auto.
Qed.
Print Assumptions C65_hash_collision_refuted.
Example C65_ex_collision : topic_hash (bs "front481.pose"%string) = topic_hash (bs "base146.odom"%string).
Proof. vm_compute. reflexivity. Qed.
Definition two_topics : Registry :=
  [(bs "base146.odom"%string, mkEntry 7 4 Subscriber true false); (bs "front481.pose"%string, mkEntry 7 4 Subscriber true false)].
Example C65_ex_misdelivered : exists r' out,
  process_packet (fun s => s) (fun _ => true) conf0 (clk 1) two_topics from_p (data (msg (bs "front481.pose"%string) [1; 2; 3; 4] 8))
    (host_with [(id_p, peer_p 1 7 (bs "front481.pose"%string) from_p)] [] [bs "base146.odom"%string; bs "front481.pose"%string]) = Some (r', out) /\
  writes out = [(bs "base146.odom"%string, [1; 2; 3; 4])].
Proof. eexists. eexists. split; [vm_compute; reflexivity|vm_compute; reflexivity]. Qed.
(** False: a topic whose name has the hash of a reserved one is never imported, whatever is sent. *)
Theorem C65_reserved_collision_refuted : forall conf now reg from s m r r' out,
  process_incoming_message conf now reg from s m r = Some (r', out) -> om_topic m = topic_hash (bs "arm.nlgnvkg"%string) -> writes out = [].
Proof.
  intros conf now reg from s m r r' out E Et. apply pim_cases in E as (flow & rest & _ & -> & _ & _ & _ & _ & _ & C).
  change (writes (RTaken m :: rest)) with (writes rest). destruct C as [(_ & W & _)|(NR & _)]; auto.
  exfalso. apply NR. right. right. rewrite Et. vm_compute. reflexivity.
Qed.
Print Assumptions C65_reserved_collision_refuted.
(** False: with two peers behind one address, a message of the wrong type from the second is written, because only the
    first peer at the address is asked for its type. *)
Theorem C65_shared_address_refuted : exists r r' out from,
  process_packet (fun s => s) (fun _ => true) conf0 (clk 1) (sub_reg scan) from (data (msg scan [1; 2; 3; 4] 8)) r = Some (r', out) /\
  writes out = [(scan, [1; 2; 3; 4])] /\
  In (id_p, peer_p 1 8 scan from) (d_peers (r_disc r)) /\ ph_sender (packet_header_new 0 (peer_id_hash id_p) 5) = peer_id_hash id_p.
Proof.
  exists (host_with [(repeat 2 16, peer_p 1 7 scan (V4 167772161, 9200)); (id_p, peer_p 1 8 scan from_p)] [] [scan]).
  eexists. eexists. exists from_p. split; [vm_compute; reflexivity|]. split; [vm_compute; reflexivity|]. split; [right; left; reflexivity|reflexivity].
Qed.
Print Assumptions C65_shared_address_refuted.

(** ** C66 *)
(** The whole way, for one message of at most 1400 bytes: host A exports it, and host B, receiving any of the copies A
    sent (at least one, in any number and at any times), writes it into its own topic exactly once, unchanged, and
    acknowledges it exactly once if it is urgent.  What is missing for the full property: messages over 1400 bytes
    (refuted, C19), and B handling other traffic in between. *)
Theorem C66_end_to_end_partial : forall order can_open confA confB nowA regA regB tap rA rB t idx p e addrB fromA l rB' out,
  (* A has the message *)
  NoDup (d_readers (r_disc rA)) -> In t (d_readers (r_disc rA)) ->
  export_allowed (mkGuard (c_import confA) (c_export confA) (Some regA)) t ->
  new_message rA tap t idx p e -> (forall u, u <> t -> tap u = None) -> bytes_ok p -> N.of_nat (length p) <= 1400 ->
  u16 (peer_id_hash (d_me (r_disc rA))) -> u32 (r_seq rA) -> e <> PodBe ->
  (* B takes the topic *)
  ~ on_reserved (wire_message t p idx e) -> admits (c_filter confB) (fst fromA) = true ->
  only_writer (d_writers (r_disc rB)) t -> import_allowed (mkGuard (c_import confB) (c_export confB) (Some regB)) t ->
  ~ types_differ regB (d_peers (r_disc rB)) fromA t ->
  unseen rB (peer_id_hash (d_me (r_disc rA))) (topic_hash t) (idx mod 2 ^ 32) ->
  (* some copies arrive *)
  l <> [] -> (forall x, In x l -> In (snd x) (sent_to addrB (snd (handle_export confA nowA regA tap rA)))) ->
  outcome (rrun order can_open confB rB (all_from fromA regB l)) = Some (rB', out) ->
  writes out = [(t, p)] /\
  sends out = if urgent_name t
              then [(fromA, encode_ack (peer_id_hash (d_me (r_disc rB))) (r_seq rB) (mkAP (topic_hash t) (idx mod 2 ^ 32)))]
              else [].
Proof.
  intros order can_open confA confB nowA regA regB tap rA rB t idx p e addrB fromA l rB' out
    Hn Hi He Hnew Honly Hp Hl Hs Hq Hend NR Ad Ow Ia Td Un Hne Hin E.
  destruct (wire_fields t p idx e) as (W1 & W2 & W3 & W4).
  pose proof (proj1 (export_exact confA nowA regA tap rA t idx p e Hn Hi He Hnew Honly Hl)) as S.
  set (pkt := encode_single _ _ _) in S.
  assert (All : forall x, In x l -> snd x = pkt).
  { intros x Hx. specialize (Hin x Hx). unfold sent_to in Hin. rewrite S in Hin. apply in_map_iff in Hin as ([a b] & Eb & Hin).
    apply filter_In in Hin as [Hin _]. apply in_concat in Hin as (l' & Hl' & Hin). apply repeat_spec in Hl'. subst l'.
    apply in_map_iff in Hin as (kp & Ek & _). cbn [snd] in Eb. congruence. }
  assert (Hwf : message_wf (wire_message t p idx e)) by (apply wire_message_wf; auto; lia).
  destruct (copies_once order can_open confB fromA (peer_id_hash (d_me (r_disc rA))) (r_seq rA) (wire_message t p idx e) regB l rB rB' out t)
    as (A & B & _); auto; rewrite ?W1, ?W2, ?W3 in *; auto; try lia.
  rewrite W4 in A. split.
  - rewrite A. f_equal. f_equal. unfold process_incoming_payload. destruct e; try congruence; reflexivity.
  - rewrite B. unfold wire_message. destruct (urgent_name t); reflexivity.
Qed.
Print Assumptions C66_end_to_end_partial.
Definition host_a : Repl :=
  with_disc (repl_new id_p zero_secret 0) (mkDisc id_p zero_secret [(me_b, peer_of 0 (mkAnn me_b 9100 zero_secret false [mkWireTopic scan 7 4 2 1 2] (V4 167772162, 5000)))] [scan] []).
Definition tap1 (idx : N) (p : bytes) : bytes -> option (N * bytes * Encoding) := fun n => if beqb n scan then Some (idx, p, PodLe) else None.
Example C66_ex :
  new_message host_a (tap1 8 [1; 2; 3; 4]) scan 8 [1; 2; 3; 4] PodLe /\
  length (sent_to (V4 167772162, 9100) (snd (handle_export conf0 (clk 1) [] (tap1 8 [1; 2; 3; 4]) host_a))) = 1%nat /\
  (exists rB' out, outcome (rrun (fun s => s) (fun _ => true) conf0 (host_with [(id_p, peer_p 1 7 scan from_p)] [] [scan])
      (all_from from_p (sub_reg scan) (map (pair (clk 2)) (sent_to (V4 167772162, 9100) (snd (handle_export conf0 (clk 1) [] (tap1 8 [1; 2; 3; 4]) host_a)))))) = Some (rB', out) /\
    writes out = [(scan, [1; 2; 3; 4])]).
Proof.
  split; [repeat split; discriminate|]. split; [vm_compute; reflexivity|].
  eexists. eexists. split; [vm_compute; reflexivity|vm_compute; reflexivity].
Qed.

(** An urgent message that was exported and not acknowledged is sent again, whole and in one datagram, to every peer
    that is up, by the first timer pass ten milliseconds or more later; any peer that gets nothing but this copy writes
    the message once and acknowledges it.  This covers every size up to 65500 bytes: an urgent message over 1400 bytes,
    which the export pass cannot deliver (C19), arrives this way. *)
Theorem C66_retransmitted : forall order can_open confA confB now now2 regA regA2 regB tap tap2 second rA rB t idx p e k peer fromA nowB rB' out,
  NoDup (d_readers (r_disc rA)) -> In t (d_readers (r_disc rA)) ->
  export_allowed (mkGuard (c_import confA) (c_export confA) (Some regA)) t ->
  new_message rA tap t idx p e -> (forall u, u <> t -> tap u = None) -> bytes_ok p -> N.of_nat (length p) <= 65500 ->
  subscribers_of (d_peers (r_disc rA)) t <> [] -> urgent_name t = true -> u16 (peer_id_hash (d_me (r_disc rA))) ->
  (* later, with nothing new in the topics *)
  k_ms now + 10 <= k_ms now2 -> (forall u, tap2 u = None) ->
  In (k, peer) (d_peers (r_disc rA)) -> pi_alive peer = true ->
  exists copy,
    In (data_addr peer, copy)
       (sends (snd (handle_timer order can_open confA now2 regA2 tap2 second (fst (handle_export confA now regA tap rA))))) /\
    (~ on_reserved (wire_message t p idx e) -> admits (c_filter confB) (fst fromA) = true ->
     only_writer (d_writers (r_disc rB)) t -> import_allowed (mkGuard (c_import confB) (c_export confB) (Some regB)) t ->
     ~ types_differ regB (d_peers (r_disc rB)) fromA t ->
     unseen rB (peer_id_hash (d_me (r_disc rA))) (topic_hash t) (idx mod 2 ^ 32) ->
     process_packet order can_open confB nowB regB fromA copy rB = Some (rB', out) ->
     writes out = [(t, p)] /\
     sends out = [(fromA, encode_ack (peer_id_hash (d_me (r_disc rB))) (r_seq rB) (mkAP (topic_hash t) (idx mod 2 ^ 32)))]).
Proof.
  intros order can_open confA confB now now2 regA regA2 regB tap tap2 second rA rB t idx p e k peer fromA nowB rB' out
    Hn Hi He Hnew Honly Hp Hl Hs Hu Hme Ht Htap Hk Hal.
  destruct (export_latched confA now tap rA regA t idx p e Hn Hi He Hnew Honly Hs Hu) as (La & Da & Qa).
  set (r1 := fst (handle_export confA now regA tap rA)) in *.
  unfold handle_timer. unfold handle_export at 1. rewrite read_nothing by auto. cbn [export_all with_export r_latch].
  set (r2 := with_export r1 _ _ _ _).
  destruct (tick_resends (k_ms now2) (r_latch r1)) as [latch due] eqn:Et.
  assert (Hdue : In ((topic_hash t, idx mod 2 ^ 32), p) due).
  { replace due with (snd (tick_resends (k_ms now2) (r_latch r1))) by (rewrite Et; reflexivity). rewrite La. unfold tick_resends, start_latch, insert.
    cbn [snd flat_map]. apply in_app_iff. left. unfold latch_due. cbn [le_last_sent le_resends le_payload].
    rewrite (proj2 (N.leb_le LATCH_RESEND_INTERVAL _)) by (unfold LATCH_RESEND_INTERVAL; lia). left. reflexivity. }
  destruct (resend_all_in (topic_hash t) (idx mod 2 ^ 32) p k peer due (with_latch r2 latch)) as (q & Hq & Hin); auto.
  { cbn [with_latch r_disc r2 with_export]. rewrite Da. apply filter_In. split; auto. }
  destruct (resend_all (with_latch r2 latch) due) as [r3 o3]. cbn [snd] in *.
  exists (encode_single (packet_header_new 0 (peer_id_hash (d_me (r_disc (with_latch r2 latch)))) q)
      (mkOut (topic_hash t) p 0 (idx mod 2 ^ 32) Immediate Latched PodLe) 65536). split.
  - unfold sends. apply in_flat_map. eexists. split; [destruct second; cbn [snd app]; exact Hin|left; reflexivity].
  - cbn [with_latch r_disc r2 with_export]. rewrite Da. intros NR Ad Ow Ia Td Un E.
    destruct (copies_once order can_open confB fromA (peer_id_hash (d_me (r_disc rA))) q
      (mkOut (topic_hash t) p 0 (idx mod 2 ^ 32) Immediate Latched PodLe) regB [(nowB, encode_single (packet_header_new 0 (peer_id_hash (d_me (r_disc rA))) q)
      (mkOut (topic_hash t) p 0 (idx mod 2 ^ 32) Immediate Latched PodLe) 65536)] rB rB' out t) as (A & B & _); auto.
    + repeat split; cbn [om_topic om_ts om_seq om_payload]; auto; try (apply N.mod_lt; discriminate); try apply topic_hash_u32. lia.
    + intros R. apply NR. unfold on_reserved in *. rewrite (proj1 (wire_fields t p idx e)). exact R.
    + discriminate.
    + intros x [<-|[]]. reflexivity.
    + cbn [all_from map fst snd rrun rstep]. rewrite E. cbn. rewrite app_nil_r. reflexivity.
Qed.
Print Assumptions C66_retransmitted.
Definition stop_now : bytes := bs "arm.emergency"%string.
Definition host_c : Repl :=
  with_disc (repl_new id_p zero_secret 0) (mkDisc id_p zero_secret [(me_b, peer_of 0 (mkAnn me_b 9100 zero_secret false [mkWireTopic stop_now 7 4 2 1 2] (V4 167772162, 5000)))] [stop_now] []).
Example C66_ex_again :
  let tap := fun n => if beqb n stop_now then Some (8, repeat 1 2000, PodLe) else None in
  let r1 := fst (handle_export conf0 (clk 1) [] tap host_c) in
  new_message host_c tap stop_now 8 (repeat 1 2000) PodLe /\ urgent_name stop_now = true /\
  length (sends (snd (handle_timer (fun s => s) (fun _ => true) conf0 (clk 20000000) [] (fun _ => None) false r1))) = 1%nat.
Proof. split; [repeat split; discriminate|]. split; vm_compute; reflexivity. Qed.

(** The acknowledgement B sends ends A's retransmissions of that message: A's state afterwards is as if only
    that entry had been taken out of its table, and nothing is sent in response. *)
Theorem C66_ack_accepted : forall order can_open conf now reg from s q topic sq r,
  u16 s -> u32 q -> u32 topic -> u32 sq -> admits (c_filter conf) (fst from) = true ->
  exists r', process_packet order can_open conf now reg from (encode_ack s q (mkAP topic sq)) r = Some (r', []) /\
    lookup pair_eqb (topic, sq) (r_latch r') = None /\
    (forall k, k <> (topic, sq) -> lookup pair_eqb k (r_latch r') = lookup pair_eqb k (r_latch r)) /\
    forall now2, ~ In (topic, sq) (map fst (snd (tick_resends now2 (r_latch r')))).
Proof.
  intros. eexists. split; [apply ack_packet; auto|]. cbn [with_latch r_latch]. unfold on_ack. split; [|split].
  - apply lookup_remove_eq.
  - intros k Hk. apply lookup_remove_neq; [apply pair_eqb_spec|auto].
  - intros now2 Hx. apply in_map_iff in Hx as ([k x] & Ek & Hx). cbn [fst] in Ek. subst k. unfold tick_resends in Hx. cbn [snd] in Hx.
    apply in_flat_map in Hx as ([k' e'] & Hin & Hx). destruct (_ && _); [|contradiction]. destruct Hx as [Hx|[]]. injection Hx as Ek _. subst k'.
    apply (In_remove pair_eqb pair_eqb_spec) in Hin. tauto.
Qed.
Print Assumptions C66_ack_accepted.
(** False: an urgent message is retransmitted until every subscriber has it.  The acknowledgement of any one peer -- or
    of any admitted address at all -- ends the retransmissions to all. *)
Theorem C66_one_ack_silences_all_refuted : forall order can_open conf now now2 reg tap r t idx p e anyone s q from,
  NoDup (d_readers (r_disc r)) -> In t (d_readers (r_disc r)) ->
  export_allowed (mkGuard (c_import conf) (c_export conf) (Some reg)) t ->
  new_message r tap t idx p e -> (forall u, u <> t -> tap u = None) -> N.of_nat (length p) <= 1400 ->
  subscribers_of (d_peers (r_disc r)) t <> [] -> urgent_name t = true ->
  u16 s -> u32 q -> admits (c_filter conf) (fst from) = true -> anyone = encode_ack s q (mkAP (topic_hash t) (idx mod 2 ^ 32)) ->
  let r1 := fst (handle_export conf now reg tap r) in
  lookup pair_eqb (topic_hash t, idx mod 2 ^ 32) (r_latch r1) <> None /\
  exists r2, process_packet order can_open conf now2 reg from anyone r1 = Some (r2, []) /\
    forall later, ~ In (topic_hash t, idx mod 2 ^ 32) (map fst (snd (tick_resends later (r_latch r2)))).
Proof.
  intros order can_open conf now now2 reg tap r t idx p e anyone s q from Hn Hi He Hnew Honly Hl Hs Hu Hs16 Hq Ad -> r1. split.
  - unfold r1. rewrite (proj2 (export_exact conf now reg tap r t idx p e Hn Hi He Hnew Honly Hl) Hs), Hu.
    unfold start_latch. rewrite lookup_insert_eq by apply pair_eqb_spec. discriminate.
  - destruct (C66_ack_accepted order can_open conf now2 reg from s q (topic_hash t) (idx mod 2 ^ 32) r1) as (r2 & A & _ & _ & B); auto.
    + apply topic_hash_u32.
    + apply N.mod_lt. discriminate.
    + exists r2. auto.
Qed.
Print Assumptions C66_one_ack_silences_all_refuted.
Example C66_ex_urgent : urgent_name (bs "arm.Emergency"%string) = true /\ urgent_name scan = false. Proof. split; vm_compute; reflexivity. Qed.
(** False: if the one acknowledgement is lost, B never acknowledges again: every later copy is taken for a duplicate. *)
Theorem C66_lost_ack_refuted : forall order can_open conf now reg from s q m r,
  u16 s -> u32 q -> message_wf m -> N.of_nat (length (om_payload m)) <= 65500 -> ~ on_reserved m ->
  lookup pair_eqb (s, om_topic m) (r_dedup r) = Some (om_seq m) ->
  process_packet order can_open conf now reg from (encode_single (packet_header_new 0 s q) m 65536) r = Some (r, []).
Proof. intros. apply seen_packet; auto. Qed.
Print Assumptions C66_lost_ack_refuted.
(** False: an acknowledgement means that the message was stored.  A host with no use for the topic acknowledges too. *)
Theorem C66_ack_without_writer_refuted : forall conf now reg from s m r r' out,
  process_incoming_message conf now reg from s m r = Some (r', out) -> ~ on_reserved m -> om_rel m = Latched ->
  d_writers (r_disc r) = [] -> writes out = [] /\
  sends out = [(from, encode_ack (peer_id_hash (d_me (r_disc r))) (r_seq r) (mkAP (om_topic m) (om_seq m)))].
Proof.
  intros conf now reg from s m r r' out E NR Hl Hw. apply pim_cases in E as (flow & rest & _ & -> & _ & _ & _ & _ & _ & C).
  change (writes (RTaken m :: rest)) with (writes rest). change (sends (RTaken m :: rest)) with (sends rest).
  destruct C as [[R _]|(_ & _ & _ & [(w & W & _)|(_ & -> & _)])]; [tauto|rewrite Hw in W; discriminate|].
  rewrite import_writes, import_sends. change (d_writers (r_disc (with_flow r flow))) with (d_writers (r_disc r)). rewrite Hw, Hl. split; reflexivity.
Qed.
Print Assumptions C66_ack_without_writer_refuted.

(** ** C67 *)
(** The host is stopped from the network only by a datagram from an admitted address, on the reserved topic, made by a
    holder of the key within the last five seconds (or on a clock that was never set). *)
Theorem C67_halt_sound : forall order can_open conf now reg from buf me secret t0 h r outs r' out host reason,
  rrun order can_open conf (repl_new me secret t0) h = Some (r, outs) ->
  process_packet order can_open conf now reg from buf r = Some (r', out) -> In (host, reason) (halts out) ->
  (forall k, c_key conf = Some k -> bytes_ok k /\ N.of_nat (length k) < 2 ^ 61) ->
  admits (c_filter conf) (fst from) = true /\
  exists m, In m (taken out) /\ om_topic m = topic_hash (bs "_horus.estop"%string) /\
    (bytes_ok (om_payload m) -> c_policy conf = PolicyWarn /\ exists k ts, c_key conf = Some k /\
       authentic_estop k (om_payload m) host reason ts /\ (fresh ts (k_wall now) \/ clock_never_set ts (k_wall now))).
Proof.
  intros order can_open conf now reg from buf me secret t0 h r outs r' out host reason Er E H Hk.
  pose proof (run_budget order can_open conf h _ 0 _ _ (budget_new me secret t0) Er) as B.
  destruct (packet_stop order can_open conf now reg from buf r r' out _ E B) as [_ G]. destruct (G _ _ H) as (Ad & m & Hm & Ht & Hh).
  split; auto. exists m. split; auto. split; [rewrite Ht; symmetry; exact hash_estop|]. intros Ok. apply handle_iff in Hh; auto.
Qed.
Print Assumptions C67_halt_sound.
(** A stop that a holder of the key sends is obeyed by a host that admits the sender and whose clock agrees to five
    seconds, whatever the host has been through -- up to 127 genuine stops before, any other traffic -- unless its
    thread has died.  Missing: more than 128 genuine stops in a burst (the rate limit, C25), and the thread can be
    killed (below). *)
Theorem C67_stop_obeyed_partial : forall order can_open conf me secret t0 h r outs k host reason sent ph pseq sq buf now reg from r' out,
  rrun order can_open conf (repl_new me secret t0) h = Some (r, outs) -> (stops_taken (c_key conf) (concat outs) < 128)%nat ->
  c_key conf = Some k -> c_policy conf = PolicyWarn -> bytes_ok k -> N.of_nat (length k) < 2 ^ 61 -> bytes_ok reason ->
  host < 2 ^ 16 -> sent < 2 ^ 64 -> u16 ph -> u32 pseq -> u32 sq ->
  frame_system_topic ph pseq sq (bs "_horus.estop"%string) (encode_estop host reason (Some k) sent) = Some buf ->
  admits (c_filter conf) (fst from) = true -> fresh sent (k_wall now) ->
  process_packet order can_open conf now reg from buf r = Some (r', out) -> halts out = [(host, firstn 200 reason)].
Proof.
  intros order can_open conf me secret t0 h r outs k host reason sent ph pseq sq buf now reg from r' out Er Hb Ek Ep Hk Hkl Hr Hh Hs Hph Hps Hsq Ef Ad Fr E.
  pose proof (run_budget order can_open conf h _ 0 _ _ (budget_new me secret t0) Er) as B.
  apply (stop_packet order can_open conf now reg from k host reason sent ph pseq sq buf r (0 + stops_taken (c_key conf) (concat outs))%nat r' out); auto.
Qed.
Print Assumptions C67_stop_obeyed_partial.
Example C67_ex : exists r outs buf,
  rrun (fun s => s) (fun _ => true) conf0 (repl_new me_b zero_secret 0) [(clk 1, sub_reg scan, EvPacket from_p (encode_announcement id_p 9100 zero_secret [(scan, mkEntry 7 4 Publisher true false)]))] = Some (r, outs) /\
  frame_system_topic (peer_id_hash id_p) 3 3 (bs "_horus.estop"%string) (encode_estop (peer_id_hash id_p) [65] (Some [1; 2; 3]) 1700000000000000000) = Some buf /\
  c_key conf0 = Some [1; 2; 3] /\ fresh 1700000000000000000 (k_wall (clk 5)) /\ stops_taken (c_key conf0) (concat outs) = 0%nat /\
  exists r' out, process_packet (fun s => s) (fun _ => true) conf0 (clk 5) (sub_reg scan) from_p buf r = Some (r', out) /\
    halts out = [(peer_id_hash id_p, [65])].
Proof.
  eexists. eexists. eexists. split; [vm_compute; reflexivity|]. split; [vm_compute; reflexivity|]. split; [reflexivity|].
  split; [vm_compute; repeat split; discriminate|]. split; [vm_compute; reflexivity|].
  eexists. eexists. split; vm_compute; reflexivity.
Qed.
(** Every stop fits in a datagram: the sender always has something to send. *)
Theorem C67_stop_framed : forall ph pseq sq host reason key sent,
  exists buf, frame_system_topic ph pseq sq (bs "_horus.estop"%string) (encode_estop host reason key sent) = Some buf.
Proof.
  intros. unfold frame_system_topic. assert (L : N.of_nat (length (encode_estop host reason key sent)) <= 244).
  { unfold encode_estop. destruct key; rewrite ?app_length, ?le_enc_length, ?firstn_length.
    - assert (T : forall k b, length (estop_tag k b) = 32%nat) by (intros; exact (proj1 (hmac_length _ _))). rewrite T. lia.
    - lia. }
  destruct (_ <? _) eqn:E; [|eexists; reflexivity]. exfalso. apply N.ltb_lt in E. unfold MAX_UDP_PAYLOAD in E. lia.
Qed.
Print Assumptions C67_stop_framed.
(** False in a build with overflow checks: five datagrams with chosen sequence numbers, from any admitted address and
    without the key, kill the replicator, and with it every later stop. *)
Definition five : list (Clock * Registry * rev) :=
  map (fun sq => (clk 1, [], EvPacket from_p (data (msg (bs "x"%string) [] sq)))) [0; 2147483647; 4294967294; 0; 2147483647].
Theorem C67_killed_refuted : forall me secret t0,
  rrun (fun s => s) (fun _ => true) conf0 (repl_new me secret t0) five = None.
Proof. intros. vm_compute. reflexivity. Qed.
Print Assumptions C67_killed_refuted.

(** ** C68 *)
(** If never more than 256 datagrams wait at once, the thread, left alone, reads all of them, in the order they came. *)
Theorem C68_all_read_partial : forall evs, never_crowded evs -> exists n, so_read (sock_run (evs ++ repeat SStep n)) = arrived evs.
Proof. exact drained. Qed.
Print Assumptions C68_all_read_partial.
Example C68_ex : never_crowded [SArrive [1]; SStep; SArrive [2]; SStep; SStep].
Proof. intros k. apply Nat.leb_le. destruct k as [|[|[|[|[|k]]]]]; cbn [firstn]; rewrite ?firstn_nil; vm_compute; reflexivity. Qed.
(** At any moment what was read is a prefix of what came. *)
Theorem C68_in_order : forall evs, exists waiting, so_read (sock_run evs) ++ waiting = arrived evs.
Proof. intros. eexists. apply sock_order. Qed.
Print Assumptions C68_in_order.
(** False: after a burst of 257 the last one is not read until another datagram comes, however long the thread runs:
    the wake-up is edge-triggered and the timer does not read. *)
Theorem C68_left_behind_refuted : forall l d n, length l = 256%nat -> ~ In d l ->
  ~ In d (so_read (sock_run (map SArrive (l ++ [d]) ++ repeat SStep n))).
Proof. intros l d n Hl Hd. apply (left_behind l d Hl n Hd). Qed.
Print Assumptions C68_left_behind_refuted.
Example C68_left_ex : length (repeat [1] 256) = 256%nat /\ ~ In [2] (repeat [1] 256).
Proof. split; [apply repeat_length|]. intros H. apply repeat_spec in H. discriminate. Qed.

(** ** C69 *)
(** After any history, an export pass sends only pieces of messages that are new, on topics it may export, to peers
    that are up and announced that they subscribe. *)
Theorem C69_export_sound : forall order can_open conf me secret t0 h r outs now reg tap a pkt,
  rrun order can_open conf (repl_new me secret t0) h = Some (r, outs) ->
  In (a, pkt) (sends (snd (handle_export conf now reg tap r))) ->
  exists t idx p e k peer fid q f,
    In t (d_readers (r_disc r)) /\ export_allowed (mkGuard (c_import conf) (c_export conf) (Some reg)) t /\
    new_message r tap t idx p e /\ subscriber (d_peers (r_disc r)) t k peer /\ a = data_addr peer /\
    In f (snd (fragment fid (wire_message t p idx e))) /\ pkt = export_fragment (peer_id_hash me) q f.
Proof.
  intros order can_open conf me secret t0 h r outs now reg tap a pkt Er H.
  pose proof (rrun_NoDup _ _ _ _ _ _ _ _ _ Er) as Hn. pose proof (rrun_me _ _ _ _ _ _ _ _ _ Er) as Hm.
  rewrite <- Hm. apply (export_sound conf now reg tap r a pkt Hn H).
Qed.
Print Assumptions C69_export_sound.
(** A new message of at most 1400 bytes goes, as one datagram, to each subscriber whose link is not throttled: three
    times if the topic's name marks it urgent, else once. *)
Theorem C69_export_exact_partial : forall order can_open conf me secret t0 h r outs now reg tap t idx p e,
  rrun order can_open conf (repl_new me secret t0) h = Some (r, outs) -> In t (d_readers (r_disc r)) ->
  export_allowed (mkGuard (c_import conf) (c_export conf) (Some reg)) t ->
  new_message r tap t idx p e -> (forall u, u <> t -> tap u = None) -> N.of_nat (length p) <= 1400 ->
  let pkt := encode_single (packet_header_new 0 (peer_id_hash me) (r_seq r)) (wire_message t p idx e) 65536 in
  sends (snd (handle_export conf now reg tap r)) =
    concat (repeat (map (fun kp => (data_addr (snd kp), pkt))
      (filter (fun kp => transmit_allowed (r_flow r) (om_prio (wire_message t p idx e)) (peer_id_hash (fst kp)) (topic_hash t))
         (subscribers_of (d_peers (r_disc r)) t))) (times_to_send t)) /\
  (forall k q, In (k, q) (subscribers_of (d_peers (r_disc r)) t) <-> subscriber (d_peers (r_disc r)) t k q) /\
  (urgent_name t = true -> forall st k topic, transmit_allowed st (om_prio (wire_message t p idx e)) k topic = true) /\
  (r_flow r = [] -> forall prio k topic, transmit_allowed (r_flow r) prio k topic = true).
Proof.
  intros order can_open conf me secret t0 h r outs now reg tap t idx p e Er Hi He Hnew Honly Hl pkt.
  pose proof (rrun_NoDup _ _ _ _ _ _ _ _ _ Er) as Hn. pose proof (rrun_me _ _ _ _ _ _ _ _ _ Er) as Hm.
  split; [|split; [|split]].
  - unfold pkt. rewrite <- Hm. apply export_exact; auto.
  - intros. apply subscribers_iff.
  - intros Hu st k topic. unfold wire_message. rewrite Hu. reflexivity.
  - intros -> prio k topic. destruct prio; reflexivity.
Qed.
Print Assumptions C69_export_exact_partial.
(** A message is exported once: another pass over unchanged topics sends nothing. *)
Theorem C69_not_again : forall order can_open conf me secret t0 h r outs now now' reg tap,
  rrun order can_open conf (repl_new me secret t0) h = Some (r, outs) ->
  sends (snd (handle_export conf now' reg tap (fst (handle_export conf now reg tap r)))) = [].
Proof.
  intros order can_open conf me secret t0 h r outs now now' reg tap Er. apply export_once; auto.
  eapply rrun_NoDup; eauto.
Qed.
Print Assumptions C69_not_again.
(** Reaching such a state: two hosts' announcements. *)
Definition ann_from (id : bytes) (reg : Registry) (addr : Addr) : rev := EvPacket addr (encode_announcement id 9100 zero_secret reg).
Definition pub_reg (name : bytes) : Registry := [(name, mkEntry 7 4 Publisher true false)].
Definition b_addr : Addr := (V4 167772162, 9100).
Example C69_ex : exists r outs,
  rrun (fun s => s) (fun _ => true) conf0 (repl_new id_p zero_secret 0) [(clk 1, pub_reg scan, ann_from me_b (sub_reg scan) b_addr)] = Some (r, outs) /\
  d_readers (r_disc r) = [scan] /\ r_flow r = [] /\ map fst (sends (snd (handle_export conf0 (clk 2) (pub_reg scan) (tap1 8 [1; 2; 3; 4]) r))) = [b_addr].
Proof. eexists. eexists. split; [vm_compute; reflexivity|]. repeat split; vm_compute; reflexivity. Qed.
(** False over a whole history: the same message is sent again when the only subscriber was silent for three seconds and
    came back, because the position in the topic is forgotten with the reader. *)
Theorem C69_once_refuted : exists r1 outs1 r2 outs2,
  rrun (fun s => s) (fun _ => true) conf0 (repl_new id_p zero_secret 0)
    [(clk 1, pub_reg scan, ann_from me_b (sub_reg scan) b_addr); (clk 2, pub_reg scan, EvExport (tap1 8 [1; 2; 3; 4]))] = Some (r1, outs1) /\
  map fst (sends (concat outs1)) = [b_addr] /\
  rrun (fun s => s) (fun _ => true) conf0 r1
    [(clk 4000000000, pub_reg scan, EvTimer (tap1 8 [1; 2; 3; 4]) true); (clk 4000000001, pub_reg scan, ann_from me_b (sub_reg scan) b_addr);
     (clk 4000000002, pub_reg scan, EvExport (tap1 8 [1; 2; 3; 4]))] = Some (r2, outs2) /\
  map fst (sends (concat outs2)) = [b_addr].
Proof.
  do 4 eexists. split; [vm_compute; reflexivity|]. split; [vm_compute; reflexivity|]. split; [vm_compute; reflexivity|vm_compute; reflexivity].
Qed.
Print Assumptions C69_once_refuted.
(** False: only peers with the same type get the message.  With one matching subscriber, a subscriber that announced
    another type gets it too. *)
Definition other_reg : Registry := [(scan, mkEntry 8 4 Subscriber true false)].
Definition two_subscribers : list (Clock * Registry * rev) :=
  [(clk 1, pub_reg scan, ann_from me_b (sub_reg scan) b_addr); (clk 1, pub_reg scan, ann_from (repeat 3 16) other_reg (V4 167772163, 9100))].
Theorem C69_wrong_type_refuted : exists r outs,
  rrun (fun s => s) (fun _ => true) conf0 (repl_new id_p zero_secret 0) two_subscribers = Some (r, outs) /\
  In (V4 167772163, 9100) (map fst (sends (snd (handle_export conf0 (clk 2) (pub_reg scan) (tap1 8 [1; 2; 3; 4]) r)))).
Proof. eexists. eexists. split; [vm_compute; reflexivity|]. vm_compute. auto. Qed.
Print Assumptions C69_wrong_type_refuted.

(** ** C71 *)
(** A host that only subscribes to a topic never sends anything of it, so what it imports does not come back. *)
Theorem C71_no_echo_partial : forall order can_open conf me secret t0 h r outs now reg tap t,
  some_order order -> can_open t = true ->
  (forall x, In x h -> NoDup (keys (snd (fst x))) /\ exists en, In (t, en) (snd (fst x)) /\ te_role en = Subscriber) ->
  rrun order can_open conf (repl_new me secret t0) h = Some (r, outs) ->
  (forall u, u <> t -> tap u = None) -> sends (snd (handle_export conf now reg tap r)) = [].
Proof.
  intros order can_open conf me secret t0 h r outs now reg tap t Ho Hc Hr Er Honly.
  pose proof (rrun_not_reader _ _ _ _ _ _ _ _ _ _ Ho Hc Hr Er) as Hnr.
  destruct (sends _) as [|[a pkt] l] eqn:Es; auto. exfalso.
  assert (H : In (a, pkt) (sends (snd (handle_export conf now reg tap r)))) by (rewrite Es; left; auto).
  apply (C69_export_sound _ _ _ _ _ _ _ _ _ _ _ _ _ _ Er) in H as (u & i & p' & e' & _ & _ & _ & _ & _ & Hu & _ & (Hn' & _) & _).
  destruct (list_eq_dec N.eq_dec u t) as [->|Ne]; [contradiction|]. rewrite Honly in Hn' by auto. discriminate.
Qed.
Print Assumptions C71_no_echo_partial.
(** False when both hosts publish and subscribe and allow the import by name: a message that A published comes back from B
    and is written into A's topic again. *)
Definition both_reg : Registry := [(scan, mkEntry 7 4 Both true false)].
Definition conf_all : Conf := mkConf PAny None PolicyWarn (IAllowList [bs "*"%string]) EAll 3000000000.
Definition start (me : bytes) (peer : bytes) (addr : Addr) : option Repl :=
  option_map fst (rrun (fun s => s) (fun _ => true) conf_all (repl_new me zero_secret 0) [(clk 1, both_reg, ann_from peer both_reg addr)]).
Theorem C71_echo_refuted : exists rA rB packetsAB packetsBA outB outA rB' rA',
  start id_p me_b b_addr = Some rA /\ start me_b id_p from_p = Some rB /\
  (* A publishes; the exported copy is written at B *)
  sent_to b_addr (snd (handle_export conf_all (clk 2) both_reg (tap1 8 [1; 2; 3; 4]) rA)) = packetsAB /\
  outcome (rrun (fun s => s) (fun _ => true) conf_all rB (all_from from_p both_reg (map (pair (clk 3)) packetsAB))) = Some (rB', outB) /\
  writes outB = [(scan, [1; 2; 3; 4])] /\
  (* B's exporter sees B's own topic change, and A writes what comes back *)
  sent_to from_p (snd (handle_export conf_all (clk 4) both_reg (tap1 1 [1; 2; 3; 4]) rB')) = packetsBA /\
  outcome (rrun (fun s => s) (fun _ => true) conf_all rA (all_from b_addr both_reg (map (pair (clk 5)) packetsBA))) = Some (rA', outA) /\
  writes outA = [(scan, [1; 2; 3; 4])].
Proof.
  do 8 eexists. split; [vm_compute; reflexivity|]. split; [vm_compute; reflexivity|]. split; [vm_compute; reflexivity|].
  split; [vm_compute; reflexivity|]. split; [vm_compute; reflexivity|]. split; [vm_compute; reflexivity|].
  split; vm_compute; reflexivity.
Qed.
Print Assumptions C71_echo_refuted.
Example C71_ex : (forall x, In x [(clk 1, sub_reg scan, ann_from id_p (pub_reg scan) from_p)] ->
  NoDup (keys (snd (fst x))) /\ exists en, In (scan, en) (snd (fst x)) /\ te_role en = Subscriber).
Proof. intros x [<-|[]]. cbn [fst snd]. split; [repeat constructor; intros []|]. eexists. split; [left; reflexivity|reflexivity]. Qed.
