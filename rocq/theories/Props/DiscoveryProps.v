(** C29 (announcements and matching), C60 (the peer table), C61 (which topics a host exchanges),
    C62 (where announcements go). *)
From Coq Require Import String Permutation.
From Verif.Base Require Import Prelude Bytes AMap Str.
From Verif.Model Require Import Wire Registry NetFilter LogEntry Discovery.
From Verif.Spec Require Import WireSpec DiscoverySpec.
From Verif.Proofs Require Import WireProofs DiscoveryProofs.
Local Open Scope N_scope.

(** ** C29 *)
(** An announcement of at most 200 topics with names of at most 63 bytes conveys every one of them, in
    order, with the sender's identity. *)
Theorem C29_roundtrip : forall peer port secret reg from,
  identity_wf peer secret port -> topics_wf reg -> (length reg <= 200)%nat ->
  exists ann, decode_announcement (encode_announcement peer port secret reg) from = Some ann
    /\ an_peer ann = peer /\ an_port ann = port /\ an_secret ann = secret /\ an_from ann = from
    /\ (an_has_secret ann = true <-> secret <> [0; 0; 0; 0])
    /\ Forall2 conveys reg (an_topics ann).
Proof.
  intros peer port secret reg from Hi (_ & Hr) Hl.
  eexists. split; [apply decode_encode_announcement; auto|]. cbn [an_peer an_port an_secret an_from an_has_secret an_topics].
  rewrite firstn_all2 by lia. split; [auto|]. split; [auto|]. split; [auto|]. split; [auto|]. split.
  - fold zero_secret. destruct (beqb secret zero_secret) eqn:E; cbn [negb].
    + apply beqb_spec in E. split; [discriminate|congruence].
    + split; auto. intros _ ->. rewrite (proj2 (beqb_spec _ _)) in E; auto. discriminate.
  - clear Hr Hl. induction reg; cbn; constructor; auto. apply entry_conveys.
Qed.
Print Assumptions C29_roundtrip.

(** Two hosts that have decoded each other's announcements agree: the first exports [t] to the second iff
    the second imports [t] from the first, and that is so iff the first publishes and the second
    subscribes to [t] with the same message type. *)
Theorem C29_agree : forall ra rb peera peerb porta portb seca secb froma fromb anna annb t,
  topics_wf ra -> topics_wf rb -> (length ra <= 200)%nat -> (length rb <= 200)%nat ->
  identity_wf peera seca porta -> identity_wf peerb secb portb ->
  decode_announcement (encode_announcement peera porta seca ra) froma = Some anna ->
  decode_announcement (encode_announcement peerb portb secb rb) fromb = Some annb ->
  (will_export (find_matches ra (an_topics annb)) t <-> exists h, publishes ra t h /\ subscribes rb t h)
  /\ (will_import (find_matches rb (an_topics anna)) t <-> exists h, publishes ra t h /\ subscribes rb t h).
Proof.
  intros ra rb peera peerb porta portb seca secb froma fromb anna annb t (Na & Wa) (Nb & Wb) La Lb Ia Ib Da Db.
  apply decoded_topics in Da; auto. apply decoded_topics in Db; auto.
  rewrite Da, Db, !firstn_all2 by lia. split.
  - apply export_declared.
  - rewrite import_declared. split; intros (h & A & B); eauto.
Qed.
Print Assumptions C29_agree.

(** Whatever bytes arrive, the topics accepted fit in the datagram and have legal names. *)
Theorem C29_any_datagram : forall buf from ann, decode_announcement buf from = Some ann ->
  (30 + 76 * length (an_topics ann) <= length buf)%nat
  /\ Forall (fun w => (length (wt_name w) <= 63)%nat /\ utf8 (wt_name w) = true) (an_topics ann)
  /\ an_from ann = from.
Proof.
  intros buf from ann H. unfold decode_announcement in H. destruct (decode_ann_header buf) eqn:Eh; [|discriminate].
  assert (E : ann = mkAnn (ah_peer a) (ah_port a) (ah_secret a) (has_flag (ah_flags a) ANNOUNCEMENT_HAS_SECRET)
    (decode_topics (N.to_nat (ah_count a)) (skipn 30 buf)) from) by congruence.
  rewrite E. cbn [an_topics an_from]. clear H E.
  assert (30 <= length buf)%nat.
  { unfold decode_ann_header in Eh. destruct (length buf <? 30)%nat eqn:E; [discriminate|]. apply Nat.ltb_ge in E; auto. }
  destruct (decode_topics_legal (N.to_nat (ah_count a)) (skipn 30 buf)) as (A & B & C).
  rewrite skipn_length in B. repeat split; auto. lia.
Qed.
Print Assumptions C29_any_datagram.

(** No other kind of packet is mistaken for an announcement: the data, heartbeat, acknowledgement and
    fragment flags leave bit 7 clear. *)
Theorem C29_not_confused : forall flags sender seq rest from,
  flags < 128 -> u16 sender -> u32 seq ->
  decode_announcement (encode_packet_header (packet_header_new flags sender seq) ++ rest) from = None.
Proof.
  intros flags sender seq rest from Hf Hs Hq. unfold decode_announcement, decode_ann_header.
  set (L := encode_packet_header _ ++ rest).
  destruct (length L <? 30)%nat; auto.
  assert (F2 : get_le 5 1 L = flags).
  { eapply get_field' with (pre := le_enc 4 MAGIC ++ le_enc 1 VERSION);
      [unfold L, encode_packet_header, packet_header_new; cbn [ph_magic ph_version ph_flags]; rewrite <- !app_assoc; reflexivity
      | reflexivity | rewrite pow256_1; lia]. }
  rewrite F2.
  assert (Hb : has_flag flags ANNOUNCEMENT_FLAG = false).
  { unfold has_flag, ANNOUNCEMENT_FLAG. apply negb_false_iff, N.eqb_eq.
    change 128 with (2 ^ 7). apply N.bits_inj_0. intros n. rewrite N.land_spec, N.pow2_bits_eqb.
    destruct (N.eqb_spec 7 n) as [<-|]; [|apply andb_false_r]. rewrite andb_true_r.
    destruct (N.eq_dec flags 0) as [->|Hz]; [reflexivity|].
    apply N.bits_above_log2. apply N.log2_lt_pow2; lia. }
  rewrite Hb. cbn [negb]. repeat (destruct (negb _); auto).
Qed.
Print Assumptions C29_not_confused.

(** Refuted beyond 63 bytes: a topic with a longer name that is published on one host and subscribed on
    the other is never exchanged, and the truncated name is taken for another topic. *)
Definition long_name : bytes := repeat 97 64.
Definition host_pub (n : bytes) : Registry := [(n, mkEntry 7 4 Publisher true false)].
Definition host_sub (n : bytes) : Registry := [(n, mkEntry 7 4 Subscriber true false)].
Definition id_a : bytes := repeat 1 16.
Definition id_b : bytes := repeat 2 16.
Definition from_a : Addr := (V4 167772161, 9100).
Theorem C29_long_name_refuted :
  exists anna annb,
    decode_announcement (encode_announcement id_a 9100 zero_secret (host_pub long_name)) from_a = Some anna
    /\ decode_announcement (encode_announcement id_b 9100 zero_secret (host_sub long_name)) from_a = Some annb
    /\ (exists h, publishes (host_pub long_name) long_name h /\ subscribes (host_sub long_name) long_name h)
    /\ ~ will_export (find_matches (host_pub long_name) (an_topics annb)) long_name
    /\ (* a different topic of the receiver is imported instead *)
       will_import (find_matches (host_sub (repeat 97 63)) (an_topics anna)) (repeat 97 63).
Proof.
  eexists. eexists. split; [vm_compute; reflexivity|]. split; [vm_compute; reflexivity|]. split; [|split].
  - exists 7. split; eexists; (split; [left; reflexivity|]; split; [reflexivity|discriminate]).
  - intros (m & Hm & _). vm_compute in Hm. exact Hm.
  - eexists. split; [vm_compute; left; reflexivity|]. split; reflexivity.
Qed.
Print Assumptions C29_long_name_refuted.

(** Refuted beyond 200 topics: on every host with more than 200 topics some topic is never offered to
    any other host, whatever that host declares. *)
Theorem C29_many_topics_refuted : forall peer port secret reg from ann,
  identity_wf peer secret port -> topics_wf reg -> (200 < length reg)%nat ->
  decode_announcement (encode_announcement peer port secret reg) from = Some ann ->
  exists t e, In (t, e) reg
    /\ forall other, ~ will_export (find_matches other (an_topics ann)) t
                     /\ ~ will_import (find_matches other (an_topics ann)) t.
Proof.
  intros peer port secret reg from ann Hi (Hn & Hw) Hl Hd.
  apply decoded_topics in Hd; auto. rewrite Hd.
  destruct (skipn 200 reg) as [|[t e] rest] eqn:Es.
  { assert (length (skipn 200 reg) = 0)%nat by (rewrite Es; auto). rewrite skipn_length in H. lia. }
  assert (Er : reg = firstn 200 reg ++ (t, e) :: rest) by (rewrite <- Es; symmetry; apply firstn_skipn).
  exists t, e. split; [rewrite Er; apply in_or_app; right; left; auto|].
  assert (Hno : forall w, In w (map wire_of_entry (firstn 200 reg)) -> wt_name w <> t).
  { intros w Hin Et. apply in_map_iff in Hin. destruct Hin as ([n e'] & <- & Hin). cbn [wire_of_entry wt_name fst] in Et. subst n.
    rewrite Er in Hn. unfold keys in Hn. rewrite map_app in Hn. cbn [map fst] in Hn.
    apply NoDup_remove_2 in Hn. apply Hn. apply in_or_app. left. apply in_map_iff. exists (t, e'). auto. }
  intros other. split.
  - rewrite will_export_iff. intros (e1 & w & A & B & C & _). eapply Hno; eauto.
  - rewrite will_import_iff. intros (e1 & w & A & B & C & _). eapply Hno; eauto.
Qed.
Print Assumptions C29_many_topics_refuted.

Definition robot : Registry :=
  [(bs "imu", mkEntry 100 64 Publisher true false); (bs "cmd", mkEntry 200 16 Subscriber true false);
   (bs "map", mkEntry 300 0 Both false false)].
Definition station : Registry :=
  [(bs "imu", mkEntry 100 64 Subscriber true false); (bs "cmd", mkEntry 201 16 Publisher true false);
   (bs "map", mkEntry 300 0 Both false false)].
Example C29_ex_wf : topics_wf robot /\ topics_wf station /\ identity_wf id_a zero_secret 9100.
Proof.
  assert (N1 : NoDup (keys robot)) by (repeat constructor; cbn; intuition discriminate).
  assert (N2 : NoDup (keys station)) by (repeat constructor; cbn; intuition discriminate).
  split; [split; auto|]. 2: split; [split; auto|].
  - repeat constructor; cbn; try lia; unfold byte_ok, u32; lia.
  - repeat constructor; cbn; try lia; unfold byte_ok, u32; lia.
  - repeat constructor; unfold byte_ok; lia.
Qed.
Example C29_ex_match : exists ann,
  decode_announcement (encode_announcement id_b 9100 zero_secret station) from_a = Some ann
  /\ map ma_topic (find_matches robot (an_topics ann)) = [bs "imu"; bs "map"].
Proof. eexists. split; [vm_compute; reflexivity|]. vm_compute. reflexivity. Qed.

(** ** C60 *)
(** The table never holds more than 256 peers, whoever announces what. *)
Theorem C60_bounded : forall timeout h, (length (fst (prun timeout [] h)) <= 256)%nat.
Proof. intros. apply (prun_inv timeout h [] pinv_nil). Qed.
Print Assumptions C60_bounded.

(** As long as no more than 256 identities have been heard of, a peer is listed iff the last thing it
    announced is no older than the timeout at every liveness check since, and it is listed with exactly
    that announcement. *)
Theorem C60_listed : forall timeout h p i, few_peers h ->
  (lookup beqb p (fst (prun timeout [] h)) = Some i
   <-> exists t a, current timeout p t a h /\ i = mkPeer (an_from a) (an_port a) (an_topics a) t true (an_secret a)).
Proof. intros timeout h p i Hf. exact (listed_iff timeout h Hf p i). Qed.
Print Assumptions C60_listed.

(** A liveness check reports, once each, exactly the peers whose silence has just exceeded the timeout. *)
Theorem C60_lost : forall timeout h1 t' h2, few_peers (h1 ++ (t', PLiveness) :: h2) ->
  exists lost, nth_error (snd (prun timeout [] (h1 ++ (t', PLiveness) :: h2))) (length h1) = Some lost
    /\ NoDup lost
    /\ forall p, In p lost <-> exists t a, current timeout p t a h1 /\ timeout < t' - t.
Proof. exact reported_iff. Qed.
Print Assumptions C60_lost.

(** A listed peer cannot be pushed out: whatever the others announce, it stays until a liveness check
    finds it silent for longer than the timeout. *)
Theorem C60_not_evicted : forall timeout h0 h p i,
  lookup beqb p (fst (prun timeout [] h0)) = Some i ->
  (forall t a, In (t, PAnnounce a) h -> an_peer a <> p) ->
  (forall t, In (t, PLiveness) h -> t - pi_seen i <= timeout) ->
  lookup beqb p (fst (prun timeout [] (h0 ++ h))) = Some i.
Proof. intros. rewrite prun_app. apply listed_stays; auto. apply prun_inv, pinv_nil. Qed.
Print Assumptions C60_not_evicted.

(** Refuted: a peer that announces itself is listed.  256 made-up identities, which need no secret and
    no more than one datagram each, keep any peer out. *)
Theorem C60_flood_refuted : forall timeout t a, exists h,
  (forall t' a', In (t', PAnnounce a') h -> an_peer a' <> an_peer a)
  /\ lookup beqb (an_peer a) (fst (prun timeout [] (h ++ [(t, PAnnounce a)]))) = None.
Proof.
  intros timeout t a. destruct (flood_exists timeout t a) as (ids & Hn & Hl).
  exists (flood ids). split; auto. intros t' a' Hin Ea. apply flood_ids in Hin. congruence.
Qed.
Print Assumptions C60_flood_refuted.

Definition ann_a : Announcement := mkAnn id_a 9100 zero_secret false (map wire_of_entry station) from_a.
Definition ann_b : Announcement := mkAnn id_b 9101 zero_secret false [] from_a.
Definition life : list (N * pev) :=
  [(0, PAnnounce ann_a); (1, PAnnounce ann_b); (2, PLiveness); (3, PAnnounce ann_a); (5, PLiveness); (6, PLiveness); (9, PLiveness)].
Example C60_ex_few : few_peers life.
Proof.
  exists [id_a; id_b]. split; [cbn; lia|]. intros t a H.
  repeat (destruct H as [H|H]; [inv H; cbn; auto|]). destruct H.
Qed.
Example C60_ex_run : snd (prun 3 [] life) = [[]; []; []; []; [id_b]; []; [id_a]].
Proof. vm_compute. reflexivity. Qed.

(** ** C61 *)
(** Over any history of announcements and timeouts, a topic that this host only publishes is exported
    exactly while some listed peer subscribes to it with the same type, and never imported. *)
Theorem C61_publisher : forall order can_open timeout reg me secret h t e,
  some_order order -> NoDup (keys reg) -> In (t, e) reg -> te_role e = Publisher ->
  let d := drun order can_open timeout reg (disc_start me secret) h in
  (In t (d_readers d) <-> peer_subscribes (d_peers d) t (te_type_hash e)) /\ ~ In t (d_writers d).
Proof.
  intros order co timeout reg me secret h t e Ho Hn He Hr.
  apply (drun_ind order co timeout reg (fun ps rs ws => (In t rs <-> peer_subscribes ps t (te_type_hash e)) /\ ~ In t ws)).
  - intros peers _ rs ws (_ & Hw). apply update_publisher; auto.
  - cbn. split; [|tauto]. split; [tauto|]. intros H; exfalso; eapply peer_subscribes_nil; eauto.
Qed.
Print Assumptions C61_publisher.
(** Likewise a topic it only subscribes to is imported exactly while some listed peer publishes it, and
    never exported. *)
Theorem C61_subscriber : forall order can_open timeout reg me secret h t e,
  some_order order -> NoDup (keys reg) -> In (t, e) reg -> te_role e = Subscriber -> can_open t = true ->
  let d := drun order can_open timeout reg (disc_start me secret) h in
  (In t (d_writers d) <-> peer_publishes (d_peers d) t (te_type_hash e)) /\ ~ In t (d_readers d).
Proof.
  intros order co timeout reg me secret h t e Ho Hn He Hr Hco.
  apply (drun_ind order co timeout reg (fun ps rs ws => (In t ws <-> peer_publishes ps t (te_type_hash e)) /\ ~ In t rs)).
  - intros peers _ rs ws (_ & Hw). apply update_subscriber; auto.
  - cbn. split; [|tauto]. split; [tauto|]. intros H; exfalso; eapply peer_publishes_nil; eauto.
Qed.
Print Assumptions C61_subscriber.
(** A topic this host has not opened is neither exported nor imported. *)
Theorem C61_unopened : forall order can_open timeout reg me secret h t, some_order order -> ~ In t (keys reg) ->
  let d := drun order can_open timeout reg (disc_start me secret) h in
  ~ In t (d_readers d) /\ ~ In t (d_writers d).
Proof.
  intros order co timeout reg me secret h t Ho Hn.
  apply (drun_ind order co timeout reg (fun _ rs ws => ~ In t rs /\ ~ In t ws)).
  - intros peers _ rs ws _. apply update_unregistered; auto.
  - cbn. tauto.
Qed.
Print Assumptions C61_unopened.
(** A host with a secret lists only peers that presented it, and no host lists itself. *)
Theorem C61_secret : forall order can_open timeout reg me secret h id p,
  In (id, p) (d_peers (drun order can_open timeout reg (disc_start me secret) h)) ->
  id <> me /\ (secret <> [0; 0; 0; 0] -> pi_secret p = secret).
Proof.
  intros order co timeout reg me secret h id p Hin.
  assert (G : secret_ok me secret (drun order co timeout reg (disc_start me secret) h)).
  { apply secret_ok_run. repeat split; cbn in *; tauto. }
  apply G, Hin.
Qed.
Print Assumptions C61_secret.

(** Refuted for a topic used in both directions: with one listed peer that only subscribes and another
    that only publishes, the topic is exported but its remote publisher is ignored. *)
Definition wt (role : N) : WireTopic := mkWireTopic (bs "cmd") 7 4 role 1 2.
Definition ann_of (id : bytes) (role : N) : Announcement := mkAnn id 9100 zero_secret false [wt role] from_a.
Definition both_host : Registry := [(bs "cmd", mkEntry 7 4 Both true false)].
Definition oldest_first (s : Peers) : Peers := rev s.
Theorem C61_both_refuted : some_order oldest_first /\ exists h,
  let d := drun oldest_first (fun _ => true) 3 both_host (disc_start [] zero_secret) h in
  peer_publishes (d_peers d) (bs "cmd") 7 /\ peer_subscribes (d_peers d) (bs "cmd") 7
  /\ In (bs "cmd") (d_readers d) /\ ~ In (bs "cmd") (d_writers d).
Proof.
  split; [intros s; symmetry; apply Permutation_rev|].
  exists [(0, DAnnounce (ann_of id_a 2)); (0, DAnnounce (ann_of id_b 1))].
  cbv zeta. set (d := drun _ _ _ _ _). vm_compute in d. subst d. cbn [d_peers d_readers d_writers].
  split; [|split; [|split]].
  - exists id_b, (peer_of 0 (ann_of id_b 1)), (wt 1). split; [left; reflexivity|]. split; [reflexivity|]. split; [left; reflexivity|].
    repeat split; auto.
  - exists id_a, (peer_of 0 (ann_of id_a 2)), (wt 2). split; [right; left; reflexivity|]. split; [reflexivity|]. split; [left; reflexivity|].
    repeat split; auto.
  - left. reflexivity.
  - intros [].
Qed.
Print Assumptions C61_both_refuted.
(** Refuted when roles change: after this host stops publishing a topic and only subscribes to it, the
    topic is still exported. *)
Definition pub_host : Registry := [(bs "cmd", mkEntry 7 4 Publisher true false)].
Definition sub_host : Registry := [(bs "cmd", mkEntry 7 4 Subscriber true false)].
Theorem C61_role_change_refuted : exists h1 h2,
  let d1 := drun (fun s => s) (fun _ => true) 3 pub_host (disc_start [] zero_secret) h1 in
  let d2 := drun (fun s => s) (fun _ => true) 3 sub_host d1 h2 in
  (exists t, h2 = [(t, DAnnounce (ann_of id_a 3))]) /\ In (bs "cmd") (d_readers d2).
Proof.
  exists [(0, DAnnounce (ann_of id_a 3))], [(1, DAnnounce (ann_of id_a 3))]. cbv zeta. split; [eauto|].
  vm_compute. left. reflexivity.
Qed.
Print Assumptions C61_role_change_refuted.
Example C61_ex_export : exists h, In (bs "imu") (d_readers (drun (fun s => s) (fun _ => true) 3 robot (disc_start id_b zero_secret) h)).
Proof. exists [(0, DAnnounce ann_a)]. vm_compute. auto. Qed.

(** ** C62 *)
(** With unicast discovery a peer that is configured with this host's address and port receives its
    announcements; with multicast, hosts in one group on the default port do. *)
Theorem C62_unicast : forall a b peers, h_mode a = Unicast peers -> In (h_ip b, h_port b) peers ->
  exists dest, In dest (announcement_dests (h_mode a)) /\ receives b dest = true.
Proof.
  intros a b peers Hm Hin. exists (h_ip b, h_port b). rewrite Hm. cbn [announcement_dests]. split; auto.
  unfold receives. cbn [fst snd]. rewrite N.eqb_refl. destruct (h_ip b); cbn [ip_eqb]; rewrite N.eqb_refl; reflexivity.
Qed.
Print Assumptions C62_unicast.
Lemma ip_eqb_refl g : ip_eqb g g = true.
Proof. destruct g; cbn; apply N.eqb_refl. Qed.
Theorem C62_multicast_default_port : forall a b g, h_mode a = Multicast g -> h_mode b = Multicast g ->
  h_port b = 9100 -> exists dest, In dest (announcement_dests (h_mode a)) /\ receives b dest = true.
Proof.
  intros a b g Ha Hb Hp. exists (g, 9100). rewrite Ha. split; [left; auto|].
  unfold receives. cbn [fst snd]. rewrite Hp, Hb, ip_eqb_refl, orb_true_r. reflexivity.
Qed.
Print Assumptions C62_multicast_default_port.
(** Refuted for any other port: hosts configured alike, in one multicast group on the same port, never
    receive each other's announcements. *)
Theorem C62_custom_port_refuted : forall a b g port, port <> 9100 ->
  h_mode a = Multicast g -> h_mode b = Multicast g -> h_port a = port -> h_port b = port ->
  forall dest, In dest (announcement_dests (h_mode a)) -> receives b dest = false.
Proof.
  intros a b g port Hp Ha Hb Pa Pb dest Hin. rewrite Ha in Hin. destruct Hin as [<-|[]].
  unfold receives. cbn [snd]. rewrite Pb. rewrite (proj2 (N.eqb_neq 9100 port)) by auto. reflexivity.
Qed.
Print Assumptions C62_custom_port_refuted.
Example C62_ex : exists a b g, h_mode a = Multicast g /\ h_mode b = Multicast g /\ h_port a = 9200 /\ h_port b = 9200.
Proof. exists (mkHostCfg (V4 1) 9200 (Multicast (V4 3758097736))), (mkHostCfg (V4 2) 9200 (Multicast (V4 3758097736))), (V4 3758097736). auto. Qed.
