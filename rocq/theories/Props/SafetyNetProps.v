(** C26 (networked emergency stop), C27 (heartbeat link loss), C28 (hash and MAC primitives),
    C43 (redundant e-stop broadcast). *)
From Coq Require Import String Permutation.
From Verif.Base Require Import Prelude Bytes AMap Str.
From Verif.Model Require Import Mac Estop Heartbeat.
From Verif.Spec Require Import MacSpec EstopSpec HeartbeatSpec.
From Verif.Proofs Require Import MacProofs EstopProofs HeartbeatProofs.
Local Open Scope N_scope.

(** ** C28 *)
(** The standard's digest is a function, and the code computes it (up to the standard's own length
    limit of 2^64 bits). *)
Theorem C28_sha256_standard : forall m d, bytes_ok m -> N.of_nat (length m) < 2 ^ 61 -> (SHA256 m d <-> sha256 m = d).
Proof.
  intros m d Hm Hl. split; intros H.
  - eapply SHA256_unique; [apply sha256_correct|]; eauto.
  - subst. apply sha256_correct; auto.
Qed.
Print Assumptions C28_sha256_standard.
(** However the message is cut up, streaming gives the digest of the whole. *)
Theorem C28_chunking_irrelevant : forall chunks,
  bytes_ok (concat chunks) -> N.of_nat (length (concat chunks)) < 2 ^ 61 ->
  SHA256 (concat chunks) (sha_finalize (fold_left sha_update chunks sha_new)).
Proof.
  intros chunks Hok Hl. apply holds_SHA256; auto. apply (updates_concat chunks sha_new [] holds_new).
Qed.
Print Assumptions C28_chunking_irrelevant.
Theorem C28_hmac_standard : forall key msg tag, bytes_ok key -> bytes_ok msg ->
  N.of_nat (length key) < 2 ^ 61 -> N.of_nat (length msg) + 64 < 2 ^ 61 ->
  (HMAC key msg tag <-> hmac_sha256 key msg = tag).
Proof.
  intros key msg tag Hk Hm Hlk Hlm. split; intros H.
  - eapply HMAC_unique; [apply hmac_correct|]; eauto.
  - subst. apply hmac_correct; auto.
Qed.
Print Assumptions C28_hmac_standard.
Theorem C28_pbkdf2_standard : forall P S c, bytes_ok P -> bytes_ok S ->
  N.of_nat (length P) < 2 ^ 61 -> N.of_nat (length S) + 68 < 2 ^ 61 -> 0 < c ->
  PBKDF2 P S (N.to_nat c) (pbkdf2 P S c).
Proof. exact pbkdf2_correct. Qed.
Print Assumptions C28_pbkdf2_standard.
Theorem C28_tag_compare : forall a b, ct_eq a b = true <-> a = b.
Proof. exact ct_eq_iff. Qed.
Print Assumptions C28_tag_compare.
Theorem C28_hex_parse : forall s l, parse_hex32 s = Some l <-> length l = 32%nat /\ hex_of l s.
Proof. exact parse_hex32_iff. Qed.
Print Assumptions C28_hex_parse.
(** The e-stop key of a secret: its 32 bytes if it is 64 hex digits, else PBKDF2 of its text. *)
Theorem C28_estop_key : forall secret, bytes_ok secret -> N.of_nat (length secret) < 2 ^ 61 ->
  (forall raw, length raw = 32%nat -> hex_of raw secret -> derive_estop_key secret = raw) /\
  ((forall raw, length raw = 32%nat -> ~ hex_of raw secret) ->
   PBKDF2 secret (bs "horus.estop.kdf.v1") (N.to_nat 600000) (derive_estop_key secret)).
Proof.
  intros secret Hs Hl. unfold derive_estop_key. split.
  - intros raw Hr Hh. rewrite (proj2 (parse_hex32_iff secret raw)); auto.
  - intros Hn. destruct (parse_hex32 secret) as [raw|] eqn:E.
    + apply parse_hex32_iff in E as [E1 E2]. destruct (Hn raw E1 E2).
    + unfold ESTOP_KDF_ITERATIONS. apply pbkdf2_correct; auto.
      * vm_compute. repeat constructor.
      * change (length ESTOP_KDF_SALT) with 18%nat. change (2 ^ 61) with 2305843009213693952. lia.
      * lia.
Qed.
Print Assumptions C28_estop_key.
(** FIPS 180-4's own example. *)
Example C28_ex_abc : SHA256 (bs "abc")
  [0xba;0x78;0x16;0xbf;0x8f;0x01;0xcf;0xea;0x41;0x41;0x40;0xde;0x5d;0xae;0x22;0x23;
   0xb0;0x03;0x61;0xa3;0x96;0x17;0x7a;0x9c;0xb4;0x10;0xff;0x61;0xf2;0x00;0x15;0xad].
Proof.
  apply C28_sha256_standard.
  - vm_compute. repeat constructor.
  - vm_compute. reflexivity.
  - vm_compute. reflexivity.
Qed.
Example C28_ex_hex : hex_of [255; 10] (bs "Ff0a").
Proof.
  change (bs "Ff0a") with [70; 102; 48; 97].
  apply hx_cons; [lia| | |apply hx_cons; [lia| | |apply hx_nil]]; unfold hex_digit_of.
  - change (255 / 16) with 15. lia.
  - change (255 mod 16) with 15. lia.
  - change (10 / 16) with 0. lia.
  - change (10 mod 16) with 10. lia.
Qed.

(** ** C26 *)
(** A networked e-stop stops this machine exactly when the policy acts on remote stops, a key is
    configured, the packet carries that key's MAC of its own content, and its time stamp is within
    five seconds of the local clock (or the local clock was never set).  Nothing else ever does:
    no key, no match, any malformed bytes give no trigger. *)
Theorem C26_obeyed_iff_authentic_and_fresh : forall data policy key now host reason,
  bytes_ok data -> (forall k, key = Some k -> bytes_ok k /\ N.of_nat (length k) < 2 ^ 61) ->
  (handle_remote_estop data policy key now = Some (host, reason) <->
   policy = PolicyWarn /\ exists k ts, key = Some k /\ authentic_estop k data host reason ts /\
     (fresh ts now \/ clock_never_set ts now)).
Proof. exact handle_iff. Qed.
Print Assumptions C26_obeyed_iff_authentic_and_fresh.
(** The check made before a packet may consume the rate budget is the same authenticity. *)
Theorem C26_budget_needs_authentic : forall key data, bytes_ok data ->
  (forall k, key = Some k -> bytes_ok k /\ N.of_nat (length k) < 2 ^ 61) ->
  (estop_packet_is_authentic key data = true <->
   exists k host reason ts, key = Some k /\ authentic_estop k data host reason ts).
Proof. exact authentic_iff. Qed.
Print Assumptions C26_budget_needs_authentic.
(** A stop sent by a holder of the key is obeyed by every receiver whose clock agrees to 5 s. *)
Theorem C26_genuine_obeyed : forall k host reason sent now, bytes_ok k -> N.of_nat (length k) < 2 ^ 61 ->
  bytes_ok reason -> host < 2 ^ 16 -> sent < 2 ^ 64 -> fresh sent now ->
  handle_remote_estop (encode_estop host reason (Some k) sent) PolicyWarn (Some k) now = Some (host, firstn 200 reason).
Proof.
  intros k host reason sent now Hk Hl Hr Hh Hs Hf. apply handle_iff.
  - apply encode_ok; auto.
  - intros k' E. injection E as <-. auto.
  - split; auto. exists k, sent. split; auto. split; auto. apply encode_authentic; auto.
Qed.
Print Assumptions C26_genuine_obeyed.
(** Unforgeability, relative to HMAC: whoever gets a stop obeyed holds a valid tag on exactly the
    host, reason and time obeyed; if every tag in existence was made by honest senders, an honest
    sender sent this very stop. *)
Theorem C26_no_forgery_without_breaking_hmac : forall (honest : N -> bytes -> N -> Prop) k,
  bytes_ok k -> N.of_nat (length k) < 2 ^ 61 ->
  forall data, bytes_ok data ->
  (forall msg tag pre post, data = pre ++ tag ++ post -> HMAC k msg tag ->
     exists h r t, h < 2 ^ 16 /\ N.of_nat (length r) < 2 ^ 16 /\ t < 2 ^ 64 /\ honest h r t /\
       msg = bs "horus.estop.v1" ++ estop_body h r t) ->
  forall policy now host reason, handle_remote_estop data policy (Some k) now = Some (host, reason) ->
  exists ts, honest host reason ts /\ (fresh ts now \/ clock_never_set ts now).
Proof.
  intros honest k Hk Hl data Hd Hun policy now host reason H.
  apply handle_iff in H as (_ & k' & ts & E & (tag & rest & -> & B1 & B2 & B3 & Ht) & Hf); auto.
  2:{ intros k' E. injection E as <-. auto. }
  injection E as <-. destruct (Hun _ tag _ rest eq_refl Ht) as (h & r & t & C1 & C2 & C3 & Hh & E).
  apply app_inv_head in E.
  destruct (body_inj host reason ts h r t [] [] B1 C1 B2 C2 B3 C3) as (-> & -> & ->).
  { rewrite !app_nil_r. auto. }
  exists t. auto.
Qed.
Print Assumptions C26_no_forgery_without_breaking_hmac.
(** No replay of a recorded stop works once it is more than five seconds old, given a set clock. *)
Theorem C26_old_replay_ignored : forall data policy k now host reason ts, bytes_ok data -> bytes_ok k ->
  N.of_nat (length k) < 2 ^ 61 -> authentic_estop k data host reason ts ->
  1577836800 * 10 ^ 9 <= now -> ts + 5 * 10 ^ 9 < now -> handle_remote_estop data policy (Some k) now = None.
Proof.
  intros data policy k now host reason ts Hd Hk Hl Ha Hnow Hold.
  destruct (handle_remote_estop data policy (Some k) now) as [[h r]|] eqn:E; auto. exfalso.
  apply handle_iff in E as (_ & k' & ts' & Ek & Ha' & Hf); auto.
  2:{ intros k' E'. injection E' as <-. auto. }
  destruct Ha as (tag & rest & -> & B1 & B2 & B3 & _). destruct Ha' as (tag' & rest' & E' & C1 & C2 & C3 & _).
  destruct (body_inj _ _ _ _ _ _ _ _ B1 C1 B2 C2 B3 C3 E') as (_ & _ & ->).
  unfold fresh, clock_never_set in Hf. lia.
Qed.
Print Assumptions C26_old_replay_ignored.
(** Within the window the handler keeps no memory: the very same bytes trigger again. *)
Theorem C26_replay_within_window_refuted : forall data policy k now later host reason ts, bytes_ok data -> bytes_ok k ->
  N.of_nat (length k) < 2 ^ 61 -> authentic_estop k data host reason ts ->
  handle_remote_estop data policy (Some k) now = Some (host, reason) -> fresh ts later ->
  handle_remote_estop data policy (Some k) later = Some (host, reason).
Proof.
  intros data policy k now later host reason ts Hd Hk Hl Ha H Hf.
  assert (Hkey : forall k0, Some k = Some k0 -> bytes_ok k0 /\ N.of_nat (length k0) < 2 ^ 61) by (intros k0 E; injection E as <-; auto).
  apply handle_iff in H as (-> & _); auto. apply handle_iff; auto. split; auto. exists k, ts. auto.
Qed.
Print Assumptions C26_replay_within_window_refuted.
Example C26_ex :
  let k := repeat 7 32 in let sent := 1700000000000000000 in
  fresh sent (sent + 4000000000) /\
  handle_remote_estop (encode_estop 513 (bs "operator") (Some k) sent) PolicyWarn (Some k) (sent + 4000000000)
    = Some (513, bs "operator") /\
  handle_remote_estop (encode_estop 513 (bs "operator") (Some k) sent) PolicyWarn None (sent + 4000000000) = None /\
  1577836800 * 10 ^ 9 <= sent + 5000000001.
Proof.
  cbv zeta.
  assert (Hf : fresh 1700000000000000000 (1700000000000000000 + 4000000000)) by (vm_compute; split; discriminate).
  split; [exact Hf|]. split.
  - apply (C26_genuine_obeyed (repeat 7 32) 513 (bs "operator") 1700000000000000000); auto; try (vm_compute; repeat constructor).
  - split; [reflexivity|vm_compute; discriminate].
Qed.

(** ** C43: sending an e-stop *)
(** Of the queued retries a poll sends exactly the due ones, each to the multicast group and every
    peer known at that moment, and keeps exactly the others. *)
Theorem C43_poll_sends_due : forall pend mcast peers now,
  Permutation (snd (tick pend mcast peers now))
    (flat_map (fun p => send_all (pe_payload p) mcast peers) (filter (fun p => pe_at p <=? now) pend)) /\
  Permutation (fst (tick pend mcast peers now)) (filter (fun p => negb (pe_at p <=? now)) pend).
Proof. intros. destruct (tick_spec pend mcast peers now) as [A B]. split; auto. Qed.
Print Assumptions C43_poll_sends_due.
(** Every stop goes out at once and then three more times.  Towards a peer [a] known throughout,
    whatever else is pending and however polls fall: one transmission now, plus one for each of the
    10, 20 and 30 ms marks that some poll has reached. *)
Theorem C43_one_plus_marks : forall pend payload mcast peers now (ps : list (N * list N)) a,
  (forall e, In e pend -> pe_payload e <> payload) -> mcast <> Some a ->
  count_occ N.eq_dec peers a = 1%nat -> (forall t qs, In (t, qs) ps -> count_occ N.eq_dec qs a = 1%nat) ->
  let '(pend', out) := broadcast pend payload mcast peers now in
  times_sent payload a out = 1%nat /\
  times_sent payload a (ticks_out pend' mcast ps) =
    length (filter (fun mark => existsb (fun tq : N * list N => now + mark <=? fst tq) ps) [10000000; 20000000; 30000000]).
Proof.
  intros pend payload mcast peers now ps a Hfresh Hm Hc Hq. unfold broadcast. split.
  - rewrite sent_all; auto. destruct (list_eq_dec N.eq_dec payload payload); congruence.
  - rewrite sent_polls by auto. rewrite filter_app, app_length.
    assert (E : filter (fun e => mine payload e && existsb (fun tq : N * list N => due (fst tq) e) ps) pend = []).
    { induction pend as [|e r IH]; cbn [filter]; auto. rewrite IH by (intros; apply Hfresh; right; auto).
      unfold mine. destruct (list_eq_dec N.eq_dec (pe_payload e) payload) as [Ee|]; auto. destruct (Hfresh e (or_introl eq_refl) Ee). }
    rewrite E. cbn [length plus]. unfold RETRY_COUNT, RETRY_INTERVAL. cbn [seq map filter].
    unfold mine, due. cbn [pe_payload pe_at]. destruct (list_eq_dec N.eq_dec payload payload); [|congruence]. cbn [andb].
    change (10000000 * (N.of_nat 0 + 1)) with 10000000. change (10000000 * (N.of_nat 1 + 1)) with 20000000.
    change (10000000 * (N.of_nat 2 + 1)) with 30000000.
    destruct (existsb (fun tq : N * list N => now + 10000000 <=? fst tq) ps), (existsb (fun tq : N * list N => now + 20000000 <=? fst tq) ps),
      (existsb (fun tq : N * list N => now + 30000000 <=? fst tq) ps); reflexivity.
Qed.
Print Assumptions C43_one_plus_marks.
(** Hence exactly four in all once a poll has happened 30 ms later, and never more than four. *)
Theorem C43_four_in_all : forall pend payload mcast peers now (ps : list (N * list N)) a,
  (forall e, In e pend -> pe_payload e <> payload) -> mcast <> Some a ->
  count_occ N.eq_dec peers a = 1%nat -> (forall t qs, In (t, qs) ps -> count_occ N.eq_dec qs a = 1%nat) ->
  let '(pend', out) := broadcast pend payload mcast peers now in
  let total := times_sent payload a (out ++ ticks_out pend' mcast ps) in
  (total <= 4)%nat /\ ((exists t qs, In (t, qs) ps /\ now + 30000000 <= t) -> total = 4%nat).
Proof.
  intros pend payload mcast peers now ps a H1 H2 H3 H4. pose proof (C43_one_plus_marks pend payload mcast peers now ps a H1 H2 H3 H4) as H.
  destruct (broadcast pend payload mcast peers now) as [pend' out]. destruct H as [A B]. cbv zeta. rewrite sent_app, A, B. split.
  - cbn [filter]. repeat match goal with |- context [if existsb ?f ?l then _ else _] => destruct (existsb f l) end; cbn [length]; lia.
  - intros (t & qs & Hi & Ht).
    assert (E : forall m, m <= 30000000 -> existsb (fun tq : N * list N => now + m <=? fst tq) ps = true).
    { intros m Hm. apply existsb_exists. exists (t, qs). split; auto. cbn [fst]. apply N.leb_le. lia. }
    cbn [filter]. rewrite !E by lia. reflexivity.
Qed.
Print Assumptions C43_four_in_all.
Example C43_ex : let '(pend, out) := broadcast [] [1; 2] (Some 99) [5; 6] 0 in
  out = [([1; 2], 99); ([1; 2], 5); ([1; 2], 6)] /\
  ticks_out pend (Some 99) [(12000000, [5; 6]); (31000000, [6])] =
    [([1; 2], 99); ([1; 2], 5); ([1; 2], 6); ([1; 2], 99); ([1; 2], 6); ([1; 2], 99); ([1; 2], 6)].
Proof. split; reflexivity. Qed.

(** ** C27 *)
(** With at least two missed intervals required (and fewer than 2^32 of them since start): a check at
    [t] reports the loss of [p] exactly when the silence is due by then and no earlier check of the same
    silence found it due — once per outage, at the first check that can know, re-armed by any heartbeat. *)
Theorem C27_reported_at_first_due_check : forall cfg h t start p t0 rest heard ts quiet,
  1 <= hc_interval cfg -> 2 <= hc_threshold cfg < 2 ^ 32 ->
  in_order start (h ++ [(t, HbTick)]) ->
  (forall u o u' o', In (u, o) (h ++ [(t, HbTick)]) -> In (u', o') (h ++ [(t, HbTick)]) ->
     (u - u') / hc_interval cfg < 2 ^ 32) ->
  watched_since p h t0 rest -> silent_since p rest t0 heard ts quiet ->
  (In p (last_reports cfg (h ++ [(t, HbTick)])) <->
   loss_due cfg t0 heard ts t /\ forall u, In (u, HbTick) quiet -> ~ loss_due cfg t0 heard ts u).
Proof. intros cfg h t start p t0 rest heard ts quiet Hi Ht Ho Hsh Hw Hs. eapply report_correct; eauto. split; auto. Qed.
Print Assumptions C27_reported_at_first_due_check.
(** A peer never added, or removed since, is never reported; nothing but a check reports; no check
    reports a peer twice. *)
Theorem C27_no_spurious_reports : forall cfg h t,
  (forall p, unwatched p h -> ~ In p (last_reports cfg (h ++ [(t, HbTick)]))) /\
  NoDup (last_reports cfg (h ++ [(t, HbTick)])) /\
  (forall o, o <> HbTick -> last_reports cfg (h ++ [(t, o)]) = []).
Proof.
  intros. repeat split; intros.
  - apply unwatched_not_reported; auto.
  - apply reports_NoDup.
  - apply only_ticks; auto.
Qed.
Print Assumptions C27_no_spurious_reports.
(** With a threshold of 0 or 1 (nothing stops a configuration from having one) the first check
    reports a peer whose heartbeat arrived in that very instant. *)
Theorem C27_low_threshold_refuted : forall cfg p a t0 t, hc_threshold cfg <= 1 ->
  In p (last_reports cfg [(t0, HbAdd p a); (t, HbHeard p); (t, HbTick)]).
Proof.
  intros cfg p a t0 t Hth. apply (reports_iff cfg [(t0, HbAdd p a); (t, HbHeard p)] t p).
  pose proof (hbp_snoc cfg [(t0, HbAdd p a)] t (HbHeard p) p) as E. cbv beta iota in E. rewrite N.eqb_refl in E.
  pose proof (hbp_snoc cfg [] t0 (HbAdd p a) p) as E0. cbv beta iota in E0. rewrite N.eqb_refl in E0. cbn [app] in E, E0.
  rewrite E, E0. cbn [hbp st hb_run fst lookup option_map].
  eexists. split; [reflexivity|]. unfold hb_tick_peer. cbn [hb_ever hb_alive hb_fired hb_last_received hb_first_seen orb].
  rewrite N.sub_diag, N.div_0_l by lia. change (N.max 0 1 mod 2 ^ 32) with 1.
  rewrite (proj2 (N.leb_le _ _) Hth). reflexivity.
Qed.
Print Assumptions C27_low_threshold_refuted.
(** Announcing a known peer from a new address changes nothing: heartbeats keep going to the old one
    ([update_addr] has no caller). *)
Theorem C27_new_address_ignored_refuted : forall cfg h t t' p a b,
  unwatched p h -> option_map hb_addr (hbp cfg (h ++ [(t, HbAdd p a); (t', HbAdd p b)]) p) = Some a.
Proof.
  intros cfg h t t' p a b Hu. replace (h ++ [(t, HbAdd p a); (t', HbAdd p b)]) with ((h ++ [(t, HbAdd p a)]) ++ [(t', HbAdd p b)]) by (rewrite <- app_assoc; auto).
  rewrite !hbp_snoc, N.eqb_refl, (unwatched_none cfg p h Hu). reflexivity.
Qed.
Print Assumptions C27_new_address_ignored_refuted.
Example C27_ex :
  let cfg := mkHbConfig 100 3 LLStop in
  let h := [(0, HbAdd 7 1); (10, HbHeard 7); (200, HbTick)] in
  in_order 0 (h ++ [(310, HbTick)]) /\ watched_since 7 h 0 [(10, HbHeard 7); (200, HbTick)] /\
  silent_since 7 [(10, HbHeard 7); (200, HbTick)] 0 true 10 [(200, HbTick)] /\
  loss_due cfg 0 true 10 310 /\
  snd (hb_run cfg [] (h ++ [(310, HbTick); (320, HbTick); (330, HbHeard 7); (640, HbTick)])) = [[]; []; []; [7]; []; []; [7]].
Proof.
  cbv zeta. split; [cbn; lia|]. split; [|split; [|split]].
  - exists [], 1. split; [reflexivity|]. split; [left; intros ? ? []|]. intros t [E|[E|[]]]; discriminate.
  - split; [intros t [E|[]]; discriminate|]. exists []. reflexivity.
  - split; [left; auto|]. cbn. lia.
  - reflexivity.
Qed.
