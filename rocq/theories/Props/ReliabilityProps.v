(** C20 de-duplication, C21 latched retries, C22 flow control. *)
From Coq Require Import String.
From Verif.Base Require Import Prelude Bytes AMap Str.
From Verif.Model Require Import Wire Reliability FlowControl.
From Verif.Spec Require Import ReliabilitySpec FlowSpec.
From Verif.Proofs Require Import ReliabilityProofs FlowProofs.
Local Open Scope N_scope.

(** C20.  While fewer than 4096 (sender, topic) streams are in play and each stream's sequence
    numbers stay within half the 32-bit range, a message of an ordinary topic is delivered iff
    it is newer than everything that arrived before it on its stream... *)
Theorem C20_delivers_the_newest : forall h,
  few_streams (arrivals h) -> half_window (arrivals h) -> u32_seqs (arrivals h) ->
  delivered h = keep_newest [] (arrivals h).
Proof. exact dedup_keeps_newest. Qed.
Print Assumptions C20_delivers_the_newest.
(** ...so no (stream, sequence) is delivered twice, however copies are repeated and reordered. *)
Theorem C20_at_most_once : forall h,
  few_streams (arrivals h) -> half_window (arrivals h) -> u32_seqs (arrivals h) ->
  NoDup (map (fun a => (stream_of a, seq_of a)) (filter (fun a => negb (system a)) (delivered h))).
Proof. exact dedup_at_most_once. Qed.
Print Assumptions C20_at_most_once.
(** A stream that arrives in order, each message repeated any number of times, is delivered
    completely and without repetition, for any length and across the 32-bit wrap. *)
Theorem C20_in_order_complete : forall h key s mcs,
  few_streams (arrivals h) -> is_system_topic_hash (snd key) = false ->
  consecutive s (map fst mcs) ->
  map snd (on_stream key (arrivals h)) = flat_map (fun mc => repeat (fst mc) (S (snd mc))) mcs ->
  map snd (on_stream key (delivered h)) = map fst mcs.
Proof. exact dedup_stream_complete. Qed.
Print Assumptions C20_in_order_complete.

Definition ex_msg (t s : N) : OutMessage := mkOut t [1] 0 s Normal RelNone PodLe.
Example C20_ex : let h := [(7, [ex_msg 3 10]); (7, [ex_msg 3 10; ex_msg 3 11]); (8, [ex_msg 3 10]); (7, [ex_msg 3 9])] in
  few_streams (arrivals h) /\ half_window (arrivals h) /\ u32_seqs (arrivals h) /\
  delivered h = [(7, ex_msg 3 10); (7, ex_msg 3 11); (8, ex_msg 3 10)].
Proof.
  cbv zeta. split; [|split; [|split]].
  - exists [(7, 3); (8, 3)]. split; [cbn; lia|]. intros a Ha. vm_compute in Ha.
    repeat destruct Ha as [<-|Ha]; cbn; auto; contradiction.
  - intros a b Ha Hb _. vm_compute in Ha, Hb. change (2 ^ 31 - 1) with 2147483647.
    repeat destruct Ha as [<-|Ha]; repeat destruct Hb as [<-|Hb]; cbn; try contradiction; lia.
  - intros a Ha. vm_compute in Ha. change (2 ^ 32) with 4294967296.
    repeat destruct Ha as [<-|Ha]; cbn; try contradiction; lia.
  - vm_compute. reflexivity.
Qed.
Example C20_ex_stream : let mcs := [(ex_msg 3 4294967295, 2%nat); (ex_msg 3 0, 0%nat); (ex_msg 3 1, 1%nat)] in
  is_system_topic_hash 3 = false /\ consecutive 4294967295 (map fst mcs).
Proof. vm_compute. repeat split; reflexivity. Qed.

(** The half-range hypothesis is needed: across the wrap, a late duplicate is delivered again. *)
Theorem C20_wrap_duplicate_refuted : forall s t m,
  is_system_topic_hash t = false -> om_topic m = t ->
  forall a b, om_topic a = t -> om_topic b = t -> om_seq a = 2 ^ 32 - 1 -> om_seq b = 0 ->
  delivered [(s, [a]); (s, [b]); (s, [a])] = [(s, a); (s, b); (s, a)].
Proof. exact wrap_duplicate. Qed.
Print Assumptions C20_wrap_duplicate_refuted.
(** So is the stream bound: once 4096 streams are tracked, one more stream clears the table and
    any earlier message is delivered a second time. *)
Theorem C20_flood_duplicate_refuted : forall l x a,
  length l = N.to_nat 4096 -> NoDup (map stream_of (x :: l)) ->
  (forall b, In b (x :: l) -> system b = false) -> In a l ->
  delivered (map (fun b => (fst b, [snd b])) (l ++ [x; a])) = l ++ [x; a].
Proof. exact flood_duplicate. Qed.
Print Assumptions C20_flood_duplicate_refuted.
(** And delivery is not complete: after a sender restarts its numbering, everything it sends is
    dropped until it passes the old sequence number. *)
Theorem C20_restart_starves_refuted : forall s t m0 ms,
  is_system_topic_hash t = false -> om_topic m0 = t -> om_seq m0 < 2 ^ 31 - 1 ->
  (forall m, In m ms -> om_topic m = t /\ om_seq m <= om_seq m0) ->
  delivered [(s, [m0]); (s, ms)] = [(s, m0)].
Proof. exact restart_starves. Qed.
Print Assumptions C20_restart_starves_refuted.

(** C21.  From the moment a message is latched, whatever else happens, its re-sends are exactly
    the expected ones. *)
Theorem C21_resends_exact : forall pre t0 topic seq p post,
  let k := (topic, seq) in
  forallb (fun o => negb (starts k o)) post = true ->
  let st := fst (lrun [] (pre ++ [LStart t0 topic seq p])) in
  resends k (snd (lrun st post)) = expected_resends k p t0 0 post.
Proof. exact latched_resends. Qed.
Print Assumptions C21_resends_exact.
(** Hence at most 100 re-sends, at least 10 ms apart, of the original payload, and none after
    the acknowledgement. *)
Theorem C21_bounded_and_spaced : forall pre t0 topic seq p post,
  let k := (topic, seq) in
  forallb (fun o => negb (starts k o)) post = true ->
  let st := fst (lrun [] (pre ++ [LStart t0 topic seq p])) in
  let r := resends k (snd (lrun st post)) in
  N.of_nat (length r) <= 100 /\ spaced 10 t0 (map fst r) /\ Forall (fun x => snd x = p) r.
Proof.
  intros pre t0 topic seq p post k Hs st r. unfold r, st, k in *. rewrite latched_resends by assumption.
  destruct (expected_bounds (topic, seq) p post t0 0) as (H1 & H2 & H3); [discriminate|].
  rewrite N.add_0_r in H1. auto.
Qed.
Print Assumptions C21_bounded_and_spaced.
Theorem C21_silent_after_ack : forall pre t0 topic seq p post1 post2,
  let k := (topic, seq) in
  forallb (fun o => negb (starts k o)) (post1 ++ LAck topic seq :: post2) = true ->
  let st := fst (lrun [] (pre ++ [LStart t0 topic seq p])) in
  resends k (snd (lrun st (post1 ++ LAck topic seq :: post2))) = resends k (snd (lrun st post1)).
Proof.
  intros pre t0 topic seq p post1 post2 k Hs st. unfold st.
  pose proof Hs as Hs1. rewrite forallb_app in Hs1. apply andb_prop in Hs1 as [Hs1 _].
  unfold k in *. rewrite !latched_resends by assumption.
  apply expected_after_ack. cbn [acks fst snd]. rewrite !N.eqb_refl. reflexivity.
Qed.
Print Assumptions C21_silent_after_ack.
Example C21_ex :
  let post := [LTick 5; LTick 12; LStart 13 4 1 [8]; LTick 21; LTick 22; LAck 3 9; LTick 90] in
  forallb (fun o => negb (starts (3, 9) o)) post = true /\
  resends (3, 9) (snd (lrun (fst (lrun [] [LStart 0 3 9 [7]])) post)) = [(12, [7]); (22, [7])].
Proof. vm_compute. split; reflexivity. Qed.

(** C22.  The rate is decided by the documented loss thresholds and is monotone in the loss. *)
Theorem C22_thresholds : forall g t, 0 < t ->
  (rate_of g t = Full <-> 100 * g < t) /\
  (rate_of g t = Half <-> t <= 100 * g /\ 20 * g < t) /\
  (rate_of g t = Quarter <-> t <= 20 * g /\ 5 * g < t) /\
  (rate_of g t = KeyframeOnly <-> t <= 5 * g).
Proof. exact rate_thresholds. Qed.
Print Assumptions C22_thresholds.
Theorem C22_monotone : forall g1 t1 g2 t2, 0 < t1 -> 0 < t2 -> g1 * t2 <= g2 * t1 ->
  divisor (rate_of g1 t1) <= divisor (rate_of g2 t2).
Proof. exact rate_monotone. Qed.
Print Assumptions C22_monotone.
(** Urgent traffic is never suppressed. *)
Theorem C22_urgent_never_suppressed : forall st n p t,
  frun st (repeat (FSend Immediate p t) n) = Some (st, repeat true n) /\
  frun st (repeat (FSend RealTime p t) n) = Some (st, repeat true n).
Proof. intros. rewrite !sends_same. auto. Qed.
Print Assumptions C22_urgent_never_suppressed.
(** What in-order reception within one window records: every message counted, every missing
    sequence number counted as a gap. *)
Theorem C22_gap_accounting : forall peer topic t0 s0 l st,
  lookup pair_eqb (peer, topic) st = None ->
  increasing_from s0 (map snd l) -> s0 < 2 ^ 32 -> List.last (map snd l) s0 < 2 ^ 32 ->
  Forall (fun ts => fst ts < t0 + 1000) l -> N.of_nat (length l) + 1 < 2 ^ 32 ->
  exists st', frun st (receptions peer topic ((t0, s0) :: l)) = Some (st', []) /\
    lookup pair_eqb (peer, topic) st' =
      Some (mkRecv (List.last (map snd l) s0)
                   (List.last (map snd l) s0 - s0 - N.of_nat (length l))
                   (N.of_nat (length l) + 1) t0).
Proof. exact gap_accounting. Qed.
Print Assumptions C22_gap_accounting.
(** The tracking table never exceeds 4096 entries, whatever arrives. *)
Theorem C22_bounded_table : forall ops st' out,
  frun [] ops = Some (st', out) -> N.of_nat (length st') <= 4096.
Proof. intros. eapply flow_bounded; [| |exact H]; [cbn; lia | constructor]. Qed.
Print Assumptions C22_bounded_table.
(** Decimation holds when exactly one message is received from the peer before each send. *)
Theorem C22_decimation_partial : forall r p t l st last g c w,
  lookup pair_eqb (p, t) st = Some (mkRecv last g c w) ->
  Forall (fun ts => fst ts < w + 1000) l -> rate_stays r st p t l ->
  exists st' out, frun st (paired p t l) = Some (st', out) /\ length out = length l /\
    (N.of_nat (count_true out) = N.of_nat (length l) / divisor r \/
     N.of_nat (count_true out) = N.of_nat (length l) / divisor r + 1).
Proof. exact decimation_paired. Qed.
Print Assumptions C22_decimation_partial.
(** But not otherwise: between two receptions the decision never changes, so a run of sends is
    passed whole or suppressed whole... *)
Theorem C22_all_or_nothing_refuted : forall st n prio p t,
  exists out, frun st (repeat (FSend prio p t) n) = Some (st, out) /\
              (count_true out = n \/ count_true out = O).
Proof. exact all_or_nothing. Qed.
Print Assumptions C22_all_or_nothing_refuted.
(** ...and after two receptions with one gap, a topic is silenced for as long as nothing more is
    received from that peer. *)
Theorem C22_starvation_refuted : forall p t,
  exists st, frun [] [FRecv 0 p t 0; FRecv 1 p t 2] = Some (st, []) /\
  forall n, frun st (repeat (FSend Normal p t) n) = Some (st, repeat false n).
Proof.
  intros p t. cbn [frun]. unfold on_received at 1. cbn [lookup].
  set (st1 := insert _ _ _ _). unfold on_received. unfold st1 at 1 2.
  rewrite !(lookup_insert_eq pair_eqb pair_eqb_spec).
  eexists. split; [reflexivity|]. intros n. rewrite sends_same. f_equal. f_equal. f_equal.
  unfold transmit_allowed, should_send, rate_for, total_for.
  rewrite (lookup_insert_eq pair_eqb pair_eqb_spec). reflexivity.
Qed.
Print Assumptions C22_starvation_refuted.
(** Five packets with chosen sequence numbers overflow the 32-bit gap counter. *)
Theorem C22_gap_overflow_refuted :
  frun [] (receptions 1 1 [(0, 0); (0, 2147483647); (0, 4294967294); (0, 0); (0, 2147483647)]) = None.
Proof. vm_compute. reflexivity. Qed.
Print Assumptions C22_gap_overflow_refuted.
Example C22_ex_accounting : increasing_from 10 (map snd [(1, 11); (2, 15); (3, 16)]) /\
  exists st, frun [] (receptions 5 6 [(0, 10); (1, 11); (2, 15); (3, 16)]) = Some (st, []) /\
             lookup pair_eqb (5, 6) st = Some (mkRecv 16 3 4 0).
Proof. split; [cbn; repeat split; lia|]. eexists. vm_compute. split; reflexivity. Qed.
Example C22_ex_paired :
  let st := [((5, 6), mkRecv 16 3 4 0)] in
  rate_stays KeyframeOnly st 5 6 [(4, 17); (5, 18)].
Proof. cbn [rate_stays]. eexists. split; [vm_compute; reflexivity|]. split; [reflexivity|].
  eexists. split; [vm_compute; reflexivity|]. split; [reflexivity|]. exact I. Qed.
