(** C17, C18, C19: fragmentation, reassembly, and the end-to-end path of large messages. *)
From Verif.Base Require Import Prelude Bytes AMap.
From Verif.Model Require Import Wire Fragment NetPath.
From Verif.Spec Require Import WireSpec FragmentSpec.
From Verif.Proofs Require Import WireProofs FragmentProofs NetPathProofs.
Open Scope N_scope.

(** C17. The fragmenter cuts a payload into consecutive 1400-byte pieces numbered from 0. *)
Theorem C17_fragments_are_slices : forall m id,
  1400 < N.of_nat (length (om_payload m)) <= 1048576 ->
  let frs := snd (fragment id m) in
  (length (om_payload m) <= 1400 * length frs /\ 1400 * length frs < length (om_payload m) + 1400)%nat /\
  (forall i d, (i < length frs)%nat ->
     nth i frs d = mkFrag (meta_of m) id (N.of_nat i) (N.of_nat (length frs))
                     (N.of_nat (length (om_payload m))) (slice (1400 * i) 1400 (om_payload m)))
  /\ concat (map fr_payload frs) = om_payload m.
Proof. exact fragment_shape. Qed.
Print Assumptions C17_fragments_are_slices.

(** C17. Feed the fragments of one message in any order, with any repetitions, interleaved with any
    other fragments and garbage collections inside the 100 ms window, to a reassembler in any state that
    has no partial message under the same key.  Looking only at the events that concern this message, the
    reassembler emits nothing except, at each arrival that completes a full set, exactly the original
    message.  ([deliveries] is the three-line specification of "completes a full set".) *)
Theorem C17_reassembly : forall m id t0 st l,
  let key := (om_topic m, id) in
  let n := length (snd (fragment id m)) in
  1400 < N.of_nat (length (om_payload m)) <= 1048576 ->
  lookup pair_eqb key st = None ->
  (forall o, In o l -> arrives key o = true -> exists t f, o = RFeed t f /\ In f (snd (fragment id m))) ->
  (forall o, In o l -> t0 <= event_time o < t0 + 100) ->
  (forall l1 o l2, l = l1 ++ o :: l2 -> arrives key o = true ->
     (length (fst (rrun st l1)) < 256)%nat \/ (exists p, lookup pair_eqb key (fst (rrun st l1)) = Some p)) ->
  map snd (filter (fun p => arrives key (fst p)) (snd (rrun st l))) =
  map (fun b : bool => if b then Some (mkRe (meta_of m) (om_payload m)) else None)
      (deliveries n [] (map arrival_index (filter (arrives key) l))).
Proof. exact C17_main. Qed.
Print Assumptions C17_reassembly.

(** The specification [deliveries]: silent while an index is missing; fires at the completing arrival. *)
Theorem C17_deliveries_silent : forall n l,
  all_seen n (rev l ++ []) = false -> Forall (fun b => b = false) (deliveries n [] l).
Proof. exact (fun n l => deliveries_incomplete n [] l). Qed.
Print Assumptions C17_deliveries_silent.
Theorem C17_deliveries_fire : forall n l i,
  all_seen n l = false -> all_seen n (i :: l) = true ->
  deliveries n [] (l ++ [i]) = repeat false (length l) ++ [true].
Proof. exact deliveries_complete. Qed.
Print Assumptions C17_deliveries_fire.

(** A concrete case: three fragments arriving as 2,0,0,1 with a foreign fragment and a collection between. *)
Definition ex_msg : OutMessage := mkOut 7 (repeat 9 3000) 0 1 Normal RelNone PodLe.
Definition ex_frags := snd (fragment 5 ex_msg).
Definition ex_frag i := nth i ex_frags (mkFrag (meta_of ex_msg) 0 0 0 0 []).
Definition ex_other : Fragment := mkFrag (mkMeta 8 0 0 Bulk RelNone PodLe) 5 0 3 4000 (repeat 1 10).
Definition ex_run : list rop :=
  [RFeed 10 (ex_frag 2); RFeed 11 (ex_frag 0); RFeed 12 ex_other; RGc 40; RFeed 50 (ex_frag 0); RFeed 60 (ex_frag 1)].
Example C17_ex_hypotheses :
  let key := (om_topic ex_msg, 5) in
  1400 < N.of_nat (length (om_payload ex_msg)) <= 1048576 /\
  lookup pair_eqb key reassembler_new = None /\
  (forall o, In o ex_run -> arrives key o = true -> exists t f, o = RFeed t f /\ In f (snd (fragment 5 ex_msg))) /\
  (forall o, In o ex_run -> 10 <= event_time o < 10 + 100) /\
  (forall l1 o l2, ex_run = l1 ++ o :: l2 -> arrives key o = true ->
     (length (fst (rrun reassembler_new l1)) < 256)%nat \/ (exists p, lookup pair_eqb key (fst (rrun reassembler_new l1)) = Some p)).
Proof.
  split; [split; vm_compute; [reflexivity|discriminate]|]. split; [reflexivity|]. split; [|split].
  - intros o Ho Ha.
    assert (Hn : forall i, (i < 3)%nat -> In (ex_frag i) (snd (fragment 5 ex_msg))).
    { intros i Hi. apply nth_In. replace (length (snd (fragment 5 ex_msg))) with 3%nat by (vm_compute; reflexivity). auto. }
    Opaque fragment.
    destruct Ho as [<-|[<-|[<-|[<-|[<-|[<-|Ho]]]]]].
    1,2,5,6: do 2 eexists; split; [reflexivity|apply Hn; lia].
    1,2: vm_compute in Ha; discriminate Ha.
    destruct Ho.
  - intros o Ho. destruct Ho as [<-|[<-|[<-|[<-|[<-|[<-|Ho]]]]]]; [..|destruct Ho]; cbn [event_time]; lia.
  - intros l1 o l2 H _. left. apply (Nat.le_lt_trans _ _ _ (rrun_length l1 _)).
    apply (f_equal (@length _)) in H. rewrite app_length in H. cbn [length ex_run reassembler_new] in H |- *. lia.
Qed.
Transparent fragment.
Example C17_ex_result :
  map snd (snd (rrun reassembler_new ex_run)) =
  [None; None; None; None; None; Some (mkRe (meta_of ex_msg) (om_payload ex_msg))].
Proof. vm_compute. reflexivity. Qed.

(** C17 finding: the key does not contain the sender, and every fragmenter numbers from 0, so fragments of
    two senders' messages on one topic are glued together. *)
Theorem C17_cross_sender_refuted : forall m1 m2,
  om_topic m1 = om_topic m2 -> length (om_payload m1) = length (om_payload m2) ->
  1400 < N.of_nat (length (om_payload m1)) <= 2800 ->
  firstn 1400 (om_payload m1) <> firstn 1400 (om_payload m2) ->
  skipn 1400 (om_payload m1) <> skipn 1400 (om_payload m2) ->
  exists f1 f2 r,
    In f1 (snd (fragment 0 m1)) /\ In f2 (snd (fragment 0 m2)) /\
    map snd (snd (rrun reassembler_new [RFeed 0 f1; RFeed 1 f2])) = [None; Some r] /\
    re_payload r <> om_payload m1 /\ re_payload r <> om_payload m2.
Proof. exact cross_sender. Qed.
Print Assumptions C17_cross_sender_refuted.

Example C17_cross_sender_ex :
  let p1 := repeat 1 1500 in let p2 := repeat 2 1500 in
  length p1 = length p2 /\ 1400 < N.of_nat (length p1) <= 2800 /\
  firstn 1400 p1 <> firstn 1400 p2 /\ skipn 1400 p1 <> skipn 1400 p2.
Proof.
  cbv zeta. rewrite !repeat_length. split; [reflexivity|]. split; [lia|].
  split; intros H; apply (f_equal (fun l => hd 0 l)) in H; vm_compute in H; discriminate H.
Qed.

(** C18. Whatever arrives, at most 256 partial messages are held, each with at most 749 slots and no more
    bytes than it declared (at most 1 MiB), hence at most 256 MiB in total. *)
Theorem C18_bounded_memory : forall l,
  let st := fst (rrun reassembler_new l) in
  (length st <= 256)%nat /\ NoDup (map fst st) /\
  Forall (fun e => (length (pe_frags (snd e)) <= 749)%nat
                   /\ held (snd e) <= pe_total (snd e) /\ pe_total (snd e) <= 1048576) st
  /\ fold_right (fun e acc => held (snd e) + acc) 0 st <= 256 * 1048576.
Proof. exact C18_main. Qed.
Print Assumptions C18_bounded_memory.

(** C18. After a collection nothing older than 100 ms is left. *)
Theorem C18_gc_fresh : forall now st, Forall (fun e => now - pe_first_seen (snd e) < 100) (gc_stale now st).
Proof. exact gc_fresh. Qed.
Print Assumptions C18_gc_fresh.

(** C19, the part that holds: a message of at most 1400 bytes is one datagram and is delivered unchanged. *)
Theorem C19_small_delivered_partial : forall m id hash seq now st,
  message_wf m -> u16 hash -> u32 seq -> N.of_nat (length (om_payload m)) <= 1400 ->
  exists pkt, export_message id hash seq m = [pkt] /\ dispatch now st pkt = (st, [m]).
Proof. exact small_delivered. Qed.
Print Assumptions C19_small_delivered_partial.
Example C19_small_ex : message_wf (mkOut 7 [1;2;3] 0 1 Normal RelNone PodLe).
Proof. repeat split; repeat constructor. Qed.

(** C19 is false: no message of more than 1400 bytes is ever delivered, however its datagrams arrive (in
    any order, with any losses and repetitions): the exporter never writes the fragment header that the
    receiver parses. *)
Theorem C19_large_never_delivered_refuted : forall m id hash seq l,
  message_wf m -> u16 hash -> u32 seq ->
  1400 < N.of_nat (length (om_payload m)) <= 1048576 ->
  Forall (fun e => In (snd e) (export_message id hash seq m)) l ->
  Forall (fun d => om_payload d <> om_payload m) (receive reassembler_new l).
Proof. exact large_never_delivered. Qed.
Print Assumptions C19_large_never_delivered_refuted.
Theorem C19_large_is_exported : forall m id hash seq,
  message_wf m -> u16 hash -> u32 seq ->
  1400 < N.of_nat (length (om_payload m)) <= 1048576 ->
  export_message id hash seq m <> [].
Proof. exact export_large_count. Qed.
Print Assumptions C19_large_is_exported.
Example C19_large_ex : message_wf ex_msg /\ 1400 < N.of_nat (length (om_payload ex_msg)) <= 1048576.
Proof.
  split; [|vm_compute; split; [reflexivity|discriminate]].
  repeat split. unfold bytes_ok. apply Forall_forall. intros x Hx. apply repeat_spec in Hx. subst. reflexivity.
Qed.

(** The receiver is not to blame: from a peer that writes the fragment header, a large message arrives whole,
    with its topic, timestamp, sequence number, priority, reliability and encoding, exactly when the last
    missing piece arrives -- in any order and with any repetitions within 100 ms. *)
Theorem C19_receiver_reassembles_partial : forall m id hash host len (sq : nat -> N) t0 l,
  message_wf m -> u16 hash -> u8 host -> u32 len -> u32 id -> (forall i, u32 (sq i)) ->
  1400 < N.of_nat (length (om_payload m)) <= 1048576 ->
  let frags := snd (fragment id m) in
  Forall (fun e : N * nat => t0 <= fst e < t0 + 100 /\ (snd e < length frags)%nat) l ->
  receive reassembler_new (map (fun '(t, i) => (t, fragment_datagram hash (sq i) host len (nth i frags (mkFrag (meta_of m) 0 0 0 0 [])))) l) =
  flat_map (fun b : bool => if b then [m] else []) (deliveries (length frags) [] (map snd l)).
Proof. exact fragmented_delivered. Qed.
Print Assumptions C19_receiver_reassembles_partial.
Example C19_receiver_ex : deliveries 3 [] [2; 0; 0; 1]%nat = [false; false; false; true] /\ length (snd (fragment 5 ex_msg)) = 3%nat.
Proof. split; vm_compute; reflexivity. Qed.

(** Heartbeats and acknowledgements never turn into application messages, whatever they carry. *)
Theorem C19_control_packets_silent : forall now st flags hash sq rest,
  u8 flags -> u16 hash -> u32 sq -> N.testbit flags 4 = true \/ N.testbit flags 5 = true ->
  dispatch now st (encode_packet_header (packet_header_new flags hash sq) ++ rest) = (st, []).
Proof. exact control_silent. Qed.
Print Assumptions C19_control_packets_silent.
