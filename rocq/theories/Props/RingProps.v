(** C01 (queue topics are loss-free FIFO), C02 (no half-written receive). *)
From Verif.Base Require Import Prelude.
From Verif.Model Require Import RingMem Ring.
From Verif.Spec Require Import RingSpec.
From Verif.Proofs Require Import RingMemProofs RingProofs.
Local Open Scope N_scope.

(** ** C01 *)
(** For every capacity, message size, number of publishers and interleaving there is one order of
    messages that explains everything seen so far, and it is only ever extended at the end: what a
    later schedule adds comes after what was accepted before. *)
Theorem C01_fifo : forall k W sched later, exists order more,
  queue_history (trace k W sched) order /\
  queue_history (trace k W (sched ++ later)) (order ++ more).
Proof. intros. apply history. Qed.
Print Assumptions C01_fifo.

(** Nothing is lost: whenever no send is in progress, a subscriber that keeps receiving gets every
    accepted message that it has not had yet. *)
Theorem C01_drain : forall k W sched, (forall p, pending p (trace k W sched) = None) ->
  exists n order, queue_history (trace k W (sched ++ repeat ACons n)) order /\
    received (trace k W (sched ++ repeat ACons n)) = map snd order /\
    (forall p, by_publisher p order = accepted p (trace k W sched)).
Proof. intros. apply drained; auto. Qed.
Print Assumptions C01_drain.

(** Never more than the capacity outstanding: an accepted message is not overwritten, it is refused. *)
Theorem C01_bounded : forall k W sched,
  N.of_nat (n_accepted (trace k W sched)) <= N.of_nat (length (received (trace k W sched))) + 2 ^ k.
Proof. intros. apply bounded. Qed.
Print Assumptions C01_bounded.

(** A lone publisher is refused only when more than half the ring is outstanding (the subscriber
    publishes its position every half ring). *)
Theorem C01_refused_only_when_half_full : forall k W p sched a m, only_publisher p sched ->
  In (EErr p m) (snd (step k W (final k W sched) a)) ->
  2 ^ k / 2 + N.of_nat (length (received (trace k W sched))) < N.of_nat (n_accepted (trace k W sched)).
Proof. intros k W p sched a m. apply lone_err. Qed.
Print Assumptions C01_refused_only_when_half_full.

(** With two publishers that is false: a publisher holding an old head is refused by an empty ring,
    with no other call in progress. *)
Definition send1 (p : nat) (w : N) : list action := repeat (AProd p [w] false) 5.
Definition recv1 : list action := repeat ACons 5.
Definition stale_head (a b c d e : N) : list action :=
  [AProd 0%nat [] false; AProd 1%nat [] false] ++
  send1 0 a ++ send1 0 b ++                              (* ring of two is full *)
  [AProd 1%nat [e] false; AProd 1%nat [] false] ++       (* publisher 1 calls send(e), loads head = 2 *)
  recv1 ++ recv1 ++ [AProd 0%nat [c] false] ++ repeat (AProd 0%nat [] false) 5 ++
  [AProd 0%nat [d] false] ++ repeat (AProd 0%nat [] false) 4 ++
  recv1 ++ recv1.                                        (* four in, four out *)
Theorem C01_refused_when_empty_refuted : forall a b c d e,
  let tr := trace 1 1 (stale_head a b c d e) in
  received tr = [[a]; [b]; [c]; [d]] /\ n_accepted tr = 4%nat /\
  (forall q, q <> 1%nat -> pending q tr = None) /\
  snd (step 1 1 (final 1 1 (stale_head a b c d e)) (AProd 1%nat [] false)) = [EErr 1%nat [e]].
Proof.
  intros. subst tr. vm_compute. split; [auto|]. split; [auto|]. split; [|auto].
  intros [|[|q]] Hq; auto. congruence.
Qed.
Print Assumptions C01_refused_when_empty_refuted.

(** A publisher that stops between taking its place and stamping the slot blocks the subscriber
    there for good, whatever everybody else does ... *)
Theorem C01_crashed_publisher_blocks : forall k W s1 s2 p m q,
  claim (p_pc (s_prod (final k W s1) p)) = Some (m, q) -> without_publisher p s2 ->
  N.of_nat (length (received (trace k W (s1 ++ s2)))) <= q.
Proof. intros k W s1 s2 p m q. apply stalled. Qed.
Print Assumptions C01_crashed_publisher_blocks.
(** ... so "an accepted message is eventually received" is false: publisher 1's message is accepted
    and no continuation without publisher 0 delivers it. *)
Definition crash (a b : N) : list action :=
  [AProd 0%nat [] false; AProd 0%nat [a] false; AProd 0%nat [] false; AProd 0%nat [] false;
   AProd 1%nat [] false] ++ send1 1 b.
Theorem C01_crash_loses_others_refuted : forall a b,
  accepted 1 (trace 4 1 (crash a b)) = [[b]] /\
  forall s2, without_publisher 0 s2 -> received (trace 4 1 (crash a b ++ s2)) = [].
Proof.
  intros a b. split; [vm_compute; auto|]. intros s2 H.
  pose proof (stalled 4 1 (crash a b) s2 0 [a] 0 ltac:(vm_compute; auto) H) as Hl.
  destruct (received _); auto. cbn [length] in Hl. lia.
Qed.
Print Assumptions C01_crash_loses_others_refuted.

(** Two publishers interleaved word by word with the subscriber: three messages, in order. *)
Definition busy : list action :=
  [AProd 0%nat [] false; AProd 1%nat [] false;
   AProd 0%nat [1; 2] false; AProd 1%nat [3; 4] false; AProd 0%nat [] false; AProd 1%nat [] false;
   AProd 1%nat [] false; AProd 0%nat [] false; AProd 0%nat [] true] ++
  repeat (AProd 0%nat [] false) 3 ++ [ACons; ACons; ACons] ++ repeat (AProd 1%nat [] false) 3 ++
  repeat ACons 6 ++ repeat (AProd 0%nat [] false) 2 ++ [AProd 0%nat [5; 6] false] ++ repeat (AProd 0%nat [] false) 5.
Example C01_ex_busy :
  accepted 0 (trace 2 2 busy) = [[1; 2]; [5; 6]] /\ accepted 1 (trace 2 2 busy) = [[3; 4]] /\
  received (trace 2 2 (busy ++ repeat ACons 12)) = [[3; 4]; [1; 2]; [5; 6]] /\
  (forall p, pending p (trace 2 2 busy) = None).
Proof. vm_compute. repeat split; auto. intros [|[|p]]; auto. Qed.
(** A lone publisher that is refused. *)
Example C01_ex_refused :
  only_publisher 0 ([AProd 0%nat [] false] ++ send1 0 1 ++ send1 0 2 ++ [AProd 0%nat [3] false; AProd 0%nat [] false]) /\
  In (EErr 0%nat [3]) (snd (step 1 1 (final 1 1
    ([AProd 0%nat [] false] ++ send1 0 1 ++ send1 0 2 ++ [AProd 0%nat [3] false; AProd 0%nat [] false])) (AProd 0%nat [] false))).
Proof. split; [repeat constructor|]. vm_compute. auto. Qed.

(** ** C02 *)
(** Every value a receive returns is, word for word, one whole message whose send had already
    returned Ok, at every crash point of every publisher. *)
Theorem C02_whole_messages : forall k W sched m, In m (received (trace k W sched)) ->
  exists p, In (EOk p m) (trace k W sched).
Proof.
  intros k W sched m H. destruct (history k W sched []) as (o & more & Ho & _).
  destruct (received_accepted _ _ _ Ho H) as (p & Hp). exists p. apply accepted_event; auto.
Qed.
Print Assumptions C02_whole_messages.
(** A publisher stopped in the middle of its words: the receive answers None. *)
Example C02_ex_half_written :
  let s := [AProd 0%nat [] false; AProd 0%nat [7; 8; 9] false] ++ repeat (AProd 0%nat [] false) 4 in
  p_pc (s_prod (final 3 3 s) 0%nat) = PWrite [7; 8; 9] 0 2 /\
  trace 3 3 (s ++ repeat ACons 3) = [ECall 0%nat [7; 8; 9]; ENone].
Proof. vm_compute. auto. Qed.
Example C02_ex_received : In [3; 4] (received (trace 2 2 (busy ++ repeat ACons 12))).
Proof. vm_compute. auto. Qed.
