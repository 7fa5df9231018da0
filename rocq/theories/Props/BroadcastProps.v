(** C03 (broadcast topics with one publisher), C04 (several publishers), C44 (joining a live
    broadcast topic). *)
From Verif.Base Require Import Prelude.
From Verif.Model Require Import RingMem Broadcast.
From Verif.Spec Require Import BroadcastSpec.
From Verif.Proofs Require Import RingMemProofs BroadcastProofs BroadcastDrain.
Local Open Scope N_scope.

(** ** C03 *)
(** However the publisher and the subscribers interleave, each subscriber goes through the messages
    sent from where it joined, once, in order; [missed_count()] of them were skipped and each other one
    was received whole. *)
Theorem C03_whole_in_order_accounted : forall k W p sched, one_publisher p sched ->
  exists order, sent_order (b_trace k W sched) order /\
    forall c pos, b_joined c (b_trace k W sched) = Some pos ->
      followed order pos (missed_count c (b_final k W sched)) (b_received c (b_trace k W sched)).
Proof.
  intros k W p sched Ho. destruct (b_reach k W sched (one_publisher_never_lapped k W p sched Ho)) as (log & I).
  exists log. split; [eapply binv_order; eauto|]. intros. eapply binv_followed; eauto.
Qed.
Print Assumptions C03_whole_in_order_accounted.

(** Every value received was sent (or its send is still returning). *)
Theorem C03_received_was_sent : forall k W p sched c m, one_publisher p sched ->
  In m (b_received c (b_trace k W sched)) ->
  In m (b_sent p (b_trace k W sched)) \/ b_pending p (b_trace k W sched) = Some m.
Proof. intros k W p sched c m. apply received_sent. Qed.
Print Assumptions C03_received_was_sent.

(** When the publisher is between sends, a subscriber that keeps polling catches up completely: all of
    what was sent since it joined is received or counted as missed, and if this costs it any message, it
    still gets at least the newest half of the ring. *)
Theorem C03_catches_up : forall k W p sched c pos, one_publisher p sched -> joins_apart k W sched ->
  b_pending p (b_trace k W sched) = None -> b_joined c (b_trace k W sched) = Some pos ->
  N.of_nat (length (b_sent p (b_trace k W sched))) + 2 ^ k < 2 ^ 64 ->
  exists n new, let later := sched ++ repeat (ASub c) n in
    b_received c (b_trace k W later) = b_received c (b_trace k W sched) ++ new /\
    skips (skipn (N.to_nat pos) (b_sent p (b_trace k W sched))) (missed_count c (b_final k W later))
      (b_received c (b_trace k W later)) /\
    (missed_count c (b_final k W later) = missed_count c (b_final k W sched) \/
     2 ^ k - 2 ^ k / 2 <= N.of_nat (length new)).
Proof. intros. apply catches_up; auto. eapply joined_inside; eauto. Qed.
Print Assumptions C03_catches_up.

(** One publisher, ring of two, messages of two words; the subscriber has read one word of the first
    message when the publisher laps it: nothing torn comes out, one message is counted as missed... *)
Definition join (c : nat) : list baction := repeat (ASub c) 2.
Definition pub2 (p : nat) (a b : N) : list baction := APub p [a; b] :: repeat (APub p []) 5.
Definition lapped_read (a b c d e f : N) : list baction :=
  join 0 ++ pub2 0 a b ++ repeat (ASub 0%nat) 4 ++ pub2 0 c d ++ pub2 0 e f.
Example C03_lapped_midway : forall a b c d e f,
  let sched := lapped_read a b c d e f in
  let tr := b_trace 1 2 (sched ++ repeat (ASub 0%nat) 20) in
  one_publisher 0 sched /\ joins_apart 1 2 sched /\ b_joined 0 tr = Some 0 /\
  b_sent 0 tr = [[a; b]; [c; d]; [e; f]] /\ b_received 0 tr = [[e; f]] /\
  r_pc (b_sub (b_final 1 2 sched) 0) = RRead [a] /\
  missed_count 0 (b_final 1 2 (sched ++ repeat (ASub 0%nat) 20)) = 2.
Proof.
  intros. split; [|split].
  - repeat constructor.
  - intros pre suf x y E Hx Hy. destruct x as [|x], y as [|y]; auto; exfalso;
      match goal with
      | H : mid_join (b_sub (b_final _ _ pre) (S ?z)) = true |- _ =>
          assert (Hn : forall s z, Forall (fun a => match a with ASub 0%nat | APub _ _ => True | _ => False end) s ->
                    r_pc (b_sub (b_final 1 2 s) (S z)) = RNew);
          [ apply other_sub_new
          | unfold mid_join in H; rewrite Hn in H; [discriminate|];
            assert (Hf : Forall (fun a => match a with ASub 0%nat | APub _ _ => True | _ => False end) sched) by (repeat constructor);
            rewrite E in Hf; apply Forall_app in Hf as [Hf _]; exact Hf ]
      end.
  - repeat split.
Qed.

(** ** C04 *)
(** Several publishers: the same guarantee as long as no publisher is overtaken by a whole ring while it
    is inside its own send. *)
Theorem C04_not_overtaken_partial : forall k W sched, never_lapped k W sched ->
  exists order, sent_order (b_trace k W sched) order /\
    forall c pos, b_joined c (b_trace k W sched) = Some pos ->
      followed order pos (missed_count c (b_final k W sched)) (b_received c (b_trace k W sched)).
Proof.
  intros k W sched Hn. destruct (b_reach k W sched Hn) as (log & I).
  exists log. split; [eapply binv_order; eauto|]. intros. eapply binv_followed; eauto.
Qed.
Print Assumptions C04_not_overtaken_partial.

(** Without it the property is false: publisher 0 stops after one word, publisher 1 goes once round the
    ring, publisher 0 writes its second word into publisher 1's finished slot, and the subscriber
    returns half of each. *)
Definition overtaken (a b x y c d : N) : list baction :=
  join 0 ++ APub 0%nat [a; b] :: repeat (APub 0%nat []) 3 ++ pub2 1 x y ++ pub2 1 c d ++ [APub 0%nat []] ++
  repeat (ASub 0%nat) 20.
Theorem C04_torn_value_refuted : forall a b x y c d,
  let tr := b_trace 1 2 (overtaken a b x y c d) in
  b_pending 0 tr = Some [a; b] /\ b_sent 0 tr = [] /\ b_sent 1 tr = [[x; y]; [c; d]] /\
  (forall p, p <> 0%nat -> p <> 1%nat -> b_sent p tr = [] /\ b_pending p tr = None) /\
  b_received 0 tr = [[c; b]] /\
  (b <> d -> c <> a -> ([c; b] <> [x; y]) -> ~ In [c; b] [[a; b]; [x; y]; [c; d]]).
Proof.
  intros. repeat split; subst tr.
  - assert (Hp : p <> 0%nat /\ p <> 1%nat) by auto. destruct p as [|[|p]]; [tauto|tauto|]. reflexivity.
  - destruct p as [|[|p]]; [tauto|tauto|]. reflexivity.
  - cbn. intros H1 H2 H3 [E|[E|[E|[]]]]; try (injection E; congruence).
Qed.
Print Assumptions C04_torn_value_refuted.
Example C04_example : (* two publishers interleaving word by word, neither overtaken *)
  let sched := join 0 ++ [APub 0 [1; 2]; APub 1 [3; 4]] ++ concat (repeat [APub 0 []; APub 1 []] 5)%nat ++
               repeat (ASub 0) 14 in
  let tr := b_trace 2 2 sched in
  never_lapped 2 2 sched /\
  b_received 0 tr = [[1; 2]; [3; 4]] /\ b_sent 0 tr = [[1; 2]] /\ b_sent 1 tr = [[3; 4]].
Proof. cbn zeta. split; [apply few_never_lapped; vm_compute; discriminate|]. repeat split. Qed.

(** ** C44 *)
(** A subscriber's starting position is never beyond what has been published, so it can receive
    (C03_catches_up), provided no other subscriber registers at the same moment. *)
Theorem C44_joins_within_partial : forall k W p sched c pos, one_publisher p sched -> joins_apart k W sched ->
  b_pending p (b_trace k W sched) = None -> b_joined c (b_trace k W sched) = Some pos ->
  pos <= N.of_nat (length (b_sent p (b_trace k W sched))).
Proof. intros. eapply joined_inside; eauto. Qed.
Print Assumptions C44_joins_within_partial.

(** Two subscribers registering at once on a busy topic: one of them is placed near 2^64 and receives
    nothing ever after, whatever is published. *)
Definition pub1 (p : nat) (a : N) : list baction := APub p [a] :: repeat (APub p []) 4.
Definition join_race (a b c d e : N) : list baction :=
  [ASub 0%nat] ++ pub1 0 a ++ pub1 0 b ++ pub1 0 c ++ pub1 0 d ++ pub1 0 e ++ repeat (ASub 1%nat) 3 ++ repeat (ASub 0%nat) 2.
Theorem C44_deaf_subscriber_refuted : forall a b c d e later,
  one_publisher 0 later -> N.of_nat (length later) < 2 ^ 63 ->
  b_joined 0 (b_trace 1 1 (join_race a b c d e)) = Some (2 ^ 64 - 2) /\
  b_received 0 (b_trace 1 1 (join_race a b c d e ++ later)) = [].
Proof.
  intros a b c d e later Ho Hl.
  assert (Hj : b_joined 0 (b_trace 1 1 (join_race a b c d e)) = Some (2 ^ 64 - 2)) by reflexivity.
  split; auto.
  assert (Ho2 : one_publisher 0 (join_race a b c d e ++ later)).
  { apply Forall_app. split; auto. repeat constructor. }
  apply (beyond_gets_nothing 1 1 _ 0%nat (2 ^ 64 - 2)).
  - eapply one_publisher_never_lapped; eauto.
  - apply joined_later; auto.
  - pose proof (head_le_steps 1 1 (join_race a b c d e ++ later) (b_init 1)) as Hh.
    unfold b_final. rewrite app_length in Hh. change (length (join_race a b c d e)) with 31%nat in Hh.
    change (sm_head (b_mem (b_init 1))) with 0 in Hh.
    change (2 ^ 63) with 9223372036854775808 in *. change (2 ^ 64) with 18446744073709551616. lia.
Qed.
Print Assumptions C44_deaf_subscriber_refuted.
(** The other subscriber of that history receives. *)
Example C44_other_receives : forall a b c d e,
  b_received 1 (b_trace 1 1 (join_race a b c d e ++ repeat (ASub 1%nat) 8)) = [[d]; [e]].
Proof. reflexivity. Qed.
