(** C06: work sharing.  Competing subscribers never receive the same message twice, as long as none of them
    is overtaken while it copies its message out; the code does not ensure the latter. *)
From Coq Require Import Permutation.
From Verif.Base Require Import Prelude.
From Verif.Model Require Import RingMem Spmc.
From Verif.Spec Require Import SpmcSpec.
From Verif.Proofs Require Import RingMemProofs SpmcProofs.
Local Open Scope N_scope.

(** Any number of subscribers, any capacity and width, any interleaving and any spurious failures of the
    compare-and-swap: what all subscribers together received is part of what was sent, each message used
    once, and every single subscriber receives in sending order.
    Missing from the full property: the hypothesis [not_overtaken]. *)
Theorem C06_each_once_partial : forall k W sched, not_overtaken k W sched ->
  let tr := s_trace k W sched in
  N.of_nat (length (s_sent tr)) + cap k < 2 ^ 64 ->
  (exists others, Permutation (s_sent tr) (s_received tr ++ others)) /\
  (forall c, subseq (s_received_by c tr) (s_sent tr)).
Proof.
  intros k W sched Ho tr Hb. destruct (spmc_reach k W True sched Hb (fun _ => Ho)) as (P & pos & U).
  fold tr in P, U. split.
  - destruct (positions_perm (s_sent tr) (s_received tr) (map N.to_nat pos)) as (others & H & _).
    + apply FinFun.Injective_map_NoDup; [intros x y; apply N2Nat.inj|]. apply (u_nd _ _ _ _ _ U).
    + pose proof (u_got _ _ _ _ _ U Logic.I) as G. clear -G. induction G; cbn [map]; constructor; auto.
    + eauto.
  - intros c. destruct (u_ord _ _ _ _ _ U Logic.I c) as (lim & A & B & _).
    rewrite <- (firstn_skipn lim (s_sent tr)). apply subseq_app. auto.
Qed.
Print Assumptions C06_each_once_partial.

(** Nothing is lost: when no recv is running and the shared tail has reached the head, everything sent was
    received by somebody. *)
Theorem C06_nothing_lost_partial : forall k W sched, not_overtaken k W sched ->
  let tr := s_trace k W sched in
  N.of_nat (length (s_sent tr)) + cap k < 2 ^ 64 ->
  (forall c t acc, c_pc (x_con (s_final k W sched) c) <> CRead t acc) ->
  sm_tail (x_mem (s_final k W sched)) = sm_head (x_mem (s_final k W sched)) ->
  Permutation (s_sent tr) (s_received tr).
Proof.
  intros k W sched Ho tr Hb Hi Ht. destruct (spmc_reach k W True sched Hb (fun _ => Ho)) as (P & pos & U).
  fold tr in P, U. destruct (positions_perm (s_sent tr) (s_received tr) (map N.to_nat pos)) as (others & H & He).
  - apply FinFun.Injective_map_NoDup; [intros x y; apply N2Nat.inj|]. apply (u_nd _ _ _ _ _ U).
  - pose proof (u_got _ _ _ _ _ U Logic.I) as G. clear -G. induction G; cbn [map]; constructor; auto.
  - rewrite He in H; [rewrite app_nil_r in H; auto|]. rewrite <- (u_len _ _ _ _ _ U).
    destruct (u_nd _ _ _ _ _ U) as (N1 & N2).
    assert (Permutation (map N.to_nat pos) (seq 0 (length (s_sent tr)))) as Hp.
    { apply NoDup_Permutation; [|apply seq_NoDup|].
      - apply FinFun.Injective_map_NoDup; auto. intros x y; apply N2Nat.inj.
      - intros i. rewrite in_map_iff, in_seq. rewrite (v_head _ _ _ _ P), (v_len _ _ _ _ P) in Ht. split.
        + intros (x & <- & Hx). apply N2 in Hx. lia.
        + intros Hi'. exists (N.of_nat i). split; [lia|].
          destruct (u_all _ _ _ _ _ U (N.of_nat i)) as [K|(c & acc & K)]; [lia|auto|destruct (Hi _ _ _ K)]. }
    apply Permutation_length in Hp. rewrite map_length, seq_length in Hp. auto.
Qed.
Print Assumptions C06_nothing_lost_partial.

(** Whatever happens, overtaken or not: the number of receives never exceeds the number of messages, and the
    publisher never overwrites a message nobody has claimed. *)
Theorem C06_unclaimed_intact : forall k W sched,
  let tr := s_trace k W sched in let s := s_final k W sched in
  N.of_nat (length (s_sent tr)) + cap k < 2 ^ 64 ->
  (length (s_received tr) <= length (s_sent tr))%nat /\
  forall t m, sm_tail (x_mem s) <= t -> nth_error (s_sent tr) (N.to_nat t) = Some m -> sm_data (x_mem s) (slot k t) = m.
Proof.
  intros k W sched tr s Hb. destruct (spmc_reach k W False sched Hb ltac:(tauto)) as (P & pos & U).
  fold tr s in P, U. pose proof (v_tail _ _ _ _ P) as (T1 & T2). pose proof (v_len _ _ _ _ P) as Vl. split.
  - rewrite <- (u_len _ _ _ _ _ U). destruct (u_nd _ _ _ _ _ U) as (N1 & N2).
    rewrite <- (map_length N.to_nat pos), <- (seq_length (length (s_sent tr)) 0).
    apply NoDup_incl_length; [apply FinFun.Injective_map_NoDup; auto; intros x y; apply N2Nat.inj|].
    intros i Hi. apply in_map_iff in Hi. destruct Hi as (x & <- & Hx). apply N2 in Hx. apply in_seq. lia.
  - intros t m Ht Hm. apply (v_win _ _ _ _ P); auto. pose proof (v_room _ _ _ _ P) as Vr. unfold pc_room in Vr.
    unfold busy. destruct (is_writing (s_pc (x_pub s))); [specialize (Vr eq_refl); lia|].
    pose proof (nth_error_Some_lt _ _ _ Hm). pose proof (pinv_occupancy k W sched Hb). fold s in H0. lia.
Qed.
Print Assumptions C06_unclaimed_intact.

(** ** What the missing hypothesis costs *)

(** A schedule in which subscriber 0 claims the message [a] and pauses; the ring (here of capacity 1) is
    drained, so the next send succeeds and refills the slot; subscriber 0 then wakes up. *)
Definition claim (c : nat) : list saction := [DCon c false; DCon c false; DCon c false; DCon c false].

(** Both subscribers receive the second message and nobody the first. *)
Theorem C06_each_once_refuted : forall a b, a <> b ->
  exists sched, let tr := s_trace 0 1 sched in
    s_sent tr = [[a]; [b]] /\ s_received_by 0 tr = [[b]] /\ s_received_by 1 tr = [[b]].
Proof.
  intros a b _. exists ([DPub [a]; DPub [a]; DPub [a]; DPub [a]] ++ claim 0 ++
    [DPub [b]; DPub [b]; DPub [b]; DPub [b]; DPub [b]] ++ claim 1 ++ [DCon 1%nat false; DCon 0%nat false]).
  cbv. repeat split.
Qed.
Print Assumptions C06_each_once_refuted.

(** A subscriber returns half of one message and half of another, which was never sent. *)
Theorem C06_torn_refuted : forall a1 a2 b1 b2, b2 <> a2 ->
  exists sched, let tr := s_trace 0 2 sched in
    s_sent tr = [[a1; a2]; [b1; b2]] /\ s_received tr = [[a1; b2]].
Proof.
  intros a1 a2 b1 b2 _. exists (repeat (DPub [a1; a2]) 5 ++ claim 0 ++ [DCon 0%nat false] ++ repeat (DPub [b1; b2]) 6 ++ [DCon 0%nat false]).
  cbv. repeat split.
Qed.
Print Assumptions C06_torn_refuted.

(** ** The hypotheses are met by a run in which two subscribers share three messages *)
Definition busy_run : list saction :=
  repeat (DPub [7]) 4 ++ repeat (DPub [8]) 4 ++ claim 0 ++ claim 1 ++ [DCon 1%nat false; DCon 0%nat false] ++
  repeat (DPub [9]) 4 ++ claim 1 ++ [DCon 1%nat false].
Example C06_ex : s_received_by 0 (s_trace 4 1 busy_run) = [[7]] /\ s_received_by 1 (s_trace 4 1 busy_run) = [[8]; [9]].
Proof. cbv. auto. Qed.
Example C06_ex_ok : not_overtaken 4 1 busy_run.
Proof. apply few_steps_not_overtaken. cbv. discriminate. Qed.
