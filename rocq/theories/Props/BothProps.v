(** C47: handles that both send and receive. *)
From Verif.Base Require Import Prelude.
From Verif.Model Require Import RingMem Topology Both.
From Verif.Spec Require Import BothSpec.
From Verif.Proofs Require Import RingMemProofs BothProofs.
Local Open Scope N_scope.

(** A topic used by one handle alone, in both directions, is a first-in first-out queue as long as no more
    messages wait than the ring holds. *)
Theorem C47_loopback_partial : forall k ops, only 0 ops -> at_most (cap k) 0 ops -> b_out k ops = fifo [] ops.
Proof. intros k ops H1 H2. apply binv_run; auto. apply binv_init. Qed.
Print Assumptions C47_loopback_partial.

(** With one handle that sends and another that receives, the topic is such a queue for ever, as long as no more
    messages wait than half the ring holds, plus one: the receiver hands its slots back in batches of half a ring. *)
Theorem C47_one_way_partial : forall k ops, one_way ops -> at_most (cap k / 2 + 1) 0 ops -> b_out k ops = fifo [] ops.
Proof. intros k ops H1 H2. apply oinv_run; auto. apply oinv_init. Qed.
Print Assumptions C47_one_way_partial.
Example C47_one_way_ex : let ops := [BSend 0 1; BSend 0 2; BSend 0 3; BRecv 1; BSend 0 4; BRecv 1; BRecv 1; BSend 0 5; BRecv 1; BRecv 1; BRecv 1] in
  one_way ops /\ at_most (cap 2 / 2 + 1) 0 ops /\ b_out 2 ops = map (pair 1%nat) [Some 1; Some 2; Some 3; Some 4; Some 5; None].
Proof. split; [repeat constructor|]. split; [vm_compute; repeat split|]. vm_compute. reflexivity. Qed.
(** A sharper bound would be false: with a ring of four, the fifth message is lost although only three wait. *)
Theorem C47_one_way_bound_refuted : let ops := [BSend 0 1; BSend 0 2; BSend 0 3; BSend 0 4; BRecv 1; BSend 0 5; BRecv 1; BRecv 1; BRecv 1; BRecv 1] in
  one_way ops /\ at_most (cap 2) 0 ops /\ b_out 2 ops <> fifo [] ops.
Proof. split; [repeat constructor|]. split; [vm_compute; repeat split|]. vm_compute. discriminate. Qed.
Print Assumptions C47_one_way_bound_refuted.

Ltac beval := repeat (progress (
  unfold brecv, bsend, ensure, mpsc_recv, mp_send, seth;
  cbn [b_init b_h b_role b_tail b_head b_hdr_head b_hdr_tail b_ready b_data N.eqb add_recv add_send negb andb updn Nat.eqb];
  change (wsub 0 0) with 0; change (wsub 1 1) with 0; change (wsub 1 0) with 1; change (N.max 0 0) with 0; change (0 + 1) with 1; change (0 <? 0) with false; change (0 <? 1) with true;
  rewrite ?cap_lt0, ?cap_le0, ?upd_eq)).

(** What such a handle sends never reaches another subscriber, apart from the message with which it began to
    send: the other one's receive keeps reporting an empty topic. *)
Theorem C47_others_get_nothing_refuted : forall k a ms n, 1 + N.of_nat (length ms) <= cap k ->
  b_out k ([BRecv 1; BRecv 0; BSend 0 a] ++ map (BSend 0) ms ++ BRecv 1 :: repeat (BRecv 1) n) =
  [(1%nat, None); (0%nat, None); (1%nat, Some a)] ++ repeat (1%nat, None) n.
Proof.
  intros k a ms n Hl. unfold b_out. rewrite b_run_app.
  set (p := b_run k b_init [BRecv 1; BRecv 0; BSend 0 a]).
  assert (E : exists s0, p = (s0, [(1%nat, None); (0%nat, None)]) /\ b_hdr_head s0 = 1 /\ b_ready s0 (slot k 0) = 1 /\ b_data s0 (slot k 0) = a /\
     b_h s0 0%nat = BHandle RBoth 1 0 /\ b_h s0 1%nat = BHandle RConsumer 0 0).
  { set (s1 := seth b_init 1 (BHandle RConsumer 0 0)). set (s2 := seth s1 0 (BHandle RConsumer 0 0)).
    assert (X1 : brecv k b_init 1 = (s1, None)) by (unfold s1; beval; reflexivity).
    assert (X2 : brecv k s1 0 = (s2, None)) by (unfold s2, s1; beval; reflexivity).
    unfold p. cbn [b_run]. rewrite X1, X2. unfold s2, s1. beval.
    eexists. split; [reflexivity|]. cbn [seth b_h b_hdr_head b_ready b_data updn Nat.eqb]. rewrite !upd_eq. auto. }
  destruct E as (s0 & -> & E1 & E2 & E3 & E4 & E5). rewrite b_run_app.
  destruct (both_sends k 0 ms s0 _ E4 eq_refl) as (d & F1 & F2 & F3 & F4); [cbn; lia|cbn [b_head b_tail]; lia|].
  pose proof (sends_out k 0 ms s0) as O. destruct (b_run k s0 (map (BSend 0) ms)) as [s1 l1]. cbn [fst snd] in *. subst l1.
  specialize (F3 1%nat ltac:(discriminate)). rewrite E5 in F3. rewrite E1 in F1.
  cbn [b_run]. unfold brecv. rewrite F3. cbn [b_role]. unfold mpsc_recv. cbn [b_tail b_head b_role]. change (wsub 0 0 =? 0) with true. cbv iota.
  rewrite F1. cbn [b_hdr_head b_ready b_data b_h b_hdr_tail]. change (wsub 1 0 =? 0) with false. cbv iota. rewrite E2. change (1 =? 0 + 1) with true. cbv iota.
  match goal with |- context [b_run k ?s (repeat _ _)] => pose proof (consumer_empty k 1 n s) as C end.
  cbn [seth b_h b_hdr_head] in C. rewrite updn_eq in C. specialize (C eq_refl eq_refl eq_refl).
  rewrite (F4 0) by (cbn [b_tail b_head]; lia). rewrite E3. match goal with |- context [b_run k ?s (repeat _ _)] => destruct (b_run k s (repeat (BRecv 1) n)) as [s2 l2] eqn:B end.
  cbn [snd] in *. rewrite C. reflexivity.
Qed.
Print Assumptions C47_others_get_nothing_refuted.

(** Nor does such a handle see what others publish. *)
Theorem C47_deaf_refuted : forall k a m n,
  b_out k ([BRecv 0; BSend 0 a; BRecv 0; BSend 2 m] ++ repeat (BRecv 0) n) = [(0%nat, None); (0%nat, Some a)] ++ repeat (0%nat, None) n.
Proof.
  intros k a m n. unfold b_out. rewrite b_run_app.
  set (s1 := seth b_init 0 (BHandle RConsumer 0 0)).
  assert (X1 : brecv k b_init 0 = (s1, None)) by (unfold s1; beval; reflexivity).
  set (s2 := BSys 1 0 (upd (fun _ => 0) (slot k 0) 1) (upd (fun _ => 0) (slot k 0) a) (updn (b_h s1) 0 (BHandle RBoth 1 0))).
  assert (X2 : bsend k s1 0 a = s2) by (unfold s2, s1; beval; reflexivity).
  set (s3 := seth s2 0 (BHandle RBoth 1 1)).
  assert (X3 : brecv k s2 0 = (s3, Some a)) by (unfold s3, s2, s1; beval; reflexivity).
  cbn [b_run]. rewrite X1, X2, X3.
  match goal with |- context [b_run k ?s (repeat _ _)] => assert (X4 : b_h s 0%nat = BHandle RBoth 1 1) end.
  { unfold bsend. change (b_role (b_h s3 2)) with RNone. cbv iota. unfold ensure. cbn [negb andb].
    destruct (mp_send k s3 _ m) as [[s4 x4] b4] eqn:M. cbn [seth b_h]. rewrite updn_neq by discriminate.
    unfold mp_send in M. destruct (_ && _)%bool in M; injection M as <- _ _; reflexivity. }
  rewrite both_empty by (rewrite X4; reflexivity). reflexivity.
Qed.
Print Assumptions C47_deaf_refuted.

(** And when its ring is full, the next send throws away everything that was waiting and keeps only itself. *)
Theorem C47_full_loses_all_refuted : forall k a ms z n, N.of_nat (length ms) = cap k ->
  b_out k ([BSend 0 a; BRecv 0] ++ map (BSend 0) ms ++ [BSend 0 z] ++ BRecv 0 :: repeat (BRecv 0) n) =
  [(0%nat, Some a); (0%nat, Some z)] ++ repeat (0%nat, None) n.
Proof.
  intros k a ms z n Hl. unfold b_out. rewrite b_run_app.
  set (p := b_run k b_init [BSend 0 a; BRecv 0]).
  assert (E : exists s0, p = (s0, [(0%nat, Some a)]) /\ b_hdr_head s0 = 1 /\ b_h s0 0%nat = BHandle RBoth 1 1).
  { set (s1 := BSys 1 0 (upd (fun _ => 0) (slot k 0) 1) (upd (fun _ => 0) (slot k 0) a) (updn (b_h b_init) 0 (BHandle RProducer 1 0))).
    assert (X1 : bsend k b_init 0 a = s1) by (unfold s1; beval; reflexivity).
    unfold p. cbn [b_run]. rewrite X1. unfold brecv. change (b_h s1 0%nat) with (BHandle RProducer 1 0). cbn [b_role]. cbv iota.
    assert (X2 : ensure k false s1 (BHandle RProducer 1 0) = (s1, BHandle RBoth 1 0)).
    { unfold ensure. cbn [b_role b_tail b_hdr_head b_hdr_tail add_recv negb andb s1]. change (wsub 1 (N.max 0 0)) with 1.
      pose proof (cap_pos k). destruct (N.ltb_spec (cap k) 1); [lia|]. reflexivity. }
    rewrite X2. unfold mpsc_recv. cbn [b_tail b_head b_role]. change (wsub 1 0 =? 0) with false. cbv iota. change (wsub 1 0 =? 0) with false. cbv iota.
    cbn [b_ready b_data s1]. rewrite !upd_eq. change (1 =? 0 + 1) with true. cbv iota. eexists. split; [reflexivity|]. cbn [seth b_hdr_head b_h]. rewrite updn_eq. auto. }
  destruct E as (s0 & -> & E1 & E4). rewrite b_run_app.
  destruct (both_sends k 0 ms s0 _ E4 eq_refl) as (d & F1 & F2 & F3 & F4); [cbn; lia|cbn [b_head b_tail]; lia|].
  pose proof (sends_out k 0 ms s0) as O. destruct (b_run k s0 (map (BSend 0) ms)) as [s1 l1]. cbn [fst snd] in *. subst l1.
  rewrite E1 in F1. cbn [b_head b_tail] in F2. rewrite b_run_app.
  assert (X : bsend k s1 0 z = seth (BSys 2 (b_hdr_tail s0) (upd (b_ready s0) (slot k 1) 2) (upd d (slot k 1) z) (b_h s1)) 0 (BHandle RBoth 2 1)).
  { unfold bsend. rewrite F2. cbn [b_role b_head b_tail]. rewrite wsub_ge by lia. destruct (N.ltb_spec (1 + N.of_nat (length ms) - 1) (cap k)); [lia|].
    unfold mp_send. rewrite F1. cbn [b_hdr_head b_hdr_tail b_ready b_data b_h b_tail b_role b_head]. change (wsub 1 1) with 0. rewrite cap_le0. reflexivity. }
  cbn [b_run]. rewrite X. unfold brecv at 1. cbn [seth b_h]. rewrite updn_eq. cbn [b_role b_head b_tail b_data].
  change (0 <? wsub 2 1) with true. cbv iota. cbn [seth b_data]. rewrite upd_eq.
  rewrite both_empty by (cbn [seth b_h]; rewrite updn_eq; reflexivity). reflexivity.
Qed.
Print Assumptions C47_full_loses_all_refuted.

Example C47_ex : let ops := [BSend 0 7; BSend 0 8; BRecv 0; BSend 0 9; BSend 0 10; BRecv 0; BRecv 0; BRecv 0; BRecv 0] in
  only 0 ops /\ at_most (cap 2) 0 ops /\ b_out 2 ops = [(0%nat, Some 7); (0%nat, Some 8); (0%nat, Some 9); (0%nat, Some 10); (0%nat, None)].
Proof. split; [repeat constructor|]. split; [repeat split; reflexivity|reflexivity]. Qed.
