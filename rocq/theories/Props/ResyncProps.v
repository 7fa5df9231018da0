(** C10: read positions across migrations. *)
From Verif.Base Require Import Prelude.
From Verif.Model Require Import Topology Resync.
From Verif.Spec Require Import ResyncSpec.
From Verif.Proofs Require Import ResyncProofs.
Local Open Scope N_scope.

(** Whatever is published, whichever subscribers join, read, flush and resynchronise in whatever order and
    however often the topic is migrated: within 2^32 operations no subscriber is handed a message twice or
    out of order. *)
Theorem C10_no_redelivery_partial : forall cap ops c, N.of_nat (length ops) + 4 < 2^32 -> increasing (got c (r_run cap ops)).
Proof. intros cap ops c H. apply (rinv_run cap ops H). Qed.
Print Assumptions C10_no_redelivery_partial.

(** ... its position never moves back, and never lies beyond the newest message, so that the next message
    published is always ahead of it. *)
Theorem C10_position_partial : forall cap ops o c, N.of_nat (length ops) + 5 < 2^32 ->
  l_in (rs_loc (r_run cap ops) c) = true ->
  l_tail (rs_loc (r_run cap ops) c) <= l_tail (rs_loc (r_run cap (ops ++ [o])) c) <= r_head (rs_hdr (r_run cap (ops ++ [o]))).
Proof.
  intros cap ops o c H HI. split.
  - unfold r_run at 2. rewrite fold_left_app. cbn [fold_left]. apply (forward cap (N.of_nat (length ops))); auto; [lia|]. apply rinv_run. lia.
  - assert (L : N.of_nat (length (ops ++ [o])) + 4 < 2^32) by (rewrite app_length; cbn [length]; lia).
    apply (rinv_run cap (ops ++ [o]) L).
Qed.
Print Assumptions C10_position_partial.

(** The two arithmetic facts behind it, for every value of the four inputs. *)
Theorem C10_resync_bounds : forall local shared head delivered,
  resynced_tail local shared head delivered <= head /\
  (delivered = true -> local <= head -> local <= resynced_tail local shared head delivered).
Proof. intros. unfold resynced_tail. destruct delivered; split; intros; try discriminate; lia. Qed.
Print Assumptions C10_resync_bounds.

(** A slow broadcast subscriber loses messages that are still in the ring: while it is resynchronising, a
    faster one flushes its own position into the shared tail, and the slow one adopts it. *)
Theorem C10_skips_unread_refuted : forall cap n, 0 < n -> n <= cap -> n + 5 < 2^32 ->
  let ops := [XJoin 0 MPodShm; XJoin 1 MPodShm; XPublish n] ++ reads 0 0 (N.to_nat n) ++ [XFlush 1; XFlush 0; XSync 1; XResync 1] in
  let s := r_run cap ops in
  r_head (rs_hdr s) = n /\ got 1 s = [] /\ l_tail (rs_loc s 1%nat) = n /\ forall q, q < n -> In q (got 0 s).
Proof.
  intros cap n H0 H1 H2. cbv zeta. unfold r_run. rewrite !fold_left_app.
  set (s0 := fold_left (r_step cap) [XJoin 0 MPodShm; XJoin 1 MPodShm; XPublish n] r_init).
  assert (E0 : s0 = RSys (RHdr n 0 MPodShm) (rs_loc s0) [] /\ rs_loc s0 0%nat = RLoc true MPodShm 0 0 3 /\ rs_loc s0 1%nat = RLoc true MPodShm 0 0 3).
  { destruct cap; [lia|]. unfold s0. repeat split; reflexivity. }
  destruct E0 as (E0 & E1 & E2).
  destruct (reads_run cap 0 (N.to_nat n) s0 0) as (I1 & I2 & I3 & I4 & I5 & I6 & I7 & I8).
  { rewrite E1; auto. } { rewrite E1; auto. } { rewrite E0. cbn [rs_hdr r_head]. lia. } { rewrite E1. cbn [l_cnt]. change (2^32) with 4294967296 in *. lia. }
  set (s1 := fold_left (r_step cap) (reads 0 0 (N.to_nat n)) s0) in *.
  specialize (I6 1%nat ltac:(discriminate)). specialize (I7 1%nat ltac:(discriminate)).
  rewrite E2 in I6. rewrite E1 in I4, I5. cbn [l_cnt l_mode] in I4, I5. rewrite N2Nat.id in *. rewrite N.add_0_l in I3.
  assert (G : got 1 s0 = []) by (rewrite E0; auto). assert (HH : rs_hdr s0 = RHdr n 0 MPodShm) by (rewrite E0; auto). rewrite HH in I1. rewrite G in I7.
  clearbody s1. destruct s1 as [h1 lo1 g1]. cbn [rs_hdr rs_loc] in *. subst h1.
  cbn [fold_left r_step rs_hdr rs_loc rs_got]. rewrite I6. cbn [l_mode l_in is_cross_process andb l_tail r_head r_mode r_tail].
  cbn [fold_left r_step rs_hdr rs_loc rs_got]. rewrite I5, I2, I3. cbn [is_cross_process andb r_head r_mode r_tail].
  cbn [fold_left r_step rs_hdr rs_loc rs_got sync_local is_cross_process r_head r_mode r_tail]. rewrite I6.
  cbn [l_in l_tail l_head l_cnt andb negb l_mode is_cross_process rs_hdr rs_loc rs_got r_head r_tail r_mode]. rewrite !updr_eq.
  cbn [l_tail l_cnt l_in l_mode]. unfold resynced_tail. change (0 <? 3) with true. cbv match.
  split; auto. split; [exact I7|]. split; [lia|]. intros q Hq. apply I8. right. lia.
Qed.
Print Assumptions C10_skips_unread_refuted.

(** Nor does the guarantee survive 2^32 operations of one handle: the counter that stands for "something has
    been delivered" wraps to zero, and if the shared tail is then behind, what was read is read again. *)
Theorem C10_counter_wrap_refuted : forall cap n, 0 < cap -> N.of_nat n = 2^32 - 4 ->
  let ops := [XJoin 0 MPodShm; XJoin 1 MPodShm; XPublish 1; XRecv 0 0] ++ repeat (XIdle 0) n ++
             [XFlush 0; XFlush 1; XSync 0; XResync 0; XRecv 0 0] in
  got 0 (r_run cap ops) = [0; 0] /\ ~ increasing (got 0 (r_run cap ops)).
Proof.
  intros cap n Hc Hn. cbv zeta. match goal with |- ?x = _ /\ _ => assert (E : x = [0; 0]) end.
  2:{ rewrite E. split; auto. intros H. inversion H as [|l p H1 H2 H3]. destruct l as [|a [|b [|? ?]]]; try discriminate.
      injection H3 as -> ->. specialize (H2 0 ltac:(left; auto)). lia. }
  unfold r_run. rewrite !fold_left_app.
  set (s0 := fold_left (r_step cap) [XJoin 0 MPodShm; XJoin 1 MPodShm; XPublish 1; XRecv 0 0] r_init).
  assert (E0 : rs_hdr s0 = RHdr 1 0 MPodShm /\ rs_got s0 = [(0%nat, 0)] /\ rs_loc s0 0%nat = RLoc true MPodShm 0 1 4 /\ rs_loc s0 1%nat = RLoc true MPodShm 0 0 3).
  { destruct cap; [lia|]. unfold s0. repeat split; reflexivity. }
  destruct E0 as (E0 & E1 & E2 & E3).
  destruct (idles_run cap 0 n s0) as (I1 & I2 & I3 & I4).
  { rewrite E2. cbn [l_cnt]. reflexivity. }
  set (s1 := fold_left (r_step cap) (repeat (XIdle 0) n) s0) in *.
  rewrite E0 in I1. rewrite E1 in I2. rewrite E2 in I3. specialize (I4 1%nat ltac:(discriminate)). rewrite E3 in I4.
  rewrite Hn in I3. cbn [l_cnt l_in l_mode l_head l_tail] in I3. change ((4 + (2^32 - 4)) mod 2^32) with 0 in I3.
  clearbody s1. destruct s1 as [h1 lo1 g1]. cbn [rs_hdr rs_loc rs_got] in *. subst h1 g1.
  cbn [fold_left r_step rs_hdr rs_loc rs_got]. rewrite I3. cbn [l_mode l_in is_cross_process andb l_tail r_head r_mode r_tail].
  cbn [fold_left r_step rs_hdr rs_loc rs_got]. rewrite I4. cbn [l_mode l_in is_cross_process andb l_tail r_head r_mode r_tail].
  cbn [fold_left r_step rs_hdr rs_loc rs_got sync_local is_cross_process r_head r_mode r_tail]. rewrite I3.
  cbn [l_in l_tail l_head l_cnt andb negb l_mode is_cross_process rs_hdr rs_loc rs_got r_head r_tail r_mode]. rewrite !updr_eq.
  cbn [l_tail l_cnt l_in l_mode]. change (0 <? 0) with false. unfold resynced_tail. cbv match. change (N.min 0 1) with 0.
  cbn [andb]. rewrite N.leb_refl, N.eqb_refl. change (0 <? 1) with true. cbn [andb orb]. reflexivity.
Qed.
Print Assumptions C10_counter_wrap_refuted.

(** Non-vacuity: a subscriber that read three messages of five, was migrated twice and went on. *)
Example C10_ex : let s := r_run 8 [XJoin 0 MSpscShm; XPublish 5; XRecv 0 0; XRecv 0 1; XRecv 0 2; XMode MPodShm; XJoin 1 MPodShm;
    XFlush 0; XFlush 1; XSync 0; XResync 0; XMode MMpscShm; XFlush 0; XSync 0; XResync 0; XRecv 0 3; XRecv 1 0; XRecv 1 1] in
  got 0 s = [0; 1; 2; 3] /\ got 1 s = [0; 1].
Proof. vm_compute. auto. Qed.
