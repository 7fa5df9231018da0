(** C07, C45, C46: delivery on a fan-out topic, its endpoint slots, and publishers that leave. *)
From Verif.Base Require Import Prelude.
From Verif.Model Require Import Fanout.
From Verif.Spec Require Import FanoutSpec.
From Verif.Proofs Require Import FanoutProofs FanoutDelivery.

(** Handle [h'] joins after [pre] and stays, handle [h] stays; anything else may happen.  Whatever [h] has
    sent since then splits into a part [h'] has gone through and a part still ahead of it; of the first it
    received every message once, in order, except [missed] ones, and its counter shows at least those. *)
Theorem C07_in_order_once : forall M cap pid_of h h' pre post, 0 < cap ->
  let ops := pre ++ ORecv h' :: post in
  labelled ops -> stays pid_of h ops -> stays pid_of h' ops -> joins_at M cap pid_of h' pre ->
  let tr := f_trace M cap pid_of ops in
  exists seen ahead missed,
    f_sent h tr = f_sent h (f_trace M cap pid_of pre) ++ seen ++ ahead /\
    passed seen missed (got_from h h' tr) /\
    missed <= fs_missed (f_final M cap pid_of ops) h'.
Proof.
  intros M cap pid_of h h' pre post Hc ops L S1 S2 J tr.
  destruct (flow_reach M cap pid_of Hc h h' pre post L S1 S2 J) as (i & b & F & _).
  destruct (flow_seen M cap pid_of Hc h h' _ _ _ _ _ F (reg_reach M cap pid_of ops)) as (seen & ahead & ms & A & B & C & _). eauto 10.
Qed.
Print Assumptions C07_in_order_once.

(** When a poll of [h'] then answers "nothing", it has gone through everything [h] sent. *)
Theorem C07_caught_up : forall M cap pid_of h h' pre post, 0 < cap ->
  let ops := pre ++ ORecv h' :: post in
  labelled ops -> stays pid_of h ops -> stays pid_of h' ops -> joins_at M cap pid_of h' pre ->
  f_trace M cap pid_of (ops ++ [ORecv h']) = f_trace M cap pid_of ops ++ [FNone h'] ->
  exists seen missed,
    f_sent h (f_trace M cap pid_of ops) = f_sent h (f_trace M cap pid_of pre) ++ seen /\
    passed seen missed (got_from h h' (f_trace M cap pid_of ops)) /\
    missed <= fs_missed (f_final M cap pid_of ops) h'.
Proof.
  intros M cap pid_of h h' pre post Hc ops L S1 S2 J Hn.
  destruct (flow_reach M cap pid_of Hc h h' pre post L S1 S2 J) as (i & b & F & _). fold ops in F.
  rewrite trace_snoc in Hn. apply app_inv_head in Hn.
  pose proof (reg_reach M cap pid_of ops) as R. pose proof (ch_ok_reach M cap pid_of Hc ops) as C.
  destruct (flow_seen M cap pid_of Hc h h' _ _ _ _ _ F R) as (seen & ahead & ms & A & B & D & E1 & E2).
  exists seen, ms. rewrite A. split; auto. f_equal.
  assert (ahead = []) as ->; [|rewrite app_nil_r; auto].
  destruct (fs_hpub (f_final M cap pid_of ops) h) as [p|] eqn:Ep; auto.
  apply (E1 p); auto. eapply (poll_none M cap pid_of Hc h h'); eauto. apply (d_sub _ _ _ _ _ _ _ _ F).
Qed.
Print Assumptions C07_caught_up.

(** Polling reaches that answer. *)
Theorem C07_polling_ends : forall M cap pid_of h' (ops : list (fop lmsg)), 0 < cap ->
  fs_hsub (f_final M cap pid_of ops) h' <> None ->
  exists n, let ops' := ops ++ repeat (ORecv h') n in
    f_trace M cap pid_of (ops' ++ [ORecv h']) = f_trace M cap pid_of ops' ++ [FNone h'].
Proof.
  intros M cap pid_of h' ops Hc H. destruct (fs_hsub (f_final M cap pid_of ops) h') as [i|] eqn:E; [|congruence].
  destruct (drains M cap pid_of Hc h' ops i E) as (n & Hn). exists n. cbv zeta. rewrite trace_snoc, Hn. auto.
Qed.
Print Assumptions C07_polling_ends.

(** Nothing is missed while at most one channel's capacity has been sent since the subscriber joined:
    what it has received from [h] after polling to the end is exactly what [h] sent. *)
Theorem C07_exact_within_capacity : forall M cap pid_of h h' pre post, 0 < cap ->
  let ops := pre ++ ORecv h' :: post in
  labelled ops -> stays pid_of h ops -> stays pid_of h' ops -> joins_at M cap pid_of h' pre ->
  sends post <= cap -> fs_missed (f_final M cap pid_of pre) h' = 0 ->
  f_trace M cap pid_of (ops ++ [ORecv h']) = f_trace M cap pid_of ops ++ [FNone h'] ->
  f_sent h (f_trace M cap pid_of ops) = f_sent h (f_trace M cap pid_of pre) ++ got_from h h' (f_trace M cap pid_of ops).
Proof.
  intros M cap pid_of h h' pre post Hc ops L S1 S2 J Hs Hm Hn.
  destruct (C07_caught_up M cap pid_of h h' pre post Hc L S1 S2 J Hn) as (seen & ms & A & B & C).
  pose proof (close_reach M cap pid_of Hc h' pre post S2 J Hs).
  subst ops. rewrite A. f_equal. apply passed_zero. replace 0 with ms; auto. lia.
Qed.
Print Assumptions C07_exact_within_capacity.

(** Fairness: while nobody leaves, a message sent by [h] is followed within [M] polls of [h'] by a message
    from [h], however much the other publishers send. *)
Theorem C07_fair : forall M cap pid_of h h' pre mid a post, 0 < cap ->
  let before := pre ++ ORecv h' :: mid ++ [OSend h a] in
  labelled (before ++ post) -> (forall g, stays pid_of g (before ++ post)) -> joins_at M cap pid_of h' pre ->
  In a (f_sent h (snd (f_step M cap pid_of (f_final M cap pid_of (pre ++ ORecv h' :: mid)) (OSend h a)))) ->
  M <= polls h' post ->
  exists tr, f_trace M cap pid_of (before ++ post) = f_trace M cap pid_of before ++ tr /\ got_from h h' tr <> [].
Proof.
  intros M cap pid_of h h' pre mid a post Hc before L S J Hsent Hn.
  destruct (reach_app M cap pid_of before post) as (Ht & _). rewrite Ht. eexists. split; [reflexivity|].
  assert (Lb : labelled before) by (intros g x Hin; apply L; apply in_or_app; auto).
  assert (Lp : labelled post) by (intros g x Hin; apply L; apply in_or_app; auto).
  assert (Sb : forall g, stays pid_of g before) by (intros g; specialize (S g); apply Forall_app in S; tauto).
  assert (Sp : forall g, stays pid_of g post) by (intros g; specialize (S g); apply Forall_app in S; tauto).
  assert (Eb : before = (pre ++ ORecv h' :: mid) ++ [OSend h a]) by (unfold before; rewrite <- app_assoc; auto).
  set (ops := pre ++ ORecv h' :: mid) in *. rewrite Eb in *.
  assert (Lo : labelled ops) by (intros g x Hin; apply Lb; apply in_or_app; auto).
  assert (So : forall g, stays pid_of g ops) by (intros g; specialize (Sb g); apply Forall_app in Sb; tauto).
  destruct (flow_reach M cap pid_of Hc h h' pre mid Lo (So h) (So h') J) as (i & b & F & _). fold ops in F.
  pose proof (reg_reach M cap pid_of ops) as R. pose proof (ch_ok_reach M cap pid_of Hc ops) as C.
  pose proof (reg_reach M cap pid_of (ops ++ [OSend h a])) as R2. pose proof (ch_ok_reach M cap pid_of Hc (ops ++ [OSend h a])) as C2.
  assert (Own : forall g, owned g (f_final M cap pid_of (ops ++ [OSend h a]))).
  { intros g. apply (pre_reach M cap pid_of g g); auto. }
  rewrite final_snoc in *. set (s := f_final M cap pid_of ops) in *.
  cbn [f_step] in *. destruct (f_send M pid_of h a s) as (s', ev) eqn:E. cbn [fst snd] in *.
  destruct (send_cases _ _ _ _ _ _ _ E) as [(-> & -> & _)|(p & pub & -> & Hp & Es)]; [destruct Hsent|].
  pose proof (d_sub _ _ _ _ _ _ _ _ F) as Hs. destruct R as (Rp & Rs). destruct (proj1 Rs _ _ Hs) as (Hi & Hlk & Hact & _).
  assert (Hp' : fs_hpub s' h = Some p) by (rewrite Es; apply set1_eq).
  destruct (proj1 (proj1 R2) _ _ Hp') as (HpM & Hplk & _).
  apply (waiting_served M cap pid_of Hc h h' p i); auto.
  - constructor; auto.
    + rewrite Es; auto.
    + rewrite Es. cbn [fs_chan]. rewrite send_pod_spec. apply Nat.ltb_lt in Hi. rewrite Nat.eqb_refl, Hi, Hact. cbn [andb fc_send fc_log fc_tail].
      rewrite app_length. cbn [length]. specialize (C p i). lia.
    + intros x Hx. pose proof (Own (fst x) p i x Hx eq_refl) as Ho.
      apply (proj1 (proj1 R2)) in Ho. destruct Ho as (_ & Ho & _). congruence.
  - pose proof (proj2 (dist_offset M cap pid_of Hc p (fs_cursor s' h') HpM)). lia.
Qed.
Print Assumptions C07_fair.

(** Nobody ever receives what was not sent: whatever joins, leaves and crashes happen. *)
Theorem C07_received_was_sent : forall M cap pid_of ops g a, labelled ops ->
  In a (f_got g (f_trace M cap pid_of ops)) -> In a (f_sent (fst a) (f_trace M cap pid_of ops)).
Proof. intros M cap pid_of ops g a L. apply (sourced_reach M cap pid_of ops L). Qed.
Print Assumptions C07_received_was_sent.

(** Two publishers, two subscribers, capacity 4: the hypotheses are met and both subscribers hear both. *)
Example C07_ex :
  let ops := [ORecv 10; OSend 1 (1, [7%N]); ORecv 11; OSend 2 (2, [8%N]); OSend 1 (1, [9%N]);
              ORecv 10; ORecv 10; ORecv 10; ORecv 11; ORecv 11; ORecv 11] in
  joins_at 16 4 (fun h => 100 + h) 10 [] /\
  f_got 10 (f_trace 16 4 (fun h => 100 + h) ops) = [(1, [7%N]); (2, [8%N]); (1, [9%N])] /\
  f_got 11 (f_trace 16 4 (fun h => 100 + h) ops) = [(1, [9%N]); (2, [8%N])] /\
  fs_missed (f_final 16 4 (fun h => 100 + h) ops) 10 = 0.
Proof. split; [split; [reflexivity|discriminate]|]. split; [|split]; reflexivity. Qed.

(** ** C45 *)
(** Two live handles never hold the same slot. *)
Theorem C45_slots_exclusive : forall M cap pid_of (ops : list (fop lmsg)) h1 h2 i,
  let s := f_final M cap pid_of ops in
  (fs_hpub s h1 = Some i -> fs_hpub s h2 = Some i -> h1 = h2) /\
  (fs_hsub s h1 = Some i -> fs_hsub s h2 = Some i -> h1 = h2) /\
  (fs_hpub s h1 = Some i \/ fs_hsub s h1 = Some i -> i < M).
Proof.
  intros M cap pid_of ops h1 h2 i s. destruct (reg_reach M cap pid_of ops) as ((P & _) & (S & _)). fold s in P, S.
  split; [|split].
  - intros A B. apply P in A, B. destruct A as (_ & A & _), B as (_ & B & _). congruence.
  - intros A B. apply S in A, B. destruct A as (_ & A & _), B as (_ & B & _). congruence.
  - intros [A|A]; [apply P in A|apply S in A]; tauto.
Qed.
Print Assumptions C45_slots_exclusive.

(** Unless an earlier process with the caller's PID crashed, a send is refused only when every slot is held
    by a live handle; and a handle that cannot subscribe finds every subscriber slot held likewise. *)
Theorem C45_refused_only_when_full_partial : forall M cap pid_of (ops : list (fop lmsg)) h,
  ~ In (OCrash (pid_of h)) ops ->
  let s := f_final M cap pid_of ops in
  (forall a, snd (f_step M cap pid_of s (OSend h a)) = [FRefused h a] -> forall j, j < M -> exists g, fs_hpub s g = Some j) /\
  (fs_hsub (fst (f_step M cap pid_of s (ORecv h))) h = None -> forall j, j < M -> exists g, fs_hsub s g = Some j).
Proof.
  intros M cap pid_of ops h Hc s. destruct (reg_reach M cap pid_of ops) as (Rp & Rs). fold s in Rp, Rs.
  destruct (stale_reach M cap pid_of ops) as (Kp & Ks). fold s in Kp, Ks. split.
  - intros a H. cbn [f_step] in H. destruct (f_send M pid_of h a s) as (s', ev) eqn:E. cbn [snd] in H. subst ev.
    destruct (send_cases _ _ _ _ _ _ _ E) as [(_ & _ & _ & Hn)|(p & pub & X & _)]; [|discriminate].
    eapply full_side; eauto.
  - intros H. cbn [f_step] in H. destruct (f_recv M cap pid_of h s) as (s', ev) eqn:E. cbn [fst] in H.
    destruct (recv_cases _ _ _ _ _ _ _ E) as [(_ & _ & _ & Hn)|(i & sub & ch & _ & [(_ & _ & ->)|(a & p & c' & sk & _ & _ & ->)])].
    + eapply full_side; eauto.
    + cbn [fs_hsub] in H. rewrite set1_eq in H. discriminate.
    + cbn [fs_hsub] in H. rewrite set1_eq in H. discriminate.
Qed.
Print Assumptions C45_refused_only_when_full_partial.

(** The missing case is real: a process that crashed with all its slots taken and came back under the same
    PID (a restarted container) is refused although no handle is left. *)
Definition occupy (n : nat) : list (fop lmsg) := map (fun h => OSend h (h, [])) (seq 0 n).
Theorem C45_pid_reuse_refuted : exists pid_of (ops : list (fop lmsg)) h a,
  let s := f_final MAX_FANOUT_ENDPOINTS 16 pid_of ops in
  (forall g, fs_hpub s g = None) /\ snd (f_step MAX_FANOUT_ENDPOINTS 16 pid_of s (OSend h a)) = [FRefused h a].
Proof.
  exists (fun _ => 42), (occupy 16 ++ [OCrash 42]), 99, (99, []). cbv zeta. rewrite final_snoc. split.
  - intros g. reflexivity.
  - reflexivity.
Qed.
Print Assumptions C45_pid_reuse_refuted.

(** Sixteen live publishers are accepted and the seventeenth refused; one drop makes room again. *)
Example C45_ex :
  let pid := fun h => 100 + h in
  snd (f_step 16 16 pid (f_final 16 16 pid (occupy 16)) (OSend 20 (20, []))) = [FRefused 20 (20, [])] /\
  snd (f_step 16 16 pid (f_final 16 16 pid (occupy 16 ++ [ODrop 3])) (OSend 20 (20, []))) = [FSent 20 (20, [])] /\
  snd (f_step 16 16 pid (f_final 16 16 pid (occupy 16 ++ [OCrash 103])) (OSend 20 (20, []))) = [FSent 20 (20, [])].
Proof. split; [|split]; reflexivity. Qed.

(** ** C46 *)
(** Once a publisher is dropped, polling yields none of its messages any more, read or unread. *)
Theorem C46_nothing_after_drop : forall M cap pid_of h h' pre post,
  labelled pre -> stays pid_of h pre -> Forall (fun o => exists g, o = ORecv g) post ->
  got_from h h' (f_trace M cap pid_of (pre ++ ODrop h :: post)) = got_from h h' (f_trace M cap pid_of pre).
Proof.
  intros M cap pid_of h h' pre post L S P.
  replace (pre ++ ODrop h :: post) with ((pre ++ [ODrop h]) ++ post) by (rewrite <- app_assoc; auto).
  rewrite (proj1 (reach_app M cap pid_of _ post)), got_from_app, trace_snoc. cbn [f_step snd]. rewrite app_nil_r.
  rewrite (cut_off_polls M cap pid_of h post P); [apply app_nil_r|].
  rewrite final_snoc. cbn [f_step fst]. apply cut_off_drop. apply (pre_reach M cap pid_of h h); auto.
Qed.
Print Assumptions C46_nothing_after_drop.

(** So an accepted message is lost although the subscriber was there before it was sent and polls as often
    as it likes. *)
Theorem C46_left_publisher_lost_refuted : exists M cap pid_of h h' (a : lmsg) pre,
  joins_at M cap pid_of h' [] /\ f_sent h (f_trace M cap pid_of pre) = [a] /\
  (forall n, f_got h' (f_trace M cap pid_of (pre ++ ODrop h :: repeat (ORecv h') n)) = []) /\
  f_got h' (f_trace M cap pid_of (pre ++ [ORecv h'])) = [a].
Proof.
  exists 16, 16, (fun h => 100 + h), 1, 2, (1, [7%N]), [ORecv 2; OSend 1 (1, [7%N])].
  split; [split; [reflexivity|discriminate]|]. split; [reflexivity|]. split; [|reflexivity].
  intros n. set (pre := [ORecv 2; OSend 1 (1, [7%N])]).
  assert (L : labelled (pre ++ ODrop 1 :: repeat (ORecv 2) n)).
  { intros h a Hin. apply in_app_or in Hin. destruct Hin as [[E|[E|[]]]|[E|Hin]]; try discriminate.
    - injection E as <- <-. auto.
    - apply repeat_spec in Hin. discriminate. }
  destruct (f_got 2 (f_trace 16 16 (fun h => 100 + h) (pre ++ ODrop 1 :: repeat (ORecv 2) n))) as [|x r] eqn:E; auto. exfalso.
  assert (Hx : In x (f_got 2 (f_trace 16 16 (fun h => 100 + h) (pre ++ ODrop 1 :: repeat (ORecv 2) n)))) by (rewrite E; left; auto).
  pose proof (C07_received_was_sent _ _ _ _ _ _ L Hx) as Hs.
  assert (Nil : forall l g s, Forall (fun o : fop lmsg => exists k, o = ORecv k) l -> f_sent g (snd (f_run 16 16 (fun h => 100 + h) s l)) = []).
  { induction l as [|o l IH]; intros g s Hl; auto. inversion Hl as [|? ? (k & ->) Hl']; subst. cbn [f_run f_step].
    destruct (f_recv 16 16 (fun h => 100 + h) k s) as (s1, e1) eqn:Er. specialize (IH g s1 Hl').
    destruct (f_run 16 16 (fun h => 100 + h) s1 l) as (s2, e2). cbn [snd] in *. rewrite f_sent_app, IH.
    destruct (recv_cases _ _ _ _ _ _ _ Er) as [(_ & -> & _)|(i2 & sub & ch & _ & [(_ & -> & _)|(y & q & c' & sk & _ & -> & _)])]; reflexivity. }
  assert (Pl : Forall (fun o : fop lmsg => exists g, o = ORecv g) (repeat (ORecv 2) n)).
  { apply Forall_forall. intros o Ho. apply repeat_spec in Ho. eauto. }
  assert (Hx1 : fst x = 1).
  { replace (pre ++ ODrop 1 :: repeat (ORecv 2) n) with ((pre ++ [ODrop 1]) ++ repeat (ORecv 2) n) in Hs by (rewrite <- app_assoc; auto).
    rewrite (proj1 (reach_app _ _ _ _ _)), f_sent_app, Nil, app_nil_r in Hs by auto.
    change (f_trace 16 16 (fun h => 100 + h) (pre ++ [ODrop 1])) with [@FNone lmsg 2; FSent 1 (1, [7%N])] in Hs.
    cbn [f_sent] in Hs. destruct (Nat.eqb_spec 1 (fst x)); [auto|destruct Hs]. }
  assert (G : got_from 1 2 (f_trace 16 16 (fun h => 100 + h) (pre ++ ODrop 1 :: repeat (ORecv 2) n)) = []).
  { rewrite C46_nothing_after_drop; auto.
    - intros h a Hin. apply L. apply in_or_app; auto.
    - repeat constructor; auto. }
  assert (Hin : In x (got_from 1 2 (f_trace 16 16 (fun h => 100 + h) (pre ++ ODrop 1 :: repeat (ORecv 2) n)))).
  { apply filter_In. split; [exact Hx|]. rewrite Hx1. reflexivity. }
  rewrite G in Hin. destruct Hin.
Qed.
Print Assumptions C46_left_publisher_lost_refuted.

(** When somebody later takes over the slot, what the departed publisher left comes first. *)
Example C46_ex_late :
  f_got 2 (f_trace 16 16 (fun h => 100 + h)
    [ORecv 2; OSend 1 (1, [7%N]); ODrop 1; ORecv 2; OSend 3 (3, [8%N]); ORecv 2; ORecv 2]) = [(1, [7%N]); (3, [8%N])].
Proof. reflexivity. Qed.
