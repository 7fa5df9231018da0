(** C08: backend choice; C09: participant counts. *)
From Verif.Base Require Import Prelude.
From Verif.Model Require Import Topology.
From Verif.Spec Require Import TopologySpec.
From Verif.Proofs Require Import TopologyProofs.
Local Open Scope N_scope.

(** ** C09 *)

(** After any history the counters are exact and no thread holds two slots. *)
Theorem C09_counts_exact : forall h, let t := p_run h in
  t_pubs t = holders 1 (t_parts t) /\ t_subs t = holders 2 (t_parts t) /\
  NoDup (occupants (t_parts t)) /\ length (t_parts t) = 16%nat.
Proof. intros h. destruct (run_inv h). auto. Qed.
Print Assumptions C09_counts_exact.

(** Registration is refused exactly when the caller has no slot and all sixteen belong to unexpired leases;
    a refused call changes nothing. *)
Theorem C09_refused_iff_full : forall h pid tid publisher now, let t := p_run h in
  let '(t', r) := register_role pid tid (role_bit publisher) now t in
  (r = None <-> forall p, In p (t_parts t) ->
     p_active p = true /\ (p_pid p, p_tid p) <> (pid, tid) /\ 0 < p_lease p /\ now <= p_lease p) /\
  (r = None -> t' = t).
Proof.
  intros h pid tid b now t. unfold register_role.
  assert (A : forall p, is_mine pid tid p = false /\ is_claimable now p = false <->
    p_active p = true /\ (p_pid p, p_tid p) <> (pid, tid) /\ 0 < p_lease p /\ now <= p_lease p).
  { intros p. unfold is_mine, is_claimable, is_lease_expired. destruct (p_active p); cbn [andb negb orb]; [|split; [intros (_ & H)|intros (H & _)]; discriminate].
    destruct (N.eqb_spec (p_pid p) pid), (N.eqb_spec (p_tid p) tid), (N.eqb_spec (p_lease p) 0), (N.ltb_spec (p_lease p) now); cbn [andb];
      (split; [intros (H1 & H2); try discriminate|intros (_ & H1 & H2 & H3)]); repeat split; auto; try lia; try congruence;
      try (intros E; injection E as ? ?; congruence). }
  destruct (find_idx (is_mine pid tid) (t_parts t)) as [i|] eqn:F.
  - destruct (find_idx_some _ _ _ part0 F) as (Hi & Hm & _). split; [|discriminate]. split; [discriminate|].
    intros H. specialize (H _ (nth_In _ part0 Hi)). apply A in H. destruct H as (H & _). congruence.
  - destruct (find_idx (is_claimable now) (t_parts t)) as [i|] eqn:G.
    + destruct (find_idx_some _ _ _ part0 G) as (Hi & Hm & _). split; [|discriminate]. split; [discriminate|].
      intros H. specialize (H _ (nth_In _ part0 Hi)). apply A in H. destruct H as (_ & H). congruence.
    + split; auto. split; auto. intros _ p Hp. apply A. split.
      * apply (proj1 (find_idx_none _ _) F); auto.
      * apply (proj1 (find_idx_none _ _) G); auto.
Qed.
Print Assumptions C09_refused_iff_full.

(** An accepted call gives the caller a slot in its name with the requested role and a fresh lease, and leaves
    every other slot alone; the slot was its own, or free, or its lease had run out. *)
Theorem C09_registered : forall h pid tid publisher now t' i, let t := p_run h in
  register_role pid tid (role_bit publisher) now t = (t', Some i) ->
  (i < 16)%nat /\
  (let p := nth i (t_parts t') part0 in p_active p = true /\ (p_pid p, p_tid p) = (pid, tid) /\
     has_bit (p_role p) (role_bit publisher) = true /\ p_lease p = now + 5000) /\
  (forall j, j <> i -> nth j (t_parts t') part0 = nth j (t_parts t) part0) /\
  (let q := nth i (t_parts t) part0 in p_active q = true -> (p_pid q, p_tid q) <> (pid, tid) -> p_lease q < now \/ p_lease q = 0).
Proof.
  intros h pid tid b now t' i t E. destruct (register_slot _ _ _ _ _ _ _ (run_inv h) E) as (H1 & (A & B & C & D & F) & H3 & H4).
  pose proof (i_len _ (run_inv h)) as L. fold t in L, H1. split; [rewrite L in H1; exact H1|]. split; [repeat split; auto; rewrite B, C; auto|].
  split; auto. intros q Ha Hn. fold t in H4. fold q in H4. destruct H4 as [H4|H4].
  - unfold is_mine in H4. bool_prop. destruct Hn. congruence.
  - unfold is_claimable in H4. rewrite Ha in H4. unfold is_lease_expired in H4. destruct (N.eqb_spec (p_lease q) 0); auto. left. lia.
Qed.
Print Assumptions C09_registered.

(** A participant whose handle renews its lease in time stays registered, in its slot and in its role, whoever
    else registers or renews meanwhile. *)
Theorem C09_refreshing_stays : forall h1 pid tid publisher now t' i h2,
  register_role pid tid (role_bit publisher) now (p_run h1) = (t', Some i) -> kept pid tid i now h2 ->
  let p := nth i (t_parts (p_run (h1 ++ OReg pid tid publisher now :: h2))) part0 in
  p_active p = true /\ (p_pid p, p_tid p) = (pid, tid) /\ has_bit (p_role p) (role_bit publisher) = true.
Proof.
  intros h1 pid tid b now t' i h2 E K p. pose proof (run_inv h1) as T.
  destruct (register_slot _ _ _ _ _ _ _ T E) as (H1 & (A & B & C & D & F) & _ & _).
  pose proof (register_inv pid tid b now _ T) as T'. rewrite E in T'. cbn [fst] in T'.
  destruct (kept_mine pid tid (role_bit b) i h2 now t' T') as (last' & _ & M).
  { unfold mine_at. rewrite (i_len _ T'), <- (i_len _ T). auto 10. } { auto. }
  unfold p, p_run. rewrite fold_left_app. cbn [fold_left p_step]. fold (p_run h1). rewrite E. cbn [fst].
  destruct M as (M1 & M2 & M3 & M4 & _). repeat split; auto. congruence.
Qed.
Print Assumptions C09_refreshing_stays.
Example C09_refreshing_stays_ex :
  snd (register_role 1 1 1 0 (p_run [])) = Some 0%nat /\ kept 1 1 0 0 [OReg 2 2 false 4000; ORefresh 0 4500; OReg 3 3 false 9000; OReg 1 1 false 9100].
Proof.
  split; [reflexivity|]. cbn [kept]. right. split; [discriminate|]. split; [lia|]. left. split; [auto|]. right.
  split; [discriminate|]. split; [lia|]. left. auto.
Qed.

Lemma first_join pid tid t1 :
  p_step ptab0 (OReg pid tid false t1) = PTab (Part true pid tid 2 (t1 + 5000) :: repeat part0 15) 0 1 1.
Proof. reflexivity. Qed.

(** The counters count slots, not live endpoints.  A lease is renewed only every 1024 messages, so a
    subscriber that is merely quiet for five seconds loses its slot to the next one that joins: two live
    subscribers, one counted. *)
Theorem C09_quiet_subscriber_refuted : forall a b t1 t2, a <> b -> t1 + 5000 < t2 ->
  t_subs (p_run [OReg a a false t1; OReg b b false t2]) = 1.
Proof.
  intros a b t1 t2 Hn Ht. unfold p_run. cbn [fold_left]. rewrite first_join. cbn [p_step]. unfold register_role. cbn [t_parts].
  rewrite (proj2 (find_idx_none _ _)).
  - cbn [find_idx is_claimable p_active negb orb]. unfold is_lease_expired. cbn [p_lease].
    replace (t1 + 5000 =? 0) with false by (symmetry; apply N.eqb_neq; lia).
    replace (t1 + 5000 <? t2) with true by (symmetry; apply N.ltb_lt; lia). reflexivity.
  - intros p [<-|Hp].
    + unfold is_mine. cbn [p_active p_pid p_tid]. replace (a =? b) with false by (symmetry; apply N.eqb_neq; auto). auto.
    + apply repeat_spec in Hp. subst p. auto.
Qed.
Print Assumptions C09_quiet_subscriber_refuted.

(** Two handles of one thread count as one. *)
Theorem C09_same_thread_refuted : forall pid tid t1 t2, t_subs (p_run [OReg pid tid false t1; OReg pid tid false t2]) = 1.
Proof.
  intros pid tid t1 t2. unfold p_run. cbn [fold_left]. rewrite first_join. cbn [p_step]. unfold register_role.
  cbn [t_parts find_idx]. unfold is_mine at 1. cbn [p_active p_pid p_tid]. rewrite !N.eqb_refl. reflexivity.
Qed.
Print Assumptions C09_same_thread_refuted.

Example C09_ex : let t := p_run [OReg 1 1 true 0; OReg 1 2 false 10; OReg 1 2 true 20; ORefresh 0 4000; OReg 3 3 false 6000] in
  t_pubs t = 1 /\ t_subs t = 1 /\ length (occupants (t_parts t)) = 2%nat.
Proof. vm_compute. auto. Qed.

(** ** C08 *)

(** For every positive number of publishers and subscribers and either kind of message, the installed pair of
    routines tolerates that many of each, talks one protocol, suits the kind, and gives every subscriber
    every message. *)
Theorem C08_choice_safe : forall pubs subs is_pod ps rs, 0 < pubs -> 0 < subs -> can_send ps = true -> can_recv rs = true ->
  let mode := effective_mode (detect_optimal_backend pubs subs is_pod) true in
  let s := resolve_send_fn mode is_pod ps in let r := resolve_recv_fn mode is_pod rs in
  tolerates_publishers s pubs /\ tolerates_subscribers r subs /\ delivers_to_all r subs /\ same_protocol s r /\ fits_kind s is_pod.
Proof.
  intros pubs subs is_pod ps rs Hp Hs Cs Cr. cbv zeta. unfold detect_optimal_backend, resolve_send_fn, resolve_recv_fn. rewrite Cs, Cr. cbn [negb].
  destruct (N.eqb_spec pubs 0), (N.eqb_spec subs 0); cbn [andb]; try lia.
  destruct (N.leb_spec pubs 1), (N.leb_spec subs 1), (N.ltb_spec 1 pubs); cbn [andb]; try lia; destruct is_pod; cbn; auto.
Qed.
Print Assumptions C08_choice_safe.

(** The choice is also safe while only one side is present: the routine of that side tolerates its number. *)
Theorem C08_one_sided : forall n is_pod role,
  (can_send role = true -> 0 < n -> tolerates_publishers (resolve_send_fn (detect_optimal_backend n 0 is_pod) is_pod role) n) /\
  (can_recv role = true -> 0 < n -> tolerates_subscribers (resolve_recv_fn (detect_optimal_backend 0 n is_pod) is_pod role) n).
Proof.
  intros n is_pod role. unfold detect_optimal_backend, resolve_send_fn, resolve_recv_fn. split; intros C H; rewrite C; cbn [negb].
  - destruct (N.eqb_spec n 0); [lia|]. cbn [andb]. destruct (N.leb_spec n 1), (N.ltb_spec 1 n); try lia; change (0 <=? 1) with true; cbn; auto.
  - destruct (N.eqb_spec n 0); [lia|]. change (0 <=? 1) with true. change (1 <? 0) with false. change (0 =? 0) with true. cbn [andb]. destruct (N.leb_spec n 1); destruct is_pod; cbn; auto.
Qed.
Print Assumptions C08_one_sided.

(** Further publishers joining a topic with one subscriber do not change what any endpoint runs, so nobody
    needs to notice. *)
Theorem C08_publishers_join_seamlessly : forall p q is_pod role, 0 < p -> 0 < q ->
  resolve_send_fn (detect_optimal_backend p 1 is_pod) is_pod role = resolve_send_fn (detect_optimal_backend q 1 is_pod) is_pod role /\
  resolve_recv_fn (detect_optimal_backend p 1 is_pod) is_pod role = resolve_recv_fn (detect_optimal_backend q 1 is_pod) is_pod role.
Proof.
  assert (A : forall p is_pod, 0 < p -> detect_optimal_backend p 1 is_pod = MSpscShm \/ detect_optimal_backend p 1 is_pod = MMpscShm).
  { intros p is_pod Hp. unfold detect_optimal_backend. destruct (N.eqb_spec p 0); [lia|]. cbn [andb].
    destruct (N.leb_spec p 1), (N.ltb_spec 1 p); cbn [andb]; auto; lia. }
  intros p q is_pod role Hp Hq. unfold resolve_send_fn, resolve_recv_fn.
  destruct (A p is_pod Hp) as [-> | ->], (A q is_pod Hq) as [-> | ->]; auto.
Qed.
Print Assumptions C08_publishers_join_seamlessly.

(** Endpoints that have seen the same mode, whichever it is, talk one protocol. *)
Theorem C08_same_mode_protocol : forall mode is_pod ps rs, can_send ps = true -> can_recv rs = true ->
  same_protocol (resolve_send_fn mode is_pod ps) (resolve_recv_fn mode is_pod rs).
Proof. intros [] is_pod ps rs Cs Cr; unfold resolve_send_fn, resolve_recv_fn; rewrite Cs, Cr; cbn; auto. Qed.
Print Assumptions C08_same_mode_protocol.

(** The mode byte in shared memory names the mode it was written for; bytes of retired backends mean none. *)
Theorem C08_mode_byte : forall m, mode_of_u8 (u8_of_mode m) = m.
Proof. destruct m; reflexivity. Qed.
Print Assumptions C08_mode_byte.

(** If the fan-out region cannot be set up, the fallback gives several subscribers a routine made for one. *)
Theorem C08_fanout_fallback_refuted : forall pubs subs rs, 1 < subs -> can_recv rs = true ->
  ~ tolerates_subscribers (resolve_recv_fn (effective_mode (detect_optimal_backend pubs subs false) false) false rs) subs.
Proof.
  intros pubs subs rs Hs Cr. unfold detect_optimal_backend, resolve_recv_fn. rewrite Cr. cbn [negb].
  destruct (N.eqb_spec subs 0), (N.leb_spec subs 1); try lia. rewrite !andb_false_r. cbn. lia.
Qed.
Print Assumptions C08_fanout_fallback_refuted.

(** Because the counters miss live endpoints (C09_quiet_subscriber_refuted), the choice is made for one
    subscriber although two are live. *)
Theorem C08_quiet_subscriber_refuted : forall a b t1 t2 pubs is_pod, a <> b -> t1 + 5000 < t2 -> 0 < pubs ->
  let subs := t_subs (p_run [OReg a a false t1; OReg b b false t2]) in
  ~ tolerates_subscribers (resolve_recv_fn (detect_optimal_backend pubs subs is_pod) is_pod RConsumer) 2.
Proof.
  intros a b t1 t2 pubs is_pod Hn Ht Hp subs. unfold subs. rewrite C09_quiet_subscriber_refuted by auto.
  unfold detect_optimal_backend. destruct (N.eqb_spec pubs 0); [lia|]. cbn [andb].
  destruct (N.leb_spec pubs 1), (N.ltb_spec 1 pubs); try lia; change (1 <=? 1) with true; unfold resolve_recv_fn; cbn [andb negb can_recv tolerates_subscribers]; lia.
Qed.
Print Assumptions C08_quiet_subscriber_refuted.

Example C08_ex : resolve_recv_fn (detect_optimal_backend 3 5 true) true RConsumer = RecvBroadcast /\
  resolve_send_fn (detect_optimal_backend 3 5 false) false RProducer = SendFanout.
Proof. auto. Qed.
