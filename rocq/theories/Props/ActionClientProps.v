(** C59: the action client. *)
From Coq Require Import Sorting.Permutation.
From Verif Require Import Base.Prelude Base.AMap Model.Action Spec.ActionSpec Proofs.ActionProofs Proofs.ActionOrder
  Model.ActionClient Spec.ActionClientSpec Proofs.ActionClientProofs Props.ActionProps.

(** *** The order of the server's messages *)

(** No goal is announced as started after it was announced as over; without
    timeouts the result comes before the status that ends the goal. *)
Theorem C41_message_order : forall w ops s id before m later,
  hash_order (w_order w) -> after w ops = Some s -> no_shutdown ops -> NoDup (goal_ids ops) ->
  out s = before ++ m :: later ->
  (m = MStatus id Active -> forall t, terminal t = true -> ~ In (MStatus id t) before)
  /\ (forall r, m = MResult id r -> timeout (w_cfg w) = None ->
        (forall t, terminal t = true -> ~ In (MStatus id t) before) /\ In (MStatus id r) later).
Proof.
  intros w ops s id b m l Ho R Ns Nd E. destruct (server_J w Ho ops s R Ns Nd) as [_ O].
  pose proof (Ord_split _ _ O _ _ _ E) as F. split.
  - intros -> t T J. cbn [fine] in F. pose proof (terminals_in id t b J T). lia.
  - intros r -> To. cbn [fine] in F. specialize (F To).
    assert (forall t, terminal t = true -> ~ In (MStatus id t) b) as N1.
    { intros t T J. pose proof (terminals_in id t b J T). lia. }
    split; auto.
    destruct (server_status w ops s id r R) as (J & T & _); [apply in_ress; rewrite E; apply in_or_app; right; now left|].
    apply in_stats in J. rewrite E in J. apply in_app_or in J as [J|[J|J]]; [now apply N1 in J|discriminate|auto].
Qed.
Print Assumptions C41_message_order.
Example C41_message_order_ex : exists s, after (simple 1 None RejectNew) [g 1; Emit 1 7; Finish 1 (Some OSucceeded); Drain] = Some s
  /\ out s = [MStatus 1 Active; MFeedback 1 7; MResult 1 Succeeded] ++ MStatus 1 Succeeded :: [].
Proof. eexists. split; [vm_compute; reflexivity|]. reflexivity. Qed.

(** *** What a handle shows *)

Lemma reached_CI w ops a (Pr : Prop) : hash_order (w_order w) -> reached w ops = Some a -> unsplit ops -> stays_up ops ->
  NoDup (submitted ops) -> (Pr -> prompt w ops) -> CI w Pr (submitted ops) a.
Proof.
  intros Ho R U S Nd Hp. apply (CI_run w Ho Pr ops [] s_start a); auto. apply CI_start.
Qed.

(** Requests of a client that pumps in one thread, each with its own id. *)
Definition q (id : N) : req := {| r_id := id; r_prio := 0 |}.
Definition pumps (n : nat) : list cop := repeat (Pump 0) n.
Definition normal : list cop :=
  [Send (q 1); Take; Srv (Emit 1 7); Srv Drain] ++ pumps 6 ++ [Srv (Finish 1 (Some OSucceeded)); Srv Drain] ++ pumps 6.

(** [prompt] is decidable. *)
Fixpoint promptb (w : world) (a : sys) (ops : list cop) : bool :=
  match pumping (cl a) with Some (_, _, t0) => (now (srvr a) - t0 <=? 30000)%N | None => true end
  && match ops with
     | [] => true
     | o :: ops => match cstep (serve w) a o with Some a => promptb w a ops | None => true end
     end.
Lemma promptb_ok w ops : promptb w s_start ops = true -> prompt w ops.
Proof.
  unfold prompt. generalize s_start. induction ops as [|o ops IH]; intros a H; cbn [promptb visits] in *;
    apply andb_true_iff in H as (H1 & H2); constructor.
  1, 3: unfold prompt1; destruct (pumping (cl a)) as [[[v p] t0]|]; auto; now apply N.leb_le.
  - constructor.
  - destruct (cstep (serve w) a o); auto.
Qed.

(** Whenever no pump is under way, a handle that shows success (or preemption)
    holds its result: waiting returns it. *)
Theorem C59_success_has_result : forall w ops a id h t,
  hash_order (w_order w) -> reached w ops = Some a -> unsplit ops -> stays_up ops ->
  NoDup (submitted ops) -> prompt w ops ->
  goals (cl a) id = Some h -> st h = Told t -> t = Succeeded \/ t = Preempted -> pumping (cl a) = None ->
  poll (cl a) id = Some (Some t).
Proof.
  intros w ops a id h t Ho R U S Nd Hp G St Q Pu.
  pose proof (reached_CI w ops a True Ho R U S Nd (fun _ => Hp)) as C.
  destruct (success_result w True (submitted ops) a id h t C Logic.I G St Q Pu) as (E & _).
  unfold poll. rewrite G, St, E. destruct Q as [-> | ->]; reflexivity.
Qed.
Print Assumptions C59_success_has_result.
Example C59_success_ex : exists a, reached (simple 1 None RejectNew) normal = Some a
  /\ (exists h, goals (cl a) 1%N = Some h /\ st h = Told Succeeded /\ fbs h = [7%N]) /\ pumping (cl a) = None
  /\ poll (cl a) 1 = Some (Some Succeeded).
Proof. eexists. split; [vm_compute; reflexivity|]. split; [eexists; split; [vm_compute; reflexivity|]; now vm_compute|]. now vm_compute. Qed.
Example C59_success_ex_ok : unsplit normal /\ stays_up normal /\ NoDup (submitted normal) /\ prompt (simple 1 None RejectNew) normal.
Proof.
  split; [|split; [|split]].
  - intros id J. vm_compute in J. intuition discriminate.
  - intros J. vm_compute in J. intuition discriminate.
  - repeat constructor; intros [].
  - apply promptb_ok. vm_compute. reflexivity.
Qed.

(** Once a handle holds a result, nothing about it changes any more, whatever the
    server and other goals do. *)
Theorem C59_final : forall w ops a more a' id h r,
  hash_order (w_order w) -> reached w ops = Some a -> between w a more = Some a' ->
  unsplit (ops ++ more) -> stays_up ops -> NoDup (submitted (ops ++ more)) ->
  goals (cl a) id = Some h -> res h = Some r -> goals (cl a') id = Some h.
Proof.
  intros w ops a more a' id h r Ho R R2 U S Nd G Er.
  rewrite submitted_app in Nd.
  assert (unsplit ops) as U1 by (intros i J; apply (U i), in_or_app; now left).
  assert (unsplit more) as U2 by (intros i J; apply (U i), in_or_app; now right).
  pose proof (reached_CI w ops a False Ho R U1 S (NoDup_app_left _ _ Nd) (fun f => match f with end)) as C.
  destruct (truthful w False (submitted ops) a id h C G) as (_ & T). destruct (T r Er) as (_ & _ & M).
  apply (unmapped_run w more a a' id h R2 G M); auto.
  intros J. pose proof (ci_k _ _ _ _ C) as (rs & rr & _ & _ & Kk). specialize (Kk id). unfold K in Kk. rewrite G in Kk.
  destruct Kk as (Ji & _). clear - Nd J Ji. induction (submitted ops) as [|x l IH]; [destruct Ji|].
  cbn in Nd. apply NoDup_cons_iff in Nd as (Nx & Nd). destruct Ji as [->|Ji]; [apply Nx, in_or_app; now right|auto].
Qed.
Print Assumptions C59_final.
Example C59_final_ex : exists a a', reached (simple 1 None RejectNew) normal = Some a
  /\ between (simple 1 None RejectNew) a ([Send (q 2); Take; Srv (Cancel 2); Srv Timeouts] ++ pumps 9) = Some a'
  /\ (exists h, goals (cl a) 1%N = Some h /\ res h = Some Succeeded)
  /\ (exists h, goals (cl a') 2%N = Some h /\ st h = Told Active).
Proof.
  eexists. eexists. split; [vm_compute; reflexivity|]. split; [vm_compute; reflexivity|].
  split; eexists; (split; [vm_compute; reflexivity|]); reflexivity.
Qed.

(** What a handle shows, the server published: the status, the result, and the
    feedback in order and without repetition. *)
Theorem C59_true : forall w ops a id h,
  hash_order (w_order w) -> reached w ops = Some a -> unsplit ops -> stays_up ops -> NoDup (submitted ops) ->
  goals (cl a) id = Some h ->
  (forall t, st h = Told t -> In (MStatus id t) (out (srvr a)))
  /\ (forall r, res h = Some r -> In (MResult id r) (out (srvr a)) /\ st h = Told r)
  /\ sublist (fbs h) (feedback_of id (out (srvr a))).
Proof.
  intros w ops a id h Ho R U S Nd G.
  pose proof (reached_CI w ops a False Ho R U S Nd (fun f => match f with end)) as C.
  destruct (truthful w False (submitted ops) a id h C G) as (T1 & T2). split; auto. split.
  - intros r E. destruct (T2 r E) as (A & B & _). auto.
  - destruct (FI_run w ops s_start a) as (rf & E & F); auto; [exists []; split; [reflexivity|discriminate]|].
    rewrite <- of_id_feeds, E, of_id_app. apply sublist_more. now apply F.
Qed.
Print Assumptions C59_true.

(** With a server that has no timeouts, as soon as all messages are in, every
    handle agrees with the server: the last status published is the one shown, and
    a result is held exactly if one was published. *)
Theorem C59_settled : forall w ops a id h,
  hash_order (w_order w) -> reached w ops = Some a -> unsplit ops -> stays_up ops ->
  NoDup (submitted ops) -> prompt w ops -> timeout (w_cfg w) = None ->
  goals (cl a) id = Some h -> settled (cl a) ->
  st h = last_word id (stats (out (srvr a))) /\ (forall r, In (MResult id r) (out (srvr a)) <-> res h = Some r).
Proof.
  intros w ops a id h Ho R U S Nd Hp To G (Qs & Qr & _).
  pose proof (reached_CI w ops a True Ho R U S Nd (fun _ => Hp)) as C.
  destruct (settle w Ho True (submitted ops) a id h C Logic.I Nd To G Qs Qr) as (A & B). split; auto.
  intros r. rewrite <- B. symmetry. apply in_ress.
Qed.
Print Assumptions C59_settled.
Example C59_settled_ex : exists a, reached (simple 1 None RejectNew) (normal ++ [Send (q 2); Send (q 3); Take; Take] ++ pumps 6) = Some a
  /\ settled (cl a) /\ (exists h, goals (cl a) 2%N = Some h /\ st h = Told Active)
  /\ (exists h, goals (cl a) 3%N = Some h /\ st h = Told Rejected).
Proof.
  eexists. split; [vm_compute; reflexivity|]. split; [now vm_compute|].
  split; eexists; (split; [vm_compute; reflexivity|]); reflexivity.
Qed.

(** *** What does not hold *)

(** The node's counters never count a goal twice, whatever the threads do and even if ids are used again: they add
    up to at most the number of handles given out. *)
Lemma filter_split3 {A} (f g h : A -> bool) l : (forall x, In x l -> (f x = true -> g x = false /\ h x = false) /\ (g x = true -> h x = false)) ->
  length (filter f l) + length (filter g l) + length (filter h l) <= length l.
Proof.
  induction l as [|x l IH]; intros H; cbn [filter length]; [lia|].
  specialize (IH ltac:(intros y Hy; apply H; right; auto)). destruct (H x (or_introl eq_refl)) as (H1 & H2).
  destruct (f x) eqn:F, (g x) eqn:G, (h x) eqn:K; cbn [length]; try lia; try (destruct (H1 eq_refl); discriminate); try (discriminate (H2 eq_refl)).
Qed.
Definition tally (n : nat) (c : client) : Prop :=
  NoDup (mapped c) /\ exists l, NoDup l /\ (forall id g, goals c id = Some g -> counted g = false -> In id l) /\ m_ok c + m_failed c + length l <= n.
Lemma tally_more n k c : tally n c -> n <= k -> tally k c.
Proof. intros (N & l & A & B & C) H. split; auto. exists l. repeat split; auto. lia. Qed.
Lemma tally_like n c c' : tally n c -> NoDup (mapped c') -> m_ok c' = m_ok c -> m_failed c' = m_failed c ->
  (forall id g', goals c' id = Some g' -> exists g, goals c id = Some g /\ counted g = counted g') -> tally n c'.
Proof.
  intros (N & l & A & B & C) N' E1 E2 G. split; auto. exists l. rewrite E1, E2. repeat split; auto.
  intros id g' H K. destruct (G id g' H) as (g & H1 & H2). apply (B id g); congruence.
Qed.
Lemma tally_put n c id g g' m : tally n c -> goals c id = Some g -> counted g' = counted g -> NoDup m -> tally n (with_goals c (put (goals c) id g') m).
Proof.
  intros T G K N. eapply tally_like; eauto. cbn [with_goals goals]. unfold put. intros i x. destruct (N.eqb_spec i id) as [->|]; intros E; [|eauto].
  injection E as <-. eauto.
Qed.
Lemma tally_map n c m : tally n c -> NoDup m -> tally n (with_goals c (goals c) m).
Proof. intros T N. eapply tally_like; eauto. Qed.
Lemma tally_pump n c t u : tally n c -> tally n (pump c t u).
Proof.
  assert (Q : forall a b r c, tally n c -> tally n (with_queues c a b r)) by (intros a b r d T; eapply tally_like; eauto; apply T).
  assert (P : forall p c, tally n c -> tally n (with_pump c p)) by (intros p d T; eapply tally_like; eauto; apply T).
  assert (M : forall c id, tally n c -> NoDup (unmap id (mapped c))) by (intros d id T; apply NoDup_filter, T).
  intros T. unfold pump. destruct (pumping c) as [((v & p) & t0)|]; [|auto]. destruct (u =? v); auto.
  destruct p.
  - destruct (q_s c) as [|(id, s) r]; auto. specialize (Q r (q_f c) (q_r c) c T). revert Q. generalize (with_queues c r (q_f c) (q_r c)). clear - M. intros c T.
    unfold on_status.
    assert (T1 : tally n (if is_mapped c id then match goals c id with
      | Some g => with_goals c (put (goals c) id {| st := Told s; res := res g; fbs := fbs g; upd := t; counted := counted g |}) (mapped c)
      | None => c end else c)).
    { destruct (is_mapped c id); auto. destruct (goals c id) eqn:G; auto. eapply tally_put; eauto; auto. apply T. }
    match goal with |- context [match s with Rejected => with_goals ?x _ _ | _ => _ end] => set (d := x) in * end. clearbody d.
    unfold sweep. apply tally_map.
    + destruct s; auto. apply tally_map; auto.
    + apply NoDup_filter. destruct s; cbn [with_goals mapped]; auto; try apply T1.
  - destruct (q_f c) as [|(id, x) r]; auto. specialize (Q (q_s c) r (q_r c) c T). revert Q. generalize (with_queues c (q_s c) r (q_r c)). clear. intros c T.
    unfold on_feedback. destruct (is_mapped c id); auto. destruct (goals c id) eqn:G; auto. eapply tally_put; eauto; auto. apply T.
  - destruct (q_r c) as [|(id, s) r]; auto. specialize (Q (q_s c) (q_f c) r c T). revert Q. generalize (with_queues c (q_s c) (q_f c) r). clear - M. intros c T.
    unfold on_result.
    assert (T1 : tally n (if is_mapped c id then match goals c id with
      | Some g => with_goals c (put (goals c) id {| st := Told s; res := Some s; fbs := fbs g; upd := t; counted := counted g |}) (mapped c)
      | None => c end else c)).
    { destruct (is_mapped c id); auto. destruct (goals c id) eqn:G; auto. eapply tally_put; eauto; auto. apply T. }
    match goal with |- context [if terminal s then with_goals ?x _ _ else _] => set (d := x) in * end. clearbody d.
    destruct (terminal s); auto. apply tally_map; auto.
Qed.
Lemma tally_count n c : tally n c -> tally n (count_all c).
Proof.
  intros (N & l & A & B & C). split; [auto|].
  set (gone := fun id => existsb (N.eqb id) (mapped c) && match goals c id with Some g => over_ (st g) | None => false end).
  exists (filter (fun id => negb (gone id)) l). split; [apply NoDup_filter; auto|]. split.
  - cbn [count_all goals]. intros id g. destruct (goals c id) as [g0|] eqn:G; [|discriminate].
    destruct (existsb (N.eqb id) (mapped c) && over_ (st g0)) eqn:E; intros H K; injection H as <-; [discriminate|].
    apply filter_In. split; [eapply B; eauto|]. unfold gone. rewrite G, E. auto.
  - cbn [count_all m_ok m_failed].
    assert (I : forall ok, length (filter (uncounted c ok) (mapped c)) <= length (filter (fun id => uncounted c ok id && gone id) l)).
    { intros ok. apply NoDup_incl_length; [apply NoDup_filter; auto|]. intros id H. apply filter_In in H. destruct H as (H1 & H2).
      apply filter_In. unfold uncounted in *. destruct (goals c id) as [g|] eqn:G; [|discriminate]. rewrite !andb_true_iff in H2. destruct H2 as ((Ha & Hb) & Hc).
      split; [eapply B; eauto; destruct (counted g); auto; discriminate|]. unfold gone. rewrite G.
      assert (existsb (N.eqb id) (mapped c) = true) as -> by (apply existsb_exists; exists id; split; auto; apply N.eqb_refl).
      rewrite Ha, Hb, Hc. reflexivity. }
    pose proof (I true) as I1. pose proof (I false) as I2.
    pose proof (filter_split3 (fun id => uncounted c true id && gone id) (fun id => uncounted c false id && gone id) (fun id => negb (gone id)) l) as L.
    specialize (L ltac:(intros x _; unfold uncounted; destruct (goals c x) as [g|]; [|split; discriminate];
      destruct (gone x), (over_ (st g)), (negb (counted g)), (match st g with Told Succeeded => true | _ => false end); cbn; split; auto; discriminate)).
    lia.
Qed.
Theorem C59_counted_once : forall w ops a, reached w ops = Some a -> m_ok (cl a) + m_failed (cl a) <= handles_given ops.
Proof.
  intros w ops a.
  enough (forall ops a0 n, tally n (cl a0) -> between w a0 ops = Some a -> tally (n + handles_given ops) (cl a)) as H.
  { intros R. destruct (H ops s_start 0 ltac:(split; [constructor|exists []; repeat split; auto; [constructor|discriminate]]) R) as (_ & l & _ & _ & L). cbn in L. lia. }
  clear ops. induction ops as [|o ops IH]; intros a0 n T R.
  - unfold between in R. cbn [crun] in R. injection R as <-. unfold handles_given. cbn. rewrite Nat.add_0_r. auto.
  - unfold between in R. cbn [crun] in R. destruct (cstep (serve w) a0 o) as [a1|] eqn:E; [|discriminate].
    assert (Rg : forall c t id, tally n c -> tally (S n) (register c t id)).
    { intros c t id (N1 & l & A & B & C). split.
      - cbn [register with_goals mapped]. constructor; [|apply NoDup_filter; auto]. intros H. apply filter_In in H. destruct H as (_ & H). rewrite N.eqb_refl in H. discriminate.
      - exists (id :: filter (fun i => negb (N.eqb i id)) l). split; [|split].
        + constructor; [|apply NoDup_filter; auto]. intros H. apply filter_In in H. destruct H as (_ & H). rewrite N.eqb_refl in H. discriminate.
        + cbn [register with_goals goals]. unfold put. intros i g. destruct (N.eqb_spec i id) as [->|Hn]; [left; auto|]. intros H K. right.
          apply filter_In. split; [eapply B; eauto|]. destruct (N.eqb_spec i id); auto.
        + cbn [register with_goals m_ok m_failed length].
          assert (length (filter (fun i => negb (N.eqb i id)) l) <= length l) by (clear; induction l as [|x l IHl]; cbn; [lia|]; destruct (negb _); cbn; lia). lia. }
    assert (By : forall o q a1, by_server (serve w) a0 o q = Some a1 -> tally n (cl a1)).
    { intros o0 q a2 H. unfold by_server in H. destruct (serve w (srvr a0) o0); [|discriminate]. injection H as <-. cbn [cl]. eapply tally_like; [exact T|apply T|reflexivity|reflexivity|eauto]. }
    destruct (match o with Send _ | Register _ => true | _ => false end) eqn:K.
    + assert (handles_given (o :: ops) = S (handles_given ops)) as -> by (unfold handles_given; cbn [filter]; rewrite K; auto).
      replace (n + S (handles_given ops)) with (S n + handles_given ops) by lia. apply (IH a1); auto.
      destruct o; try discriminate; cbn [cstep] in E; injection E as <-; cbn [cl]; auto.
    + assert (handles_given (o :: ops) = handles_given ops) as -> by (unfold handles_given; cbn [filter]; rewrite K; auto).
      apply (IH a1); auto. destruct o as [r|r|id| |s|u|u]; try discriminate; cbn [cstep] in E.
      * injection E as <-. auto.
      * destruct (reqs a0); [injection E as <-; auto|eauto].
      * destruct s; try (injection E as <-; auto); eauto.
      * injection E as <-. cbn [cl]. apply tally_pump; auto.
      * injection E as <-. cbn [cl]. unfold tick_count. destruct (pumping (cl a0)) as [((v & p) & t0)|]; [destruct (u =? v); auto|]; apply tally_count; auto.
Qed.
Print Assumptions C59_counted_once.

(** A waiting caller's closure is called only when feedback has arrived that was not there when it was last called,
    and then with a new message, the newest. *)
Theorem C59_feedback_new : forall c id g seen, goals c id = Some g ->
  (poll_feedback c id seen = [] <-> length (fbs g) <= seen) /\
  (forall x, In x (poll_feedback c id seen) -> In x (skipn seen (fbs g)) /\ exists old, fbs g = old ++ [x]).
Proof.
  intros c id g seen G. unfold poll_feedback. rewrite G. destruct (Nat.ltb_spec seen (length (fbs g))) as [L|L].
  - split; [split; [discriminate|lia]|]. intros x [<-|[]].
    destruct (exists_last (l := fbs g)) as (old & y & E); [intros E; rewrite E in L; cbn in L; lia|].
    rewrite E, last_last. split; [|eauto]. rewrite E, app_length in L. cbn [length] in L. rewrite skipn_app.
    apply in_or_app. right. replace (seen - length old) with 0 by lia. left; auto.
  - split; [split; auto|]. intros x [].
Qed.
Print Assumptions C59_feedback_new.

(** The client's counter of successful goals counts none: in a client pumped by
    one thread it is zero after every history. *)
Theorem C59_successes_counted_refuted : forall w ops a u,
  hash_order (w_order w) -> reached w ops = Some a -> unsplit ops -> stays_up ops ->
  NoDup (submitted ops) -> prompt w ops -> one_thread u ops -> m_ok (cl a) = 0.
Proof.
  intros w ops a u Ho R U S Nd Hp Ot.
  enough (forall ops subs a0, CI w True subs a0 -> between w a0 ops = Some a -> unsplit ops -> stays_up ops ->
    NoDup (subs ++ submitted ops) -> Forall prompt1 (visits w a0 ops) -> one_thread u ops ->
    (forall v p t0, pumping (cl a0) = Some (v, p, t0) -> v = u) -> m_ok (cl a0) = 0 -> m_ok (cl a) = 0) as H.
  { apply (H ops [] s_start); auto; [apply CI_start|discriminate]. }
  clear - Ho. induction ops as [|o ops IH]; intros subs a0 C H U S Nd Hp Ot Pu Mo; unfold between in H; cbn [crun] in H.
  - now injection H as <-.
  - destruct (cstep (serve w) a0 o) as [a1|] eqn:E; [|discriminate].
    cbn [visits] in Hp. rewrite E in Hp. apply Forall_cons_iff in Hp as (Hp1 & Hp).
    destruct (one_pumper w True u subs a0 o a1 C Logic.I E) as (Pu1 & Mo1); auto.
    { intros v [-> | ->]; apply Ot; [left|right]; now left. }
    change (o :: ops) with ([o] ++ ops) in Nd. rewrite submitted_app, app_assoc in Nd.
    apply (IH (subs ++ submitted [o]) a1); auto.
    + apply (CI_step w Ho True subs a0 o a1); auto.
      * intros id ->. apply (U id). now left.
      * intros ->. apply S. now left.
      * now apply NoDup_app_left in Nd.
    + intros id J. apply (U id). now right.
    + intros J. apply S. now right.
    + intros v [J|J]; apply Ot; [left|right]; now right.
Qed.
Print Assumptions C59_successes_counted_refuted.
Example C59_successes_counted_ex : exists a, reached (simple 1 None RejectNew) (normal ++ [Count 0]) = Some a
  /\ poll (cl a) 1 = Some (Some Succeeded) /\ m_ok (cl a) = 0 /\ m_failed (cl a) = 0.
Proof. eexists. split; [vm_compute; reflexivity|]. now vm_compute. Qed.
(** Nor are rejected goals counted as failed. *)
Theorem C59_rejections_counted_refuted : exists a,
  reached (simple 1 None RejectNew) ([Send (q 1); Send (q 2); Take; Take] ++ pumps 6 ++ [Count 0]) = Some a
  /\ poll (cl a) 2 = Some None /\ (exists h, goals (cl a) 2%N = Some h /\ st h = Told Rejected) /\ m_failed (cl a) = 0.
Proof. eexists. split; [vm_compute; reflexivity|]. split; [now vm_compute|]. split; [|now vm_compute]. eexists. split; vm_compute; reflexivity. Qed.
Print Assumptions C59_rejections_counted_refuted.

Ltac fact :=
  match goal with
  | |- hash_order _ => apply simple_order
  | |- unsplit _ => let J := fresh in intros ? J; vm_compute in J; repeat (destruct J as [J|J]; [discriminate J|]); destruct J
  | |- stays_up _ => let J := fresh in intros J; vm_compute in J; repeat (destruct J as [J|J]; [discriminate J|]); destruct J
  | |- NoDup _ => repeat constructor; cbn; intuition discriminate
  | |- prompt _ _ => apply promptb_ok; vm_compute; reflexivity
  | |- reached _ _ = _ => vm_compute; reflexivity
  | |- between _ _ _ = _ => vm_compute; reflexivity
  | |- exists _, _ => eexists; split; [vm_compute; reflexivity|]; vm_compute; repeat split
  | |- In _ _ => vm_compute; auto 20
  | |- _ => vm_compute; repeat split
  end.
Ltac history := repeat match goal with |- _ /\ _ => split; [solve [fact]|] end; fact.

(** When a second thread pumps, a waiting thread may see success without the
    result: thread 1 has pumped, thread 0 is between status and result. *)
Theorem C59_two_threads_refuted : exists w ops a,
  hash_order (w_order w) /\ unsplit ops /\ stays_up ops /\ NoDup (submitted ops) /\ prompt w ops
  /\ reached w ops = Some a /\ In (MResult 1 Succeeded) (out (srvr a))
  /\ (exists h, goals (cl a) 1%N = Some h /\ st h = Told Succeeded) /\ poll (cl a) 1 = Some None.
Proof.
  exists (simple 1 None RejectNew),
    ([Send (q 1); Take] ++ repeat (Pump 1) 5 ++ [Srv (Finish 1 (Some OSucceeded)); Srv Drain] ++ pumps 2).
  eexists. history.
Qed.
Print Assumptions C59_two_threads_refuted.

(** The goal is sent before it is registered: if the answer is pumped in between,
    the handle is never told.  Everything is in, the goal has succeeded, and the
    handle is still waiting. *)
Theorem C59_late_registration_refuted : exists w ops a,
  hash_order (w_order w) /\ stays_up ops /\ NoDup (submitted ops) /\ prompt w ops /\ reached w ops = Some a
  /\ settled (cl a) /\ In (MResult 1 Succeeded) (out (srvr a)) /\ active (srvr a) = [] /\ reqs a = []
  /\ (exists h, goals (cl a) 1%N = Some h /\ st h = Pending) /\ poll (cl a) 1 = None.
Proof.
  exists (simple 1 None RejectNew),
    ([Submit (q 1); Take; Srv (Finish 1 (Some OSucceeded)); Srv Drain] ++ pumps 7 ++ [Register 1] ++ pumps 4).
  eexists. history.
Qed.
Print Assumptions C59_late_registration_refuted.

(** With a timeout a handle may go from aborted to succeeded, and a caller that
    waited has meanwhile been given no result. *)
Theorem C59_terminal_stays_refuted : exists w ops more a a',
  hash_order (w_order w) /\ unsplit (ops ++ more) /\ stays_up (ops ++ more) /\ NoDup (submitted (ops ++ more))
  /\ prompt w (ops ++ more) /\ reached w ops = Some a /\ between w a more = Some a'
  /\ settled (cl a) /\ settled (cl a')
  /\ (exists h, goals (cl a) 1%N = Some h /\ st h = Told Aborted) /\ poll (cl a) 1 = Some None
  /\ (exists h, goals (cl a') 1%N = Some h /\ st h = Told Succeeded) /\ poll (cl a') 1 = Some (Some Succeeded).
Proof.
  exists (simple 1 (Some 10%N) RejectNew),
    ([Send (q 1); Take; Srv (Advance 11); Srv Timeouts; Srv (Advance 11); Srv Timeouts] ++ pumps 6),
    ([Srv (Finish 1 (Some OSucceeded)); Srv Drain] ++ pumps 6).
  eexists. eexists. history.
Qed.
Print Assumptions C59_terminal_stays_refuted.

(** And if the result comes more than 30 s after that, it may be dropped: all is
    in, the server has published success and its result, the handle says aborted. *)
Theorem C59_late_result_refuted : exists w ops a,
  hash_order (w_order w) /\ unsplit ops /\ stays_up ops /\ NoDup (submitted ops) /\ prompt w ops
  /\ reached w ops = Some a /\ settled (cl a)
  /\ In (MResult 1 Succeeded) (out (srvr a)) /\ last_word 1 (stats (out (srvr a))) = Told Succeeded
  /\ (exists h, goals (cl a) 1%N = Some h /\ st h = Told Aborted) /\ poll (cl a) 1 = Some None.
Proof.
  exists (simple 2 (Some 10%N) RejectNew),
    ([Send (q 1); Take; Srv (Advance 11); Srv Timeouts; Srv (Advance 11); Srv Timeouts] ++ pumps 6
     ++ [Srv (Advance 30001); Send (q 2); Take] ++ pumps 5 ++ [Srv (Finish 1 (Some OSucceeded)); Srv Drain] ++ pumps 6).
  eexists. history.
Qed.
Print Assumptions C59_late_result_refuted.

(** Feedback that arrives together is shown to the waiting caller's closure only
    once; and feedback that arrives while the results are read is not taken at
    all, if the result is among them. *)
Theorem C59_feedback_complete_refuted : exists w ops1 ops2 a1 a2,
  hash_order (w_order w) /\ unsplit ops1 /\ unsplit ops2 /\ stays_up ops1 /\ stays_up ops2
  /\ NoDup (submitted ops1) /\ NoDup (submitted ops2) /\ prompt w ops1 /\ prompt w ops2
  /\ reached w ops1 = Some a1 /\ feedback_of 1 (out (srvr a1)) = [7; 8]%N /\ settled (cl a1) /\ poll_feedback (cl a1) 1 0 = [8%N]
  /\ reached w ops2 = Some a2 /\ feedback_of 1 (out (srvr a2)) = [7]%N /\ settled (cl a2)
  /\ (exists h, goals (cl a2) 1%N = Some h /\ fbs h = [] /\ res h = Some Succeeded).
Proof.
  exists (simple 1 None RejectNew),
    ([Send (q 1); Take; Srv (Emit 1 7); Srv (Emit 1 8); Srv Drain] ++ pumps 7),
    ([Send (q 1); Take] ++ pumps 4 ++ [Srv (Emit 1 7); Srv (Finish 1 (Some OSucceeded)); Srv Drain] ++ pumps 2 ++ pumps 6).
  eexists. eexists. history.
Qed.
Print Assumptions C59_feedback_complete_refuted.
