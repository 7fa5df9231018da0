(** The order in which the action server publishes things about a goal. *)
From Coq Require Import Sorting.Permutation.
From Verif Require Import Base.Prelude Base.AMap Model.Action Spec.ActionSpec Proofs.ActionProofs.

Section Server.
Variable cfg : config.
Variable wants : req -> bool.
Variable cancel_ok : N -> bool.
Variable has_exec : bool.
Variable spawns : req -> bool.
Variable order : list (N * goal) -> list (N * goal).
Hypothesis ord : hash_order order.

Notation has_slot := (has_slot cfg).
Notation accept := (accept has_exec spawns).
Notation start_queued := (start_queued cfg has_exec spawns).
Notation process_queue := (process_queue cfg has_exec spawns).
Notation complete := (complete cfg has_exec spawns).
Notation abort_silent := (abort_silent cfg has_exec spawns).
Notation dispatch := (dispatch cfg has_exec spawns).
Notation drain := (drain cfg has_exec spawns).
Notation handle_goal := (handle_goal cfg wants has_exec spawns order).
Notation check_timeouts := (check_timeouts cfg order).
Notation step := (step cfg wants cancel_ok has_exec spawns order).
Notation run := (run cfg wants cancel_ok has_exec spawns order).
Notation J := (J cfg).

(** *** What is sent together *)
Definition group (ms : list msg) : Prop :=
  (exists i x, ms = [MFeedback i x])
  \/ (exists i o, ms = [MResult i (outcome_status o); MStatus i (outcome_status o)])
  \/ (exists i s, ms = [MStatus i s] /\ s <> Succeeded /\ s <> Preempted).
Definition grown (o o' : list msg) : Prop := exists gs, Forall group gs /\ o' = o ++ concat gs.
Lemma grown_refl o : grown o o.
Proof. exists []. split; [constructor|]. cbn. now rewrite app_nil_r. Qed.
Lemma grown_trans a b c : grown a b -> grown b c -> grown a c.
Proof.
  intros (g1 & F1 & ->) (g2 & F2 & ->). exists (g1 ++ g2). split; [apply Forall_app; auto|].
  now rewrite concat_app, app_assoc.
Qed.
Lemma grown_one o ms : group ms -> grown o (o ++ ms).
Proof. intros G. exists [ms]. split; [auto|]. cbn. now rewrite app_nil_r. Qed.
Lemma grown_status o i s : s <> Succeeded -> s <> Preempted -> grown o (o ++ [MStatus i s]).
Proof. intros N1 N2. apply grown_one. right. right. now exists i, s. Qed.

Ltac proj := cbn [active queue threads live inbox now out received accepted rejected succeeded aborted
  canceled preempted set_active set_queue set_threads send count advance].

Lemma grown_accept s r : grown (out s) (out (accept s r)).
Proof.
  unfold Action.accept. destruct (mem _ _ _); [proj; apply grown_status; discriminate|].
  destruct has_exec; [destruct (spawns r)|]; proj.
  - apply grown_status; discriminate.
  - eapply grown_trans; apply grown_status; discriminate.
  - apply grown_status; discriminate.
Qed.
Lemma grown_reject s i : grown (out s) (out (reject s i)).
Proof. unfold reject. proj. apply grown_status; discriminate. Qed.
Lemma grown_queued q : forall s, grown (out s) (out (start_queued q s)).
Proof.
  induction q as [|r q IH]; intros s; cbn [Action.start_queued]; [apply grown_refl|].
  destruct (has_slot s); [|apply grown_refl]. eapply grown_trans; [apply grown_accept|apply IH].
Qed.
Lemma grown_process s : grown (out s) (out (process_queue s)).
Proof. unfold Action.process_queue. apply (grown_queued (queue s) (set_queue s [])). Qed.
Lemma grown_dispatch s e : grown (out s) (out (dispatch s e)).
Proof.
  destruct e; cbn [Action.dispatch].
  - proj. apply grown_one. left. eauto.
  - unfold Action.complete. cbv zeta. eapply grown_trans; [|apply grown_process]. proj.
    match goal with |- grown _ (?x ++ _) => replace x with (out s) by (destruct o; reflexivity) end.
    apply grown_one. right. left. eauto.
  - unfold Action.abort_silent. cbv zeta. eapply grown_trans; [|apply grown_process]. proj.
    apply grown_status; discriminate.
Qed.
Lemma grown_cancel s i : grown (out s) (out (cancel_one cancel_ok s i)).
Proof.
  rewrite cancel_one_eq. destruct (find _ _).
  - destruct (cancel_ok i); [|apply grown_refl]. proj. apply grown_status; discriminate.
  - destruct (_ && _); apply grown_refl.
Qed.
Lemma grown_abandon o l : grown o (o ++ map (fun i => MStatus i Aborted) l).
Proof.
  revert o. induction l as [|i l IH]; intros o; cbn [map]; [rewrite app_nil_r; apply grown_refl|].
  change (MStatus i Aborted :: ?x) with ([MStatus i Aborted] ++ x). rewrite app_assoc.
  eapply grown_trans; [|apply IH]. apply grown_status; discriminate.
Qed.
Lemma grown_step s o s' : step s o = Some s' -> grown (out s) (out s').
Proof.
  intros H. destruct o; cbn [Action.step] in H.
  - injection H as <-. unfold Action.handle_goal. cbv zeta. set (s1 := count s 1 0 0 0 0 0 0).
    change (out s) with (out s1).
    destruct (negb _); [apply grown_reject|]. destruct (has_slot s1); [apply grown_accept|].
    destruct (pol cfg); [apply grown_reject| | |].
    + destruct (0 <? _); [apply grown_reject|]. destruct (oldest _ _); [|apply grown_reject].
      apply (grown_accept (preempt s1 n)).
    + destruct (lowest _ _) as [[i p]|]; [|apply grown_reject]. destruct (_ <? _)%N; [|apply grown_reject].
      apply (grown_accept (preempt s1 i)).
    + destruct (_ <? _); [apply grown_refl|apply grown_reject].
  - revert H. intros H. refine (cancel_pres cancel_ok order (fun s1 => grown (out s) (out s1)) _ _ _ _ _ H (grown_refl _)).
    intros s0 i G. eapply grown_trans; [exact G|apply grown_cancel].
  - injection H as <-. unfold Action.drain. change (out s) with (out (set_threads s (threads s) (live s) [])).
    generalize (set_threads s (threads s) (live s) []). generalize (inbox s).
    induction l as [|e l IH]; intros s0; cbn [fold_left]; [apply grown_refl|].
    eapply grown_trans; [apply grown_dispatch|apply IH].
  - injection H as <-. unfold Action.check_timeouts. proj. apply grown_abandon.
  - injection H as <-. apply grown_refl.
  - injection H as <-. destruct (existsb _ _); apply grown_refl.
  - injection H as <-. destruct (existsb _ _); apply grown_refl.
  - injection H as <-. apply grown_refl.
Qed.
Lemma grown_run ops : forall s s', run s ops = Some s' -> grown (out s) (out s').
Proof.
  induction ops as [|o ops IH]; intros s s' H; cbn [Action.run] in H; [injection H as <-; apply grown_refl|].
  destruct (step s o) as [s1|] eqn:E; [|discriminate]. eapply grown_trans; [eapply grown_step, E|now apply IH].
Qed.

Lemma queued_now q : forall s, now (start_queued q s) = now s.
Proof.
  induction q as [|r q IH]; intros s; cbn [Action.start_queued]; auto. destruct (has_slot s); auto.
  now rewrite IH, accept_now.
Qed.
Lemma dispatch_now s e : now (dispatch s e) = now s.
Proof.
  destruct e; cbn [Action.dispatch]; auto.
  - unfold Action.complete, Action.process_queue. rewrite queued_now. destruct o; reflexivity.
  - unfold Action.abort_silent, Action.process_queue. now rewrite queued_now.
Qed.
Lemma step_now s o s' : step s o = Some s' -> (now s <= now s')%N.
Proof.
  intros H. destruct o; cbn [Action.step] in H.
  - injection H as <-. unfold Action.handle_goal. cbv zeta. set (s1 := count s 1 0 0 0 0 0 0).
    change (now s) with (now s1). enough (now (handle_goal s r) = now s1) as E by (unfold Action.handle_goal in E; cbv zeta in E; fold s1 in E; rewrite E; lia).
    unfold Action.handle_goal. cbv zeta. fold s1.
    destruct (negb _); auto. destruct (has_slot s1); [apply accept_now|].
    destruct (pol cfg); auto.
    + destruct (0 <? _); auto. destruct (oldest _ _); auto. now rewrite accept_now.
    + destruct (lowest _ _) as [[i p]|]; auto. destruct (_ <? _)%N; auto. now rewrite accept_now.
    + destruct (_ <? _); auto.
  - refine (cancel_pres cancel_ok order (fun s1 => (now s <= now s1)%N) _ _ _ _ _ H (N.le_refl _)).
    intros s0 i G. rewrite cancel_one_eq. destruct (find _ _).
    + destruct (cancel_ok i); exact G.
    + destruct (_ && _); exact G.
  - injection H as <-. unfold Action.drain. change (now s) with (now (set_threads s (threads s) (live s) [])).
    generalize (set_threads s (threads s) (live s) []). generalize (inbox s).
    induction l as [|e l IH]; intros s0; cbn [fold_left]; [lia|].
    rewrite <- (dispatch_now s0 e). apply IH.
  - injection H as <-. apply N.le_refl.
  - injection H as <-. proj. lia.
  - injection H as <-. destruct (existsb _ _); apply N.le_refl.
  - injection H as <-. destruct (existsb _ _); apply N.le_refl.
  - injection H as <-. apply N.le_refl.
Qed.

Lemma groups_result gs : Forall group gs -> forall i s, In (MStatus i s) (concat gs) ->
  s = Succeeded \/ s = Preempted -> In (MResult i s) (concat gs).
Proof.
  induction 1 as [|ms gs G F IH]; intros i s K Q; cbn [concat] in *; [destruct K|].
  apply in_app_or in K as [K|K]; apply in_or_app; [|right; now apply IH]. left.
  destruct G as [(j & x & ->)|[(j & o & ->)|(j & t & -> & N1 & N2)]]; cbn [In] in *.
  - destruct K as [K|[]]. discriminate.
  - destruct K as [K|[K|[]]]; [discriminate|]. injection K as <- <-. now left.
  - destruct K as [K|[]]. injection K as <- <-. tauto.
Qed.
Lemma groups_status gs : Forall group gs -> forall i s, In (MResult i s) (concat gs) ->
  In (MStatus i s) (concat gs) /\ terminal s = true /\ s <> Rejected.
Proof.
  induction 1 as [|ms gs G F IH]; intros i s K; cbn [concat] in *; [destruct K|].
  apply in_app_or in K as [K|K].
  - destruct G as [(j & x & ->)|[(j & o & ->)|(j & t & -> & N1 & N2)]]; cbn [In] in K.
    + destruct K as [K|[]]. discriminate.
    + destruct K as [K|[K|[]]]; [|discriminate]. injection K as <- <-.
      split; [apply in_or_app; left; cbn; tauto|]. split; destruct o; (reflexivity || discriminate).
    + destruct K as [K|[]]. discriminate.
  - destruct (IH i s K) as (A & C). split; [|exact C]. apply in_or_app. now right.
Qed.
Lemma status_has_result ops s i t : run start ops = Some s -> In (MStatus i t) (out s) ->
  t = Succeeded \/ t = Preempted -> In (MResult i t) (out s).
Proof. intros R. destruct (grown_run ops _ _ R) as (gs & F & ->). cbn [out start app]. now apply groups_result. Qed.
Lemma result_has_status ops s i t : run start ops = Some s -> In (MResult i t) (out s) ->
  In (MStatus i t) (out s) /\ terminal t = true /\ t <> Rejected.
Proof. intros R. destruct (grown_run ops _ _ R) as (gs & F & ->). cbn [out start app]. now apply groups_status. Qed.

(** *** Start before end *)
Definition fine (o : list msg) (m : msg) : Prop :=
  match m with
  | MStatus i Active => terminals i o = 0
  | MResult i _ => timeout cfg = None -> terminals i o = 0
  | _ => True
  end.
Inductive Ord : list msg -> Prop :=
| ord_nil : Ord []
| ord_snoc o m : Ord o -> fine o m -> Ord (o ++ [m]).
Lemma Ord_split o : Ord o -> forall a m b, o = a ++ m :: b -> fine a m.
Proof.
  induction 1 as [|o m O IH F]; intros a x b E; [now destruct a|].
  destruct b as [|y b _] using rev_ind.
  - apply app_inj_tail in E as [-> ->]. exact F.
  - rewrite app_comm_cons, app_assoc in E. apply app_inj_tail in E as [E _]. now apply (IH a x b).
Qed.
Lemma Ord_status o i s : Ord o -> s <> Active -> Ord (o ++ [MStatus i s]).
Proof. intros O N. constructor; auto. destruct s; try exact Logic.I. now contradiction N. Qed.

Definition OJ ids lim ev s : Prop := J ids lim ev s /\ Ord (out s).
Lemma OJ_reject ids r lim ev s : OJ ids (r :: lim) ev s -> OJ ids lim ev (reject s (r_id r)).
Proof.
  intros [A C]. split; [now apply J_reject|]. unfold reject. proj. apply Ord_status; auto. discriminate.
Qed.
Lemma OJ_accept ids r lim ev s : OJ ids (r :: lim) ev s -> OJ ids lim ev (accept s r).
Proof.
  intros [A C]. split; [now apply J_accept|].
  assert (terminals (r_id r) (out s) = 0) as T0.
  { destruct (j_ok _ _ _ _ _ A (r_id r)) as (_ & O2 & _). apply O2. unfold wait. apply in_or_app. right. now left. }
  unfold Action.accept. destruct (mem _ _ _); [proj; apply Ord_status; auto; discriminate|].
  destruct has_exec; [destruct (spawns r)|]; proj.
  - constructor; auto.
  - apply Ord_status; [|discriminate]. now constructor.
  - now constructor.
Qed.
Lemma OJ_queued ids ev q : forall s, queue s = [] -> OJ ids q ev s -> OJ ids [] ev (start_queued q s).
Proof.
  induction q as [|r q IH]; intros s Qs I; auto. cbn [Action.start_queued].
  destruct (has_slot s).
  - apply IH; [rewrite accept_queue; auto|now apply OJ_accept].
  - destruct I as [A C]. split; [now apply J_requeue|exact C].
Qed.
Lemma OJ_dispatch ids e ev s : OJ ids [] (e :: ev) s -> OJ ids [] ev (dispatch s e).
Proof.
  intros [A C]. split; [now apply J_dispatch|].
  assert (timeout cfg = None -> terminals (ev_id e) (out s) = 0) as T0.
  { intros To. pose proof (j_b _ _ _ _ _ A) as Bs.
    assert (In (ev_id e) (keysN (active s))) as Ja by (apply (b_ta _ _ Bs), (b_et _ _ Bs); now left).
    apply in_keysN in Ja as (g & Jg). destruct (j_ok _ _ _ _ _ A (ev_id e)) as (O1 & _).
    destruct (O1 g Jg) as (Z1 & _ & _ & Z4). now rewrite (Z4 To) in Z1. }
  destruct e; cbn [Action.dispatch ev_id] in *.
  - proj. now constructor.
  - (* the state in which the queue is served satisfies J, see J_dispatch *)
    unfold Action.complete. cbv zeta. unfold Action.process_queue.
    match goal with |- context [Action.start_queued _ _ _ ?q ?s0] =>
      enough (OJ ids q ev s0) as K by (apply (OJ_queued ids ev q s0); [reflexivity|exact K]) end.
    split.
    + apply J_unqueue. eapply (J_end cfg cancel_ok ids [] (Completed id o) ev s);
        [reflexivity|exact A|destruct o; reflexivity|destruct o; reflexivity|destruct o; reflexivity
        |destruct o; reflexivity|destruct o; reflexivity| | | | |destruct o; proj; lia|destruct o; proj; lia|].
      * cbn [ev_id In]. intuition (subst; auto).
      * cbn [ev_id]. unfold terminals. cbn. rewrite N.eqb_refl. now destruct o.
      * cbn [ev_id]. unfold results. cbn. rewrite N.eqb_refl. cbn. lia.
      * cbn [ev_id]. unfold starts. cbn. now destruct o.
      * destruct o; proj; lia.
    + proj. match goal with |- Ord (?x ++ _) => replace x with (out s) by (destruct o; reflexivity) end.
      change [?a; ?b] with ([a] ++ [b]). rewrite app_assoc. apply Ord_status; [|destruct o; discriminate].
      now constructor.
  - unfold Action.abort_silent. cbv zeta. unfold Action.process_queue.
    match goal with |- context [Action.start_queued _ _ _ ?q ?s0] =>
      enough (OJ ids q ev s0) as K by (apply (OJ_queued ids ev q s0); [reflexivity|exact K]) end.
    split.
    + apply J_unqueue. eapply (J_end cfg cancel_ok ids [] (Panicked id) ev s);
        [reflexivity|exact A|reflexivity|reflexivity|reflexivity|reflexivity|reflexivity| | | | |proj; lia|proj; lia|].
      * cbn [ev_id In]. intuition (subst; auto).
      * cbn [ev_id]. unfold terminals. cbn. now rewrite N.eqb_refl.
      * cbn. lia.
      * reflexivity.
      * proj; lia.
    + proj. apply Ord_status; auto. discriminate.
Qed.
Lemma OJ_step ids s o s' : OJ ids [] (inbox s) s -> step s o = Some s' -> o <> Shutdown ->
  (forall r, o = Goal r -> ~ In (r_id r) ids) -> OJ (ids ++ goal_ids [o]) [] (inbox s') s'.
Proof.
  intros [A C] H Ns Nw.
  pose proof (J_step cfg wants cancel_ok has_exec spawns order ord ids s o s' A H Ns Nw) as A'.
  split; [exact A'|]. clear A'.
  destruct o; cbn [Action.step] in H.
  - injection H as <-. specialize (Nw r eq_refl).
    pose proof (J_receive cfg wants cancel_ok spawns ids [] (inbox s) s r A Nw) as I1. 
    unfold Action.handle_goal. cbv zeta. set (s1 := count s 1 0 0 0 0 0 0) in *.
    assert (OJ (ids ++ [r_id r]) [r] (inbox s) s1) as I by (split; auto).
    assert (forall i, OJ (ids ++ [r_id r]) [r] (inbox s) (preempt s1 i)) as Ip.
    { intros i. split; [apply J_flag; auto|exact C]. }
    assert (Ord (out (reject s1 (r_id r)))) as Ir by (eapply OJ_reject; exact I).
    destruct (negb _); auto.
    destruct (has_slot s1); [eapply OJ_accept, I|].
    destruct (pol cfg); auto.
    + destruct (0 <? _); auto. destruct (oldest _ _); auto. eapply OJ_accept, Ip.
    + destruct (lowest _ _) as [[i pr]|]; auto. destruct (_ <? _)%N; auto. eapply OJ_accept, Ip.
    + destruct (_ <? _); auto.
  - refine (cancel_pres cancel_ok order (fun s1 => Ord (out s1)) _ _ _ _ _ H C).
    intros s0 i O. rewrite cancel_one_eq. destruct (find _ _).
    + destruct (cancel_ok i); auto. proj. apply Ord_status; auto. discriminate.
    + destruct (_ && _); auto.
  - injection H as <-.
    enough (OJ ids [] (inbox (drain s)) (drain s)) as K by apply K.
    apply (drain_pres cfg has_exec spawns (OJ ids [])); [| |split; auto].
    + intros e ev s1. apply OJ_dispatch.
    + intros ev s1 [I O]. split; [|exact O]. apply (J_same cfg ids [] ev s1); auto. apply (B_same ev s1); auto. apply I.
  - injection H as <-. unfold Action.check_timeouts. proj. revert C. generalize (out s).
    induction (to_abandon cfg order s) as [|i l IH]; intros o O; cbn [map]; [now rewrite app_nil_r|].
    change (MStatus i Aborted :: ?x) with ([MStatus i Aborted] ++ x). rewrite app_assoc. apply IH.
    apply Ord_status; auto. discriminate.
  - injection H as <-. exact C.
  - injection H as <-. destruct (existsb _ _); exact C.
  - injection H as <-. destruct (existsb _ _); exact C.
  - injection H as <-. exact C.
Qed.
Lemma OJ_run ops : forall ids s s', OJ ids [] (inbox s) s -> run s ops = Some s' -> no_shutdown ops ->
  NoDup (ids ++ goal_ids ops) -> OJ (ids ++ goal_ids ops) [] (inbox s') s'.
Proof.
  induction ops as [|o ops IH]; intros ids s s' I H Ns Nd; cbn [Action.run] in H.
  - injection H as <-. cbn. now rewrite app_nil_r.
  - destruct (step s o) as [s1|] eqn:E; [|discriminate]. rewrite goal_ids_cons, app_assoc in *.
    apply (IH _ s1); auto.
    + apply (OJ_step ids s o s1); auto.
      * intros ->. apply Ns. now left.
      * intros r -> K. rewrite <- app_assoc in Nd. apply NoDup_remove_2 in Nd. apply Nd.
        apply in_or_app. now left.
    + intros K. apply Ns. now right.
Qed.
Lemma OJ_start : OJ [] [] [] start.
Proof. split; [apply J_start; auto|constructor]. Qed.
End Server.
