(** C94-C97: configuring nodes. *)
From Coq Require Import String Permutation.
From Verif Require Import Base.Prelude Base.Bytes Base.Str Model.FailurePolicy Model.VirtualTime Model.Builder Spec.BuilderSpec
  Proofs.VirtualTimeProofs Proofs.BuilderProofs.
Open Scope list_scope.
Local Open Scope N_scope.

(** C94: two chains of builder calls that say the same about every setting build the same node, or are refused
    alike, however the calls about different settings are interleaved. *)
Theorem C94_order_free cs1 cs2 : (forall k, about k cs1 = about k cs2) -> build cs1 = build cs2.
Proof. intros H. unfold build. rewrite !fold_reg, (order_free _ _ H). reflexivity. Qed.
Print Assumptions C94_order_free.
Example C94_order_ex :
  let a := [CRate (Hz 100 1); CBudget 500; CNoAlloc; CBudget 700] in
  let b := [CBudget 500; CNoAlloc; CBudget 700; CRate (Hz 100 1)] in
  a <> b /\ (forall k, about k a = about k b) /\ exists r, build a = Built r.
Proof. split; [discriminate|]. split; [intros []; reflexivity|]. vm_compute. eauto. Qed.

(** C94: exactly which chains are accepted. *)
Theorem C94_accepts cs : wf cs ->
  (exists r, build cs = Built r) <->
  match asked_class cs with
  | Some k => k <> Event [] /\ asked_budget cs = None /\ asked_deadline cs = None /\ ~ In CNoAlloc cs /\
              asked_fresh cs = []
  | None => (~ timed cs /\ ~ In CNoAlloc cs) \/
            (timed cs /\ asked_fresh cs = [] /\ exists b d, timing cs b d /\ usable b /\ usable d)
  end.
Proof. exact (accepts cs). Qed.
Print Assumptions C94_accepts.

(** C94: what an accepted chain builds. *)
Theorem C94_built cs r : wf cs -> build cs = Built r ->
  asked_all cs r /\
  match asked_class cs with
  | Some k => r_class r = k /\ r_rt r = false /\ r_budget r = None /\ r_deadline r = None
  | None => (timed cs /\ r_class r = RtClass /\ r_rt r = true /\ timing cs (r_budget r) (r_deadline r) /\
             usable (r_budget r) /\ usable (r_deadline r) /\ r_deadline r <> None) \/
            (~ timed cs /\ r_class r = BestEffort /\ r_rt r = false /\ r_budget r = None /\ r_deadline r = None)
  end.
Proof. exact (built_all cs r). Qed.
Print Assumptions C94_built.

(** C94: a check that was asked for and accepted is one that will run. *)
Theorem C94_in_force cs r : wf cs -> build cs = Built r ->
  (In CNoAlloc cs -> r_class r = RtClass) /\
  (asked_fresh cs <> [] -> r_class r = BestEffort) /\
  (r_budget r <> None \/ r_deadline r <> None -> r_class r = RtClass) /\
  (forall t, r_class r = Event t -> t <> []).
Proof.
  intros W H. destruct (built_all cs r W H) as [_ B].
  pose proof (proj1 (accepts cs W) (ex_intro _ r H)) as A.
  destruct (asked_class cs) as [k|].
  - destruct A as (A1 & _ & _ & A4 & A5), B as (B1 & _ & B3 & B4).
    split; [contradiction|]. split; [congruence|]. split; [intros [|]; congruence|]. intros t E. congruence.
  - destruct B as [(T & B1 & _)|(T & B1 & _ & B3 & B4)].
    + destruct A as [[A _]|(_ & A & _)]; [contradiction|]. rewrite B1.
      split; [auto|]. split; [congruence|]. split; [auto|]. discriminate.
    + destruct A as [[_ A]|[A _]]; [|contradiction]. rewrite B1.
      split; [contradiction|]. split; [auto|]. split; [intros [|]; congruence|]. discriminate.
Qed.
Print Assumptions C94_in_force.
Example C94_ex : exists r,
  wf [CFresh [65] 5; COrder 3] /\ build [CFresh [65] 5; COrder 3] = Built r /\ r_class r = BestEffort /\
  build [CFresh [65] 5; CRate (Hz 10 1)] = Refused EFresh /\ build [CCompute; CNoAlloc] = Refused ENoAlloc /\
  build [COn []] = Refused ETopic /\ build [CAsync; CBudget 5] = Refused ENotRt /\
  build [CBudget 0] = Refused EDeadline.
Proof.
  eexists. split; [intros c [<-|[<-|[]]]; exact I|]. split; [reflexivity|].
  repeat (split; [reflexivity|]). reflexivity.
Qed.

(** Not so: a wrong value is reported as an error.  Any rate so low that 80% of its period exceeds the longest
    [Duration] makes [build] panic, although [.hz()] accepts it. *)
Theorem C94_slow_rate_refuted f :
  0 < hz_num f -> (dur_max + 1) * hz_num f <= 800000000 * hz_den f -> build [CRate f] = Panicked.
Proof.
  intros Hn H. assert (0 < hz_den f).
  { destruct (N.eq_0_gt_0_cases (hz_den f)) as [E|]; [|assumption]. rewrite E, N.mul_0_r in H.
    assert (0 < (dur_max + 1) * hz_num f) by (apply N.mul_pos_pos; [apply N.add_pos_r; reflexivity|assumption]). lia. }
  apply panics; [intros c [<-|[]]; split; assumption|].
  split; [reflexivity|]. exists f. split; [reflexivity|]. left. split; [reflexivity|].
  unfold budget_default, from_ns.
  assert (dur_max < (2 * (800000000 * hz_den f) + hz_num f) / (2 * hz_num f)) as E.
  { apply N.lt_le_trans with (dur_max + 1); [apply N.lt_add_pos_r; reflexivity|].
    apply N.div_le_lower_bound; [lia|]. generalize dependent dur_max. intros m H. nia. }
  apply N.ltb_lt in E. rewrite E. reflexivity.
Qed.
Print Assumptions C94_slow_rate_refuted.
(** [1e-30.hz()]. *)
Example C94_slow_ex : build [CRate (Hz 1 1000000000000000000000000000000)] = Panicked.
Proof. apply C94_slow_rate_refuted; vm_compute; [reflexivity|discriminate]. Qed.
(** The exact condition. *)
Theorem C94_panics_exactly cs : wf cs -> (build cs = Panicked <->
  asked_class cs = None /\ exists f, asked_rate cs = Some f /\
    ((asked_budget cs = None /\ forall d, share 80 f d -> dur_max < d) \/
     (asked_deadline cs = None /\ forall d, share 95 f d -> dur_max < d))).
Proof.
  intros W. rewrite (panics cs W).
  assert (E1 : forall f, 0 < hz_num f -> (budget_default f = None <-> forall d, share 80 f d -> dur_max < d)).
  { intros f Hn. split.
    - intros E d S. destruct (N.le_gt_cases d dur_max) as [L|L]; [|exact L].
      pose proof (proj2 (budget_share f d Hn) (conj S L)). congruence.
    - intros H. destruct (budget_default f) as [d|] eqn:E; [|reflexivity].
      apply (budget_share f d Hn) in E as [S L]. specialize (H d S). lia. }
  assert (E2 : forall f, 0 < hz_num f -> (deadline_default f = None <-> forall d, share 95 f d -> dur_max < d)).
  { intros f Hn. split.
    - intros E d S. destruct (N.le_gt_cases d dur_max) as [L|L]; [|exact L].
      pose proof (proj2 (deadline_share f d Hn) (conj S L)). congruence.
    - intros H. destruct (deadline_default f) as [d|] eqn:E; [|reflexivity].
      apply (deadline_share f d Hn) in E as [S L]. specialize (H d S). lia. }
  split; intros (K & f & R & H); (split; [exact K|]); exists f; (split; [exact R|]);
    destruct (wf_rate cs f W R) as [Hn _]; specialize (E1 f Hn); specialize (E2 f Hn); tauto.
Qed.
Print Assumptions C94_panics_exactly.

(** C95: with only a rate, budget <= deadline <= period: an overrun is reported no later than a miss, and a node
    that meets its deadline is done before its next tick is due. *)
Theorem C95_rate_only f r p : 0 < hz_num f -> 0 < hz_den f -> build [CRate f] = Built r -> period f = Some p ->
  exists b d, r_budget r = Some b /\ r_deadline r = Some d /\ 0 < b /\ b <= d /\ d <= p /\
              share 80 f b /\ share 95 f d /\ r_class r = RtClass /\
              (forall t, misses r t = true -> overruns r t = true).
Proof.
  intros Hn Hd H P. assert (W : wf [CRate f]) by (intros c [<-|[]]; split; assumption).
  destruct (built_all _ _ W H) as [_ B]. cbn [asked_class last_some] in B.
  destruct B as [(_ & C & _ & T & UB & UD & _)|(T & _)]; [|exfalso; apply T; left; discriminate].
  unfold timing in T. cbn [asked_budget asked_rate asked_deadline last_some] in T.
  destruct T as [(b & Eb & Sb) (d & Ed & Sd)]. exists b, d. apply (period_share f p Hn) in P as [Sp _].
  rewrite Eb, Ed in *. cbn [usable] in UB, UD.
  assert (b <= d) by (eapply share_le; eauto; lia). assert (d <= p) by (eapply (share_le 95 100); eauto; lia).
  repeat (split; [first [reflexivity|assumption|lia]|]).
  intros t. unfold misses, overruns. rewrite Eb, Ed, !N.ltb_lt. lia.
Qed.
Print Assumptions C95_rate_only.
Example C95_rate_ex : exists r, build [CRate (Hz 100 1)] = Built r /\ r_budget r = Some 8000000 /\
  r_deadline r = Some 9500000 /\ period (Hz 100 1) = Some 10000000.
Proof. eexists. split; [vm_compute; reflexivity|]. vm_compute. auto. Qed.

(** C95: a budget without a rate and without a deadline is the hard deadline. *)
Theorem C95_budget_alone cs r b : wf cs -> build cs = Built r -> asked_budget cs = Some b -> asked_rate cs = None ->
  asked_deadline cs = None -> forall t, misses r t = (b <? t) /\ overruns r t = (b <? t).
Proof.
  intros W H EB ER ED t. destruct (built_all _ _ W H) as [_ B]. destruct (asked_class cs).
  - pose proof (proj1 (accepts cs W) (ex_intro _ r H)) as A. exfalso.
    destruct (asked_class cs) eqn:K; [destruct A as (_ & A & _); congruence|].
    destruct (built_all _ _ W H) as [_ B']. rewrite K in B'. destruct B as (B & _ & BB & _).
    destruct B' as [(_ & _ & _ & T & _)|(T & _)].
    + unfold timing in T. rewrite EB in T. destruct T as [T _]. congruence.
    + apply T. right. left. congruence.
  - destruct B as [(_ & _ & _ & T & _)|(T & _)].
    + unfold timing in T. rewrite EB, ER, ED in T. destruct T as [T1 T2]. unfold misses, overruns.
      rewrite T1, T2. auto.
    + exfalso. apply T. right. left. congruence.
Qed.
Print Assumptions C95_budget_alone.
(** Not so: "the user's budget IS their hard deadline" once a rate is given.  The deadline is then 95% of the
    period whatever the budget: a smaller budget can be overrun without [on_miss] firing, and a larger one is
    accepted although the node misses its deadline while within its budget. *)
Theorem C95_budget_with_rate_refuted f b r : 0 < hz_num f -> 0 < hz_den f -> b <= dur_max ->
  build [CRate f; CBudget b] = Built r ->
  exists d, share 95 f d /\
    (forall t, misses r t = (d <? t)) /\
    (forall t, b < t <= d -> overruns r t = true /\ misses r t = false) /\
    (forall t, d < t <= b -> overruns r t = false /\ misses r t = true).
Proof.
  intros Hn Hd Hb H. assert (W : wf [CRate f; CBudget b]) by (intros c [<-|[<-|[]]]; [split|]; assumption).
  destruct (built_all _ _ W H) as [_ B]. cbn [asked_class last_some] in B.
  destruct B as [(_ & _ & _ & T & _)|(T & _)]; [|exfalso; apply T; left; discriminate].
  unfold timing in T. cbn [asked_budget asked_rate asked_deadline last_some] in T.
  destruct T as [Eb (d & Ed & Sd)]. exists d. split; [exact Sd|]. unfold misses, overruns. rewrite Eb, Ed.
  split; [reflexivity|].
  split; intros t Ht; rewrite N.ltb_lt, N.ltb_ge; lia.
Qed.
Print Assumptions C95_budget_with_rate_refuted.
(** ... and every non-zero budget is accepted with every rate of at most a gigahertz whose period is representable:
    also one longer than the period. *)
Theorem C95_budget_over_period_refuted f b : 0 < hz_num f -> 0 < hz_den f -> hz_num f <= 1000000000 * hz_den f ->
  1000000000 * hz_den f < dur_max * hz_num f -> 0 < b <= dur_max ->
  exists r, build [CRate f; CBudget b] = Built r /\ r_budget r = Some b.
Proof.
  intros Hn Hd Hg Hp Hb. assert (W : wf [CRate f; CBudget b]) by (intros c [<-|[<-|[]]]; [split; assumption|cbn; lia]).
  assert (D : exists d, deadline_default f = Some d /\ 0 < d).
  { unfold deadline_default, from_ns.
    set (q := (2 * (950000000 * hz_den f) + hz_num f) / (2 * hz_num f)).
    assert (q <= dur_max).
    { apply N.div_le_upper_bound; [lia|].
      assert (10 * hz_num f <= dur_max * hz_num f) by (apply N.mul_le_mono_r; discriminate).
      replace (2 * hz_num f * dur_max) with (2 * (dur_max * hz_num f)) by (generalize dur_max; intros; lia).
      generalize dependent (dur_max * hz_num f). intros m. intros. clear - Hg Hp H. lia. }
    assert (1 <= q) by (apply N.div_le_lower_bound; lia).
    assert (dur_max <? q = false) as -> by (apply N.ltb_ge; assumption). exists q. split; [reflexivity|lia]. }
  destruct D as (d & D & Dp). apply (deadline_share f d Hn) in D as [Sd Dm].
  assert (A : exists r, build [CRate f; CBudget b] = Built r).
  { apply accepts; [exact W|]. cbn [asked_class last_some]. right. split; [left; discriminate|].
    split; [reflexivity|]. exists (Some b), (Some d). unfold timing, usable.
    cbn [asked_budget asked_rate asked_deadline last_some].
    split; [split; [reflexivity|eauto]|]. split; [exact Hb|]. split; [exact Dp|exact Dm]. }
  destruct A as [r H]. exists r. split; [exact H|]. destruct (built_all _ _ W H) as [_ B].
  cbn [asked_class last_some] in B. destruct B as [(_ & _ & _ & T & _)|(T & _)]; [|exfalso; apply T; left; discriminate].
  unfold timing in T. cbn [asked_budget asked_rate asked_deadline last_some] in T. tauto.
Qed.
Print Assumptions C95_budget_over_period_refuted.
(** 100 Hz with a 1 ms budget and [Miss::Stop]: a 5 ms tick overruns the budget fivefold and no deadline is missed;
    with a budget of a second, a 10 ms tick is within budget and misses. *)
Example C95_ex : exists r1 r2,
  build [CRate (Hz 100 1); CBudget 1000000; CMiss MissStop] = Built r1 /\
  build [CRate (Hz 100 1); CBudget 1000000000] = Built r2 /\
  overruns r1 5000000 = true /\ misses r1 5000000 = false /\ overruns r2 10000000 = false /\ misses r2 10000000 = true.
Proof. eexists. eexists. split; [vm_compute; reflexivity|]. split; [vm_compute; reflexivity|]. vm_compute. auto. Qed.

(** C96: whatever names nodes are given, the names the scheduler keeps contain no control character, and names
    without any are kept as they are. *)
Theorem C96_clean l : length (n_list (add_all l)) = length l /\
  (forall i s, nth_error l i = Some s -> exists e, nth_error (n_list (add_all l)) i = Some e /\
     (forall c, In c e -> 32 <= c /\ c <> 127 /\ ~ (128 <= c <= 159)) /\
     ((forall c, In c s -> 32 <= c /\ c <> 127 /\ ~ (128 <= c <= 159)) -> e = s)).
Proof.
  destruct (NInv_all l) as (E & _). rewrite E. split; [apply map_length|]. intros i s H. exists (escape s).
  split; [rewrite nth_error_map, H; reflexivity|]. split.
  - intros c Hc. apply escape_clean in Hc. unfold control in Hc. apply orb_false_iff in Hc as [H1 H2].
    apply N.ltb_ge in H1. apply andb_false_iff in H2 as [H2|H2]; apply N.leb_gt in H2; lia.
  - intros H1. apply escape_id. intros c Hc. specialize (H1 c Hc). unfold control. apply orb_false_iff.
    split; [apply N.ltb_ge; lia|]. apply andb_false_iff. destruct (N.le_gt_cases c 126).
    + left. apply N.leb_gt. lia.
    + right. apply N.leb_gt. lia.
Qed.
Print Assumptions C96_clean.
(** C96: a scheduler starts only if the names it keeps are pairwise different; otherwise the error names one that two
    nodes share. *)
Theorem C96_distinct l :
  (start (add_all l) = None <-> NoDup (n_list (add_all l))) /\
  (forall d, start (add_all l) = Some d -> exists i j, i <> j /\ nth_error (n_list (add_all l)) i = Some d /\
                                                     nth_error (n_list (add_all l)) j = Some d).
Proof.
  destruct (NInv_all l) as (E & I2 & I3). unfold start. rewrite E. split; [exact I2|].
  intros d Hd. destruct (I3 d Hd) as (a & i & j & b & D & Hi & Hj & Ea & Eb). exists i, j.
  rewrite !nth_error_map, Hi, Hj. cbn. rewrite Ea, Eb. auto.
Qed.
Print Assumptions C96_distinct.
(** Not so: nodes with different names can run together.  A name with a control character is kept as the same text
    as the name that spells the escape out, so the scheduler refuses to start with both. *)
Theorem C96_different_names_refuted a c b : control c = true ->
  a ++ c :: b <> a ++ escaped c ++ b /\ start (add_all [a ++ c :: b; a ++ escaped c ++ b]) <> None.
Proof.
  intros H. split.
  - intros E. apply app_inv_head in E. apply (f_equal (@length N)) in E. rewrite app_length in E. cbn in E. lia.
  - intros E. apply C96_distinct in E. destruct (NInv_all [a ++ c :: b; a ++ escaped c ++ b]) as (L & _).
    rewrite L in E. cbn [map] in E. rewrite <- (escape_collide a c b H) in E. inversion E as [|? ? N1 _]. apply N1. left.
    reflexivity.
Qed.
Print Assumptions C96_different_names_refuted.
Example C96_ex : escape [97; 10; 27; 98] = bs "a\x0a\x1bb" /\ start (add_all [bs "a"; bs "b"]) = None /\
  start (add_all [bs "a"; bs "b"; bs "a"]) = Some (bs "a").
Proof. vm_compute. auto. Qed.

(** C97: every RT node's thread has the priority, the core, the period and the timing the node asked for.  RT nodes do
    not share threads ([rt_threads], see C93); [regs] are the registrations and [rt] the indices of the RT nodes. *)
Definition node_at (regs : list reg) (x : nat) : reg := nth x regs reg0.
Theorem C97_own_settings perm graph fallback cpus chains regs rt ts :
  (forall l, Permutation (perm l) l) ->
  Forall2 (fun cs r => wf cs /\ build cs = Built r) chains regs ->
  (forall x, In x rt -> (x < length regs)%nat /\ r_class (node_at regs x) = RtClass) ->
  start_pool fallback cpus 0 (map (map (node_at regs)) (rt_threads perm graph rt)) = Some ts ->
  length ts = length rt /\
  forall i x cs, nth_error rt i = Some x -> nth_error chains x = Some cs -> exists p t,
    nth_error ts i = Some (p, t) /\
    match asked_rate cs with Some f => share 100 f p | None => p = fallback end /\
    t_prio t = over (asked_prio cs) 80%Z /\
    t_cpus t = match asked_core cs, cpus with
               | Some c, _ => [c]
               | None, [] => []
               | None, _ => [nth (i mod length cpus) cpus 0]
               end /\
    (forall f, In CEdf cs -> asked_rate cs = Some f -> exists b d,
       t_edf t = Some (b, d, 1000000000 * hz_den f / hz_num f) /\
       r_budget (node_at regs x) = Some b /\ r_deadline (node_at regs x) = Some d).
Proof.
  intros P F R S. rewrite (rt_threads_single perm graph rt P), map_map in S. cbn [map] in S.
  destruct (pool_single _ _ _ _ _ _ S) as [L N]. split; [exact L|].
  intros i x cs Hx Hc. destruct (R x (nth_error_In _ _ Hx)) as [Lx C].
  destruct (N i x Hx) as (p & HP & HT). rewrite Nat.add_0_l in HT. eexists p, _. split; [exact HT|].
  assert (B : wf cs /\ build cs = Built (node_at regs x)).
  { clear - F Hc Lx. revert x Hc Lx. unfold node_at.
    induction F as [|c r chains regs H F IH]; intros [|x] Hc Lx; cbn in *; try lia.
    - injection Hc as <-. exact H.
    - apply IH; [exact Hc|lia]. }
  destruct B as [W B]. unfold thread_period, fastest in HP. cbn [fold_left] in HP.
  destruct (built_all _ _ W B) as [(A1 & A2 & A3 & A4 & A5 & A6 & A7 & A8 & A9 & A10 & A11) D].
  split.
  { rewrite A2 in HP. destruct (asked_rate cs) as [f|] eqn:Hf; [|congruence].
    apply period_share in HP as [HP _]; [exact HP|]. exact (proj1 (wf_rate cs f W Hf)). }
  destruct (own_settings (match cpus with [] => [] | _ => [nth (i mod length cpus) cpus 0] end) cs _ W B C)
    as (T1 & T2 & T3).
  split; [exact T1|]. split; [rewrite T2; destruct (asked_core cs), cpus; reflexivity|]. exact T3.
Qed.
Print Assumptions C97_own_settings.
Example C97_ex : exists r s ts,
  let c1 := [CRate (Hz 1000 1); CPrio 95; CEdf; CCore 2] in let c2 := [CBudget 500; COrder 3] in
  Forall2 (fun cs r => wf cs /\ build cs = Built r) [c1; c2] [r; s] /\
  r_class r = RtClass /\ r_class s = RtClass /\
  start_pool 7 [4; 5] 0 (map (map (node_at [r; s])) (rt_threads (@rev nat) true [0; 1]%nat)) = Some ts /\
  ts = [(1000000, Thread 95 (Some (800000, 950000, 1000000)) [2]); (7, Thread 80 None [5])].
Proof.
  eexists. eexists. eexists. split.
  { constructor; [|constructor; [|constructor]].
    - split; [intros c [<-|[<-|[<-|[<-|[]]]]]; cbn; try exact I; lia|]. vm_compute. reflexivity.
    - split; [intros c [<-|[<-|[]]]; cbn; try exact I; discriminate|]. vm_compute. reflexivity. }
  split; [reflexivity|]. split; [reflexivity|]. split; vm_compute; reflexivity.
Qed.
(** Not so: a configuration that was accepted can be run.  A rate so low that its period exceeds the longest
    [Duration] is accepted when budget and deadline are explicit, and starting the threads then panics. *)
Theorem C97_slow_rate_refuted f b d fallback cpus : 0 < hz_num f -> 0 < hz_den f -> 0 < b <= dur_max ->
  0 < d <= dur_max -> (dur_max + 1) * hz_num f <= 1000000000 * hz_den f ->
  exists r, build [CRate f; CBudget b; CDeadline d] = Built r /\ start_pool fallback cpus 0 [[r]] = None.
Proof.
  intros Hn Hd Hb Hdl H.
  assert (W : wf [CRate f; CBudget b; CDeadline d]) by (intros c [<-|[<-|[<-|[]]]]; [split; assumption|cbn; lia|cbn; lia]).
  assert (A : exists r, build [CRate f; CBudget b; CDeadline d] = Built r).
  { apply accepts; [exact W|]. cbn [asked_class last_some]. right. split; [left; discriminate|].
    split; [reflexivity|]. exists (Some b), (Some d). split; [split; reflexivity|]. split; assumption. }
  destruct A as [r A]. exists r. split; [exact A|].
  destruct (built_all _ _ W A) as [(_ & A2 & _) _]. cbn [asked_rate last_some] in A2.
  cbn [start_pool sort_regs fold_right put_reg]. unfold thread_period, fastest. cbn [fold_left]. rewrite A2.
  assert (period f = None) as ->; [|reflexivity]. unfold period, from_ns.
  assert (dur_max < (2 * (1000000000 * hz_den f) + hz_num f) / (2 * hz_num f)) as E.
  { apply N.lt_le_trans with (dur_max + 1); [apply N.lt_add_pos_r; reflexivity|].
    apply N.div_le_lower_bound; [lia|]. clear - H. generalize dependent dur_max. intros m H. nia. }
  apply N.ltb_lt in E. rewrite E. reflexivity.
Qed.
Print Assumptions C97_slow_rate_refuted.
Example C97_slow_ex : exists r,
  build [CRate (Hz 1 1000000000000000000000000000000); CBudget 5; CDeadline 7] = Built r /\ start_pool 1 [] 0 [[r]] = None.
Proof. apply C97_slow_rate_refuted; vm_compute; try split; first [reflexivity|discriminate]. Qed.
(** Not so either: asking for [SCHED_DEADLINE] gets it or a message.  Without a rate it is dropped silently. *)
Theorem C97_edf_without_rate_refuted cpus cs r : wf cs -> build cs = Built r -> asked_rate cs = None ->
  t_edf (thread_of cpus [r]) = None.
Proof.
  intros W H R. destruct (built_all _ _ W H) as [(_ & A2 & _) _]. rewrite R in A2. cbn [thread_of t_edf].
  unfold edf_node. cbn [find]. rewrite A2. cbn [set]. rewrite andb_false_r. cbn. destruct (r_edf r || false); reflexivity.
Qed.
Print Assumptions C97_edf_without_rate_refuted.
Example C97_edf_ex : exists r, build [CBudget 500; CEdf] = Built r /\ r_class r = RtClass /\ r_edf r = true.
Proof. eexists. split; [vm_compute; reflexivity|]. auto. Qed.
