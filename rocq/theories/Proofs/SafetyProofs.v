From Verif Require Import Base.Prelude Model.Safety Spec.SafetySpec.

Module WdP.
Import Wd WdSpec.
Local Open Scope N_scope.

Lemma check_exact w now :
  3 * timeout w < 18446744073709551616 ->
  snd (check w now) = severity_of (now - last w) (timeout w).
Proof.
  intros H. unfold check, severity_of, u64.
  rewrite (N.mod_small (timeout w)) by lia.
  rewrite (N.mod_small (timeout w * 2)) by lia.
  rewrite (N.mod_small (timeout w * 3)) by lia.
  rewrite (N.mul_comm (timeout w) 2), (N.mul_comm (timeout w) 3).
  repeat case_match; reflexivity.
Qed.
Lemma check_keeps w now : timeout (fst (check w now)) = timeout w /\ last (fst (check w now)) = last w
  /\ base (fst (check w now)) = base w.
Proof. unfold check. repeat case_match; repeat split; reflexivity. Qed.
Lemma max_if k b : N.max k b = if k <? b then b else k.
Proof. destruct (N.ltb_spec k b); lia. Qed.
Lemma window_fits tmo ops : windows_fit tmo ops -> forall cur, 3 * cur < 18446744073709551616 ->
  3 * window tmo cur ops < 18446744073709551616.
Proof.
  intros [A B]. induction ops as [|[n|n|k] r IH]; intros cur C; cbn [window]; auto.
  - apply IH; auto. intros k J. apply B. now right.
  - apply IH; auto. intros k J. apply B. now right.
  - apply IH.
    + intros k' J. apply B. now right.
    + specialize (B k (or_introl eq_refl)). destruct (k <? tmo); lia.
Qed.
Lemma run_state ops : forall w,
  timeout (fst (run w ops)) = window (base w) (timeout w) ops /\ last (fst (run w ops)) = last_feed (last w) ops.
Proof.
  induction ops as [|o r IH]; intros w; [split; reflexivity|].
  cbn [run]. destruct (step w o) as [w1 s] eqn:E1. destruct (run w1 r) as [w2 ss] eqn:E2.
  specialize (IH w1). rewrite E2 in IH. cbn [fst] in *.
  destruct o as [n|n|k]; cbn [step] in E1.
  - inv E1. exact IH.
  - destruct (check w n) as [w' s'] eqn:E3. inv E1.
    pose proof (check_keeps w n) as (H1 & H2 & H3). rewrite E3 in H1, H2, H3. cbn [fst] in *.
    rewrite H1, H2, H3 in IH. exact IH.
  - inv E1. cbn [set_scale timeout base last] in IH. rewrite max_if in IH. exact IH.
Qed.
Lemma run_app a b w : snd (run w (a ++ b)) = snd (run w a) ++ snd (run (fst (run w a)) b).
Proof.
  revert w. induction a as [|o r IH]; intros w; [reflexivity|].
  cbn [app run]. destruct (step w o) as [w1 s]. specialize (IH w1).
  destruct (run w1 (r ++ b)) as [w2 ss] eqn:E2. destruct (run w1 r) as [w3 ss'] eqn:E3.
  cbn [fst snd] in *. rewrite IH. reflexivity.
Qed.
Lemma severity_mono e e' t : e <= e' -> (rank (severity_of e t) <= rank (severity_of e' t))%nat.
Proof. intros H. unfold severity_of. repeat case_match; cbn [rank]; bool_prop; lia. Qed.

Lemma expired_run ops : forall w,
  3 * timeout w < 18446744073709551616 -> windows_fit (base w) ops ->
  expired (fst (run w ops)) = true ->
  (expired w = true /\ forall n, ~ In (Feed n) ops) \/
  exists pre n post, ops = pre ++ Check n :: post /\ (forall m, ~ In (Feed m) post) /\
    window (base w) (timeout w) pre < n - last_feed (last w) pre.
Proof.
  induction ops as [|o r IH]; intros w Hw Hf H.
  - left. split; [exact H|]. intros n [].
  - cbn [run] in H. destruct (step w o) as [w1 s] eqn:E1. destruct (run w1 r) as [w2 ss] eqn:E2.
    specialize (IH w1). rewrite E2 in IH. cbn [fst] in *.
    assert (windows_fit (base w) r) as Hr by (split; [exact (proj1 Hf)|intros k J; apply (proj2 Hf); now right]).
    destruct o as [n|n|k]; cbn [step] in E1.
    + inv E1. destruct (IH Hw Hr H) as [[A B]|(pre & k & post & A & B & C)].
      * discriminate.
      * right. exists (Feed n :: pre), k, post. subst r. repeat split; auto.
    + destruct (check w n) as [w' s'] eqn:E3. inv E1.
      pose proof (check_keeps w n) as (H1 & H2 & H3). rewrite E3 in H1, H2, H3. cbn [fst] in *.
      rewrite H1, H2, H3 in IH.
      destruct (IH Hw Hr H) as [[A B]|(pre & k & post & A & B & C)].
      * unfold check, u64 in E3. rewrite (N.mod_small (timeout w)) in E3 by lia.
        destruct (N.leb_spec (n - last w) (timeout w)) as [L|L].
        -- inv E3. left. split; [exact A|]. intros m [HI|HI]; [discriminate|]. exact (B m HI).
        -- right. exists [], n, r. repeat split; auto.
      * right. exists (Check n :: pre), k, post. subst r. repeat split; auto.
    + inv E1. cbn [set_scale timeout base last expired] in IH. rewrite max_if in IH.
      assert (3 * (if k <? base w then base w else k) < 18446744073709551616) as Hk.
      { destruct Hf as [F1 F2]. specialize (F2 k (or_introl eq_refl)). destruct (k <? base w); auto. }
      destruct (IH Hk Hr H) as [[A B]|(pre & j & post & A & B & C)].
      * left. split; [exact A|]. intros m [HI|HI]; [discriminate|]. exact (B m HI).
      * right. exists (Scale k :: pre), j, post. subst r. repeat split; auto.
Qed.
End WdP.

Module LadderP.
Import Ladder LadderSpec.
Section R.
Context {rate : Type} (half : rate -> rate) (dflt : rate).
Notation tick := (tick half dflt).
Notation run := (run half dflt).
Notation evaluate := (evaluate half dflt).

Lemma n_missed_cons o os : n_missed (o :: os) = (if missed o then 1 else 0) + n_missed os.
Proof. unfold n_missed. cbn [filter]. destruct (missed o); reflexivity. Qed.
Lemma n_missed_app a b : n_missed (a ++ b) = n_missed a + n_missed b.
Proof. unfold n_missed. rewrite filter_app, app_length. reflexivity. Qed.
Lemma n_ok_cons o os : n_ok (o :: os) = (if ok o then 1 else 0) + n_ok os.
Proof. unfold n_ok. cbn [filter]. destruct (ok o); reflexivity. Qed.

(** Effects of the two monitor calls followed by [apply]. *)
Definition ev p n := let '(n', a) := evaluate p n in apply n' a.
Definition su p (n : node rate) := let '(n', a) := success p n in apply n' a.

Lemma tick_unfold p e b c n o :
  tick p e b c n o =
  if stopped n then n else
  let n1 := if b then
      let n' := match e with RtThread => record_tick (over o) n | MainLoop => n end in
      if over o && c then latch n' else n' else n in
  let n2 := if missed o then ev p (if c then latch (record_miss n1) else record_miss n1) else n1 in
  if ok o then su p n2 else n2.
Proof. reflexivity. Qed.

Ltac ev_cases p n :=
  unfold ev, Ladder.evaluate;
  destruct (kill_after p <=? misses n) eqn:?K, (isolate_after p <=? misses n) eqn:?I,
           (reduce_after p <=? misses n) eqn:?D, (warn_after p <=? misses n) eqn:?W;
  destruct n as [zs zo zc zm zr zi zt za zb zx]; cbn [stg orig recov misses nrate isolated stopped
    safe_calls shutdown_calls estop] in *; destruct zs; cbn.

Lemma ev_misses p n : misses (ev p n) = misses n.
Proof. ev_cases p n; reflexivity. Qed.
Lemma su_misses p n : misses (su p n) = misses n.
Proof.
  unfold su, success. destruct n as [s o c m r i t a b x]. cbn. destruct s; cbn; auto;
    destruct (recovery_ticks p <=? c + 1); cbn; auto. destruct o; reflexivity.
Qed.
Lemma ev_stage p n :
  (stg (ev p n) = stg n /\ stopped (ev p n) = stopped n) \/
  (stg (ev p n) = Killed /\ stopped (ev p n) = true /\ kill_after p <= misses n) \/
  (stg (ev p n) = Isolated /\ isolate_after p <= misses n /\ stopped (ev p n) = stopped n /\
     stg n <> Killed) \/
  (stg (ev p n) = RateReduced /\ reduce_after p <= misses n /\ stopped (ev p n) = stopped n /\
     (stg n = Normal \/ stg n = Warned)) \/
  (stg (ev p n) = Warned /\ warn_after p <= misses n /\ stopped (ev p n) = stopped n /\ stg n = Normal).
Proof.
  ev_cases p n; bool_prop; auto 10;
   try (right; left; repeat split; auto; fail);
   try (right; right; left; repeat split; auto; discriminate);
   try (right; right; right; left; repeat split; auto; fail);
   try (right; right; right; right; repeat split; auto; fail).
Qed.
Lemma su_stage p n :
  stopped (su p n) = stopped n /\
  (stg (su p n) = stg n \/
   (stg n = RateReduced /\ stg (su p n) = Normal) \/
   (stg n = Warned /\ stg (su p n) = Normal) \/
   (stg n = Isolated /\ stg (su p n) = RateReduced)).
Proof.
  unfold su, success. destruct n as [s o c m r i t a b x]. cbn. destruct s; cbn; auto 10;
    destruct (recovery_ticks p <=? c + 1); cbn; auto 10. destruct o; cbn; auto 10.
Qed.

Lemma latch_same n : stg (latch n) = stg n /\ misses (latch n) = @misses rate n /\
  stopped (latch n) = stopped n /\ orig (latch n) = orig n /\ nrate (latch n) = nrate n /\
  recov (latch n) = recov n.
Proof. repeat split. Qed.

(** *** Killed is final. *)
Lemma run_stopped p e b c os : forall n, stopped n = true -> run p e b c n os = n.
Proof.
  induction os as [|o r IH]; intros n H; [reflexivity|].
  cbn [Ladder.run]. rewrite tick_unfold, H. apply IH, H.
Qed.

Definition kinv (n : node rate) := stg n = Killed -> stopped n = true.

Lemma ev_kinv p n : kinv n -> kinv (ev p n).
Proof.
  unfold kinv. intros H K. destruct (ev_stage p n) as [[A B]|[(A&B&C)|[(A&B)|[(A&B)|(A&B)]]]];
    try congruence. rewrite B. apply H. congruence.
Qed.
Lemma su_kinv p n : kinv n -> kinv (su p n).
Proof.
  unfold kinv. intros H K. destruct (su_stage p n) as [A [B|[[B C]|[[B C]|[B C]]]]]; try congruence.
  rewrite A. apply H. congruence.
Qed.
Definition pre_miss (e : exec) (b c : bool) (o : outcome) (n : node rate) : node rate :=
  if b then
      let n' := match e with RtThread => record_tick (over o) n | MainLoop => n end in
      if over o && c then latch n' else n' else n.
Definition mid_miss (p : policy) (e : exec) (b c : bool) (o : outcome) (n : node rate) : node rate :=
  if missed o then ev p (if c then latch (record_miss (pre_miss e b c o n)) else record_miss (pre_miss e b c o n))
  else pre_miss e b c o n.
Lemma tick_unfold' p e b c n o :
  tick p e b c n o =
  if stopped n then n else
  if ok o then su p (mid_miss p e b c o n) else mid_miss p e b c o n.
Proof. reflexivity. Qed.

Lemma pre_budget (e : exec) (b c : bool) o n :
  let n1 := pre_miss e b c o n in
  stg n1 = stg n /\ @stopped rate n1 = stopped n /\ orig n1 = orig n /\ nrate n1 = nrate n /\
  recov n1 = recov n /\ misses n1 <= misses n /\
  (b = true -> e = RtThread -> over o = false -> misses n1 = 0) /\
  (misses n1 = misses n \/ (e = RtThread /\ over o = false)) /\
  (estop n = true -> estop n1 = true) /\
  (b = true -> over o = true -> c = true -> estop n1 = true).
Proof.
  cbv zeta. unfold pre_miss. destruct b, e, c; unfold record_tick; destruct (over o); cbn; repeat split; auto; try lia;
    intros; try discriminate; auto.
Qed.
Lemma tick_kinv p e b c n o : kinv n -> kinv (tick p e b c n o).
Proof.
  intros H. rewrite tick_unfold'. destruct (stopped n) eqn:Hs; [exact H|].
  pose proof (pre_budget e b c o n) as P. cbv zeta in P.
  destruct P as (P1 & P2 & _).
  assert (K1 : kinv (pre_miss e b c o n)) by (unfold kinv in *; rewrite P1, P2; exact H).
  assert (K2 : kinv (mid_miss p e b c o n)).
  { unfold mid_miss. destruct (missed o); [|exact K1]. apply ev_kinv. destruct c; exact K1. }
  destruct (ok o); [apply su_kinv|]; exact K2.
Qed.
Lemma run_kinv p e b c os : forall n, kinv n -> kinv (run p e b c n os).
Proof.
  induction os as [|o r IH]; intros n H; [exact H|]. cbn [Ladder.run]. apply IH, tick_kinv, H.
Qed.
Lemma fresh_kinv r : kinv (fresh r).
Proof. unfold kinv. cbn. discriminate. Qed.

(** *** How many misses it takes. *)
Lemma mid_misses p e b c o n :
  misses (mid_miss p e b c o n) =
  misses (pre_miss e b c o n) + (if missed o then 1 else 0).
Proof.
  unfold mid_miss. destruct (missed o); [|lia]. rewrite ev_misses. destruct c; reflexivity.
Qed.
Lemma tick_misses p e b c n o : stopped n = false ->
  misses (tick p e b c n o) = misses (pre_miss e b c o n) + (if missed o then 1 else 0).
Proof.
  intros Hs. rewrite tick_unfold', Hs. destruct (ok o); [rewrite su_misses|]; apply mid_misses.
Qed.
Lemma tick_killed p e b c n o : stopped n = false -> kinv n ->
  stg (tick p e b c n o) = Killed ->
  missed o = true /\ kill_after p <= misses (tick p e b c n o).
Proof.
  intros Hs Hk HK. rewrite (tick_misses p e b c n o Hs).
  rewrite tick_unfold', Hs in HK.
  assert (HM : stg (mid_miss p e b c o n) = Killed).
  { destruct (ok o); [|exact HK].
    destruct (su_stage p (mid_miss p e b c o n)) as [_ [B|[[B C]|[[B C]|[B C]]]]]; congruence. }
  rewrite <- (mid_misses p e b c o n). unfold mid_miss in *.
  pose proof (pre_budget e b c o n) as P. cbv zeta in P.
  destruct P as (P1 & P2 & _).
  assert (HN : stg n <> Killed) by (intros E; apply Hk in E; congruence).
  destruct (missed o) eqn:Hm; [|congruence]. split; [reflexivity|].
  rewrite ev_misses.
  destruct (ev_stage p (if c then latch (record_miss (pre_miss e b c o n)) else record_miss (pre_miss e b c o n)))
    as [[A B]|[(A&B&C)|[(A&B)|[(A&B)|(A&B)]]]]; try congruence.
  - exfalso. apply HN. rewrite <- P1. rewrite <- HM, A. destruct c; reflexivity.
Qed.

(** In general: at least that many misses in all. *)
Lemma misses_total p e b c os : forall n k, kinv n -> misses n <= k ->
  (stg n = Killed -> kill_after p <= k) ->
  misses (run p e b c n os) <= k + n_missed os /\
  (stg (run p e b c n os) = Killed -> kill_after p <= k + n_missed os).
Proof.
  induction os as [|o r IH]; intros n k Hi Hk HK.
  - cbn. rewrite Nat.add_0_r. auto.
  - cbn [Ladder.run]. destruct (stopped n) eqn:Hs.
    + rewrite tick_unfold, Hs. rewrite (run_stopped p e b c r n Hs).
      rewrite n_missed_cons. split; [lia|]. intros E. specialize (HK E). lia.
    + assert (Hm : misses (tick p e b c n o) <= k + if missed o then 1 else 0).
      { rewrite (tick_misses p e b c n o Hs).
        pose proof (pre_budget e b c o n) as P. cbv zeta in P.
        destruct P as (_ & _ & _ & _ & _ & P & _). lia. }
      destruct (IH (tick p e b c n o) (k + if missed o then 1 else 0)) as [A B].
      * apply tick_kinv, Hi.
      * exact Hm.
      * intros E. destruct (tick_killed p e b c n o Hs Hi E). lia.
      * rewrite n_missed_cons. split; [lia|]. intros E. specialize (B E). lia.
Qed.

(** On the RT thread with a budget: with no good tick in between. *)
Lemma misses_streak p c os : forall n pre0 mid0, kinv n ->
  misses n <= n_missed mid0 -> Forall (fun o => good o = false) mid0 ->
  (stg n = Killed -> exists pre mid post, pre0 ++ mid0 = pre ++ mid ++ post /\
     kill_after p <= n_missed mid /\ Forall (fun o => good o = false) mid) ->
  stg (run p RtThread true c n os) = Killed ->
  exists pre mid post, pre0 ++ mid0 ++ os = pre ++ mid ++ post /\
     kill_after p <= n_missed mid /\ Forall (fun o => good o = false) mid.
Proof.
  induction os as [|o r IH]; intros n pre0 mid0 Hi Hm Hg HK HR.
  - cbn in HR. rewrite app_nil_r. auto.
  - destruct (stopped n) eqn:Hs.
    + assert (E : stg n = Killed).
      { rewrite <- (run_stopped p RtThread true c (o :: r) n Hs). exact HR. }
      destruct (HK E) as (pre & mid & post & A & B & C).
      exists pre, mid, (post ++ o :: r). split; [|auto].
      rewrite app_assoc, A, <- !app_assoc. reflexivity.
    + cbn [Ladder.run] in HR.
      pose proof (pre_budget RtThread true c o n) as P. cbv zeta in P.
      destruct P as (_ & _ & _ & _ & _ & P6 & P7 & _).
      pose proof (tick_misses p RtThread true c n o Hs) as HT.
      assert (Hkill : stg (tick p RtThread true c n o) = Killed ->
        kill_after p <= misses (tick p RtThread true c n o))
        by (intros E; apply (tick_killed p RtThread true c n o Hs Hi E)).
      destruct (over o) eqn:Ho.
      * (* over budget: the stretch goes on *)
        assert (Hg' : Forall (fun o => good o = false) (mid0 ++ [o])).
        { apply Forall_app. split; [exact Hg|]. constructor; [|constructor].
          unfold good. rewrite Ho. reflexivity. }
        assert (Hm' : misses (tick p RtThread true c n o) <= n_missed (mid0 ++ [o])).
        { rewrite HT, n_missed_app, n_missed_cons. cbn [n_missed filter length]. change (n_missed []) with 0. destruct (missed o); lia. }
        destruct (IH (tick p RtThread true c n o) pre0 (mid0 ++ [o])) as (pre & mid & post & A & B & C);
          auto.
        { apply tick_kinv, Hi. }
        { intros E. exists pre0, (mid0 ++ [o]), []. rewrite app_nil_r. split; [reflexivity|].
          split; [|exact Hg']. specialize (Hkill E). lia. }
        exists pre, mid, post. rewrite <- A, <- app_assoc. auto.
      * (* within budget: a new stretch, holding this tick if it missed *)
        specialize (P7 eq_refl eq_refl eq_refl).
        set (mid1 := if missed o then [o] else []).
        set (pre1 := pre0 ++ mid0 ++ if missed o then [] else [o]).
        assert (Hpm : pre1 ++ mid1 ++ r = pre0 ++ mid0 ++ o :: r).
        { subst pre1 mid1. destruct (missed o); rewrite <- !app_assoc; reflexivity. }
        assert (Hg' : Forall (fun o => good o = false) mid1).
        { subst mid1. destruct (missed o) eqn:Hmi; [|constructor].
          constructor; [|constructor]. unfold good. rewrite Hmi, andb_false_r. reflexivity. }
        assert (Hm' : misses (tick p RtThread true c n o) <= n_missed mid1).
        { rewrite HT, P7. subst mid1. destruct (missed o) eqn:Hmi; [|cbn; lia].
          rewrite n_missed_cons, Hmi. cbn. lia. }
        destruct (IH (tick p RtThread true c n o) pre1 mid1) as (pre & mid & post & A & B & C);
          auto.
        { apply tick_kinv, Hi. }
        { intros E. exists pre1, mid1, []. rewrite app_nil_r. split; [reflexivity|].
          split; [|exact Hg']. specialize (Hkill E). lia. }
        exists pre, mid, post. rewrite <- A, <- Hpm. auto.
Qed.

(** *** The rate comes back. *)
Definition rinv (r : rate) (n : node rate) : Prop :=
  (orig n = None /\ nrate n = Some r) \/
  (orig n = Some r /\ nrate n = Some (half r) /\ (stg n = RateReduced \/ stg n = Isolated \/ stg n = Killed)).
Lemma ev_rinv r p n : rinv r n -> rinv r (ev p n).
Proof.
  unfold rinv. ev_cases p n; intros [[A B]|(A & B & [C|[C|C]])]; subst; try discriminate; auto 10.
Qed.
Lemma su_rinv r p n : rinv r n -> rinv r (su p n).
Proof.
  unfold rinv, su, success. destruct n as [s o c m rt i t a b x]. cbn.
  destruct s; cbn; auto; intros [[A B]|(A & B & [C|[C|C]])]; subst; try discriminate; auto 10;
    destruct (recovery_ticks p <=? c + 1); cbn; auto 10.
Qed.
Lemma tick_rinv r p e b c n o : rinv r n -> rinv r (tick p e b c n o).
Proof.
  intros H. rewrite tick_unfold'. destruct (stopped n); [exact H|].
  assert (H1 : rinv r (pre_miss e b c o n)).
  { pose proof (pre_budget e b c o n) as P. cbv zeta in P.
    destruct P as (P1 & _ & P3 & P4 & _). unfold rinv in *. rewrite P1, P3, P4. exact H. }
  assert (H2 : rinv r (mid_miss p e b c o n)).
  { unfold mid_miss. destruct (missed o); [|exact H1]. apply ev_rinv. destruct c; exact H1. }
  destruct (ok o); [apply su_rinv|]; exact H2.
Qed.
Lemma run_rinv r p e b c os : forall n, rinv r n -> rinv r (run p e b c n os).
Proof.
  induction os as [|o l IH]; intros n H; [exact H|]. cbn [Ladder.run]. apply IH, tick_rinv, H.
Qed.

(** *** Isolated does not become normal in one tick. *)
Lemma tick_isolated p e b c n o : stg n = Isolated ->
  stg (tick p e b c n o) = Isolated \/ stg (tick p e b c n o) = RateReduced \/
  stg (tick p e b c n o) = Killed.
Proof.
  intros H. rewrite tick_unfold'. destruct (stopped n); [auto|].
  assert (H1 : stg (pre_miss e b c o n) = Isolated).
  { pose proof (pre_budget e b c o n) as P. cbv zeta in P.
    destruct P as (P1 & _). congruence. }
  assert (H2 : stg (mid_miss p e b c o n) = Isolated \/ stg (mid_miss p e b c o n) = Killed).
  { unfold mid_miss. destruct (missed o); [|auto].
    set (m := if c then _ else _).
    assert (Hm : stg m = Isolated) by (subst m; destruct c; exact H1).
    destruct (ev_stage p m) as [[A B]|[(A&B&C)|[(A&B)|[(A&B&C&D)|(A&B&C&D)]]]]; auto.
    - left; congruence.
    - destruct D; congruence.
    - congruence. }
  destruct (ok o); [|destruct H2; auto].
  destruct (su_stage p (mid_miss p e b c o n)) as [_ [B|[[B C]|[[B C]|[B C]]]]];
    destruct H2 as [H2|H2]; rewrite ?B; auto; congruence.
Qed.

(** *** Recovery takes that many successful ticks. *)
Definition owed (p : policy) (n : node rate) : nat :=
  match stg n with
  | Normal | Warned => 0
  | RateReduced => recovery_ticks p - recov n
  | Isolated => (recovery_ticks p - recov n) + recovery_ticks p
  | Killed => 0
  end.
Definition cinv (p : policy) (n : node rate) :=
  (stg n = RateReduced \/ stg n = Isolated) -> recov n <= recovery_ticks p.
Lemma tick_owed p e b c n o :
  stg n = RateReduced \/ stg n = Isolated ->
  (stg (tick p e b c n o) = Killed) \/
  owed p n <= owed p (tick p e b c n o) + (if ok o then 1 else 0).
Proof.
  intros H. rewrite tick_unfold'. destruct (stopped n); [right; lia|].
  pose proof (pre_budget e b c o n) as P. cbv zeta in P.
  destruct P as (P1 & _ & _ & _ & P5 & _).
  assert (H1 : owed p (pre_miss e b c o n) = owed p n) by (unfold owed; rewrite P1, P5; reflexivity).
  assert (H2 : stg (mid_miss p e b c o n) = Killed \/
     ((stg (mid_miss p e b c o n) = RateReduced \/ stg (mid_miss p e b c o n) = Isolated) /\
      owed p n <= owed p (mid_miss p e b c o n))).
  { unfold mid_miss. destruct (missed o); [|right; rewrite P1, H1; split; [exact H|lia]].
    set (m := if c then _ else _).
    assert (Hm : owed p m = owed p n) by (subst m; rewrite <- H1; destruct c; reflexivity).
    assert (Hms : stg m = RateReduced \/ stg m = Isolated) by (subst m; rewrite <- P1 in H; destruct c; exact H).
    clearbody m. rewrite <- Hm. clear - Hms.
    unfold owed. ev_cases p m; destruct Hms as [X|X]; try discriminate; auto;
      right; split; auto; lia. }
  destruct H2 as [H2|[H2 H3]].
  - left. destruct (ok o); [|exact H2].
    destruct (su_stage p (mid_miss p e b c o n)) as [_ [B|[[B C]|[[B C]|[B C]]]]]; congruence.
  - right. destruct (ok o); [|lia].
    destruct (mid_miss p e b c o n) as [s oo cc m rt i t a bb x]. cbn in H2.
    unfold su, success, owed in *. cbn in *.
    destruct H2 as [-> | ->]; cbn in *;
      destruct (recovery_ticks p <=? cc + 1) eqn:L; bool_prop; cbn; try lia;
      destruct oo; cbn; lia.
Qed.
Lemma run_owed p e b c os : forall n,
  stg n = RateReduced \/ stg n = Isolated ->
  stg (run p e b c n os) = Normal ->
  owed p n <= n_ok os.
Proof.
  induction os as [|o r IH]; intros n H HN.
  - cbn in HN. destruct H; congruence.
  - cbn [Ladder.run] in HN. rewrite n_ok_cons.
    destruct (tick_owed p e b c n o H) as [K|L].
    + exfalso. destruct (stopped (tick p e b c n o)) eqn:Hs.
      * rewrite (run_stopped p e b c r _ Hs) in HN. congruence.
      * assert (kinv n).
        { destruct H as [H|H]; unfold kinv; rewrite H; discriminate. }
        pose proof (tick_kinv p e b c n o H0 K). congruence.
    + destruct (stg (tick p e b c n o)) eqn:Es.
      * unfold owed in L at 2. rewrite Es in L. lia.
      * unfold owed in L at 2. rewrite Es in L. lia.
      * specialize (IH (tick p e b c n o) (or_introl Es) HN). lia.
      * specialize (IH (tick p e b c n o) (or_intror Es) HN). lia.
      * exfalso.
        assert (kinv n) by (destruct H as [H|H]; unfold kinv; rewrite H; discriminate).
        pose proof (tick_kinv p e b c n o H0 Es) as Hs.
        rewrite (run_stopped p e b c r _ Hs) in HN. congruence.
Qed.

(** *** Critical nodes. *)
Lemma su_estop p n : estop (su p n) = estop n.
Proof.
  unfold su, success. destruct n as [s o c m r i t a b x]. cbn. destruct s; cbn; auto;
    destruct (recovery_ticks p <=? c + 1); cbn; auto. destruct o; reflexivity.
Qed.
Lemma ev_estop p n : estop (ev p n) = estop n.
Proof. ev_cases p n; reflexivity. Qed.
Lemma tick_calls p e b c n o : 1 < recovery_ticks p ->
  let n' := tick p e b c n o in
  safe_calls n' = safe_calls n + (if stage_eqb (stg n') Isolated && negb (stage_eqb (stg n) Isolated) then 1 else 0)
  /\ shutdown_calls n' = shutdown_calls n + (if stage_eqb (stg n') Killed && negb (stage_eqb (stg n) Killed) then 1 else 0).
Proof.
  intros R n'. subst n'.
  assert (forall m, let m' := ev p m in
    safe_calls m' = safe_calls m + (if stage_eqb (stg m') Isolated && negb (stage_eqb (stg m) Isolated) then 1 else 0)
    /\ shutdown_calls m' = shutdown_calls m + (if stage_eqb (stg m') Killed && negb (stage_eqb (stg m) Killed) then 1 else 0)
    /\ (stg m' = Isolated -> stg m <> Isolated -> recov m' = 0)) as Ev.
  { intros m. unfold ev, Ladder.evaluate.
    destruct (kill_after p <=? misses m), (isolate_after p <=? misses m), (reduce_after p <=? misses m),
      (warn_after p <=? misses m), (stg m) eqn:S; cbn; rewrite ?S; cbn; repeat split; auto; try lia; try discriminate; congruence. }
  assert (forall m, (stg m = Isolated -> stg n <> Isolated -> recov m = 0) -> let m' := su p m in
    safe_calls m' = safe_calls m /\ shutdown_calls m' = shutdown_calls m
    /\ stage_eqb (stg m') Killed = stage_eqb (stg m) Killed
    /\ stage_eqb (stg m') Isolated && negb (stage_eqb (stg n) Isolated)
       = stage_eqb (stg m) Isolated && negb (stage_eqb (stg n) Isolated)) as Su.
  { intros m Z. unfold su, success. destruct (stg m) eqn:S; cbn; rewrite ?S; cbn; auto.
    - destruct (recovery_ticks p <=? recov m + 1); [destruct (orig m)|]; cbn; auto.
    - destruct (stage_eqb (stg n) Isolated) eqn:Q.
      + destruct (recovery_ticks p <=? recov m + 1); cbn; auto.
      + assert (recov m = 0) as -> by (apply Z; auto; intros E; now rewrite E in Q).
        destruct (Nat.leb_spec (recovery_ticks p) (0 + 1)); [lia|]. cbn. auto. }
  rewrite tick_unfold'. destruct (stopped n).
  { destruct (stg n); cbn; lia. }
  assert (stg (pre_miss e b c o n) = stg n /\ safe_calls (pre_miss e b c o n) = safe_calls n
          /\ shutdown_calls (pre_miss e b c o n) = shutdown_calls n) as (P1 & P2 & P3).
  { unfold pre_miss. destruct b; auto. destruct e, (over o), c; cbn; auto. }
  assert (exists m, mid_miss p e b c o n = m /\
    safe_calls m = safe_calls n + (if stage_eqb (stg m) Isolated && negb (stage_eqb (stg n) Isolated) then 1 else 0)
    /\ shutdown_calls m = shutdown_calls n + (if stage_eqb (stg m) Killed && negb (stage_eqb (stg n) Killed) then 1 else 0)
    /\ (stg m = Isolated -> stg n <> Isolated -> recov m = 0)) as (m & -> & M1 & M2 & M3).
  { eexists. split; [reflexivity|]. unfold mid_miss. destruct (missed o).
    - set (x := if c then _ else _). destruct (Ev x) as (E1 & E2 & E3).
      assert (stg x = stg n /\ safe_calls x = safe_calls n /\ shutdown_calls x = shutdown_calls n) as (X1 & X2 & X3)
        by (unfold x; destruct c; cbn; auto).
      rewrite X1, X2, X3 in *. auto.
    - rewrite P1, P2, P3. repeat split; try congruence; destruct (stg n); cbn; lia. }
  destruct (ok o); [|auto].
  destruct (Su m M3) as (S1 & S2 & S3 & S4). rewrite S1, S2, S3, S4. auto.
Qed.
Lemma tick_critical p e b n o :
  stopped n = false -> missed o = true \/ (b = true /\ over o = true) ->
  estop (tick p e b true n o) = true.
Proof.
  intros Hs H. rewrite tick_unfold', Hs.
  pose proof (pre_budget e b true o n) as P. cbv zeta in P.
  destruct P as (_ & _ & _ & _ & _ & _ & _ & _ & _ & P10).
  assert (E : estop (mid_miss p e b true o n) = true).
  { unfold mid_miss. destruct (missed o) eqn:Hm.
    - rewrite ev_estop. reflexivity.
    - destruct H as [H|[H1 H2]]; [discriminate|]. auto. }
  destruct (ok o); [rewrite su_estop|]; exact E.
Qed.
End R.
End LadderP.

Module LatchP.
Import Latch LatchSpec.

Definition edge_reason (p : pc) : list nat :=
  match p with LState r true => [r] | LPend r => [r] | _ => [] end.
Definition tokens (w : shared * list pc) : list nat :=
  broadcasts (fst w) ++ flat_map edge_reason (snd w).

Lemma nth_upd ts i p q : nth_error ts i = Some p ->
  exists a b, ts = a ++ p :: b /\ upd ts i q = a ++ q :: b.
Proof.
  revert i. induction ts as [|x r IH]; intros [|i] H; try discriminate.
  - inv H. exists [], r. split; reflexivity.
  - destruct (IH i H) as (a & b & A & B). exists (x :: a), b. cbn. rewrite A at 1. rewrite B. auto.
Qed.

Lemma flag_step s p : flag s = true -> flag (fst (step s p)) = true.
Proof. destruct p; cbn; auto. Qed.
Lemma flag_sched w i : flag (fst w) = true -> flag (fst (sched_step w i)) = true.
Proof.
  unfold sched_step. destruct (nth_error (snd w) i) as [p|]; auto.
  pose proof (flag_step (fst w) p). destruct (step (fst w) p); auto.
Qed.
Lemma flag_exec sch : forall w, flag (fst w) = true -> flag (fst (exec w sch)) = true.
Proof. induction sch as [|i r IH]; intros w H; cbn; auto. apply IH, flag_sched, H. Qed.

(** Steps that are not the winning swap keep the tokens (up to moving one). *)
Lemma tokens_step w i p : nth_error (snd w) i = Some p ->
  length (tokens w) <= 1 ->
  (forall r, p = LSwap r -> flag (fst w) = true) ->
  (pending (fst w) = None \/ forall r, p <> LPend r) ->
  tokens (sched_step w i) = tokens w.
Proof.
  intros Hn Hl Hs Hp. unfold sched_step. rewrite Hn.
  destruct (step (fst w) p) as [s' p'] eqn:Es.
  destruct (nth_upd (snd w) i p p' Hn) as (a & b & A & B).
  unfold tokens in *. cbn [fst snd]. rewrite B. rewrite A in Hl |- *.
  rewrite !flat_map_app in *. cbn [flat_map] in *.
  destruct w as [s ts]. cbn [fst snd] in *. unfold broadcasts in *.
  destruct p as [r|r ed|r| | | | |]; cbn [step edge_reason] in *; inv Es;
    cbn [sent pending edge_reason] in *; try reflexivity.
  - rewrite (Hs r eq_refl). reflexivity.
  - destruct ed; reflexivity.
  - destruct Hp as [Hp|Hp]; [|exfalso; apply (Hp r); reflexivity].
    rewrite Hp in *. rewrite !app_length in Hl. cbn [length app] in Hl.
    assert (X : sent s = [] /\ flat_map edge_reason a = [] /\ flat_map edge_reason b = []).
    { repeat split; apply length_zero_iff_nil; lia. }
    destruct X as (-> & -> & ->). reflexivity.
  - destruct (pending s); cbn; rewrite ?app_nil_r; reflexivity.
Qed.

Lemma tokens_pending w r i :
  length (tokens w) <= 1 -> nth_error (snd w) i = Some (LPend r) -> pending (fst w) = None.
Proof.
  intros Hl Hn. destruct (nth_upd (snd w) i (LPend r) (LPend r) Hn) as (a & b & A & _).
  unfold tokens, broadcasts in Hl. rewrite A, flat_map_app in Hl. cbn [flat_map edge_reason app] in Hl.
  destruct (pending (fst w)); [|reflexivity]. rewrite !app_length in Hl. cbn [length] in Hl. lia.
Qed.

Lemma flag_nochange w i p : nth_error (snd w) i = Some p ->
  (forall r, p <> LSwap r) -> p <> RFlag -> flag (fst (sched_step w i)) = flag (fst w).
Proof.
  intros Hn H1 H2. unfold sched_step. rewrite Hn.
  destruct p; cbn; auto; congruence.
Qed.

(** After the flag is set the tokens never change. *)
Lemma exec_tokens_set sch : forall w, flag (fst w) = true -> length (tokens w) <= 1 ->
  tokens (exec w sch) = tokens w.
Proof.
  induction sch as [|i r IH]; intros w Hf Hl; [reflexivity|]. cbn [exec].
  assert (E : tokens (sched_step w i) = tokens w).
  { destruct (nth_error (snd w) i) as [p|] eqn:Hn.
    - apply (tokens_step w i p Hn Hl); [auto|].
      destruct p; auto; try (right; intros; discriminate).
      left. exact (tokens_pending w r0 i Hl Hn).
    - unfold sched_step. rewrite Hn. reflexivity. }
  rewrite IH.
  - exact E.
  - apply flag_sched, Hf.
  - rewrite E. exact Hl.
Qed.

Lemma winner_set w sch : flag (fst w) = true -> winner w sch = None.
Proof.
  revert w. induction sch as [|i r IH]; intros w H; [reflexivity|]. cbn [winner].
  pose proof (flag_sched w i H).
  destruct (nth_error (snd w) i) as [[]|]; rewrite ?H; auto.
Qed.

Lemma exec_tokens sch : forall w, flag (fst w) = false -> tokens w = [] ->
  tokens (exec w sch) = match winner w sch with Some (Local r) => [r] | _ => [] end /\
  (flag (fst (exec w sch)) = true <-> winner w sch <> None).
Proof.
  induction sch as [|i rest IH]; intros w Hf Ht.
  - cbn. rewrite Hf, Ht. split; [reflexivity|]. split; [discriminate|congruence].
  - cbn [exec winner].
    destruct (nth_error (snd w) i) as [p|] eqn:Hn.
    2:{ unfold sched_step. rewrite Hn. apply IH; assumption. }
    assert (Hl : length (tokens w) <= 1) by (rewrite Ht; cbn; lia).
    destruct p as [r|r ed|r| | | | |] eqn:Ep.
    + (* the winning local swap *)
      rewrite Hf.
      assert (F : flag (fst (sched_step w i)) = true) by (unfold sched_step; rewrite Hn; reflexivity).
      assert (T : tokens (sched_step w i) = [r]).
      { unfold sched_step. rewrite Hn. cbn [step]. rewrite Hf. cbn [negb].
        destruct (nth_upd (snd w) i (LSwap r) (LState r true) Hn) as (a & b & A & B).
        unfold tokens in *. cbn [fst snd]. rewrite B. rewrite A in Ht.
        rewrite !flat_map_app in *. cbn [flat_map edge_reason] in *.
        apply app_eq_nil in Ht. destruct Ht as [T1 T2]. apply app_eq_nil in T2.
        destruct T2 as [T2 T3]. cbn in T3. unfold broadcasts in *. cbn [sent pending].
        rewrite T1, T2, T3. reflexivity. }
      rewrite (exec_tokens_set rest _ F) by (rewrite T; cbn; lia). split; [exact T|].
      split; [discriminate|]. intros _. apply flag_exec, F.
    + assert (T : tokens (sched_step w i) = []).
      { rewrite (tokens_step w i _ Hn Hl); [exact Ht|intros; discriminate|right; intros; discriminate]. }
      apply IH; [|exact T]. rewrite (flag_nochange w i _ Hn); auto; intros; discriminate.
    + assert (T : tokens (sched_step w i) = []).
      { rewrite (tokens_step w i _ Hn Hl); [exact Ht|intros; discriminate|].
        left. exact (tokens_pending w r i Hl Hn). }
      apply IH; [|exact T]. rewrite (flag_nochange w i _ Hn); auto; intros; discriminate.
    + rewrite Hf.
      assert (F : flag (fst (sched_step w i)) = true) by (unfold sched_step; rewrite Hn; reflexivity).
      assert (T : tokens (sched_step w i) = []).
      { rewrite (tokens_step w i _ Hn Hl); [exact Ht|intros; discriminate|right; intros; discriminate]. }
      rewrite (exec_tokens_set rest _ F) by (rewrite T; cbn; lia). split; [exact T|].
      split; [discriminate|]. intros _. apply flag_exec, F.
    + assert (T : tokens (sched_step w i) = []).
      { rewrite (tokens_step w i _ Hn Hl); [exact Ht|intros; discriminate|right; intros; discriminate]. }
      apply IH; [|exact T]. rewrite (flag_nochange w i _ Hn); auto; intros; discriminate.
    + assert (T : tokens (sched_step w i) = []).
      { rewrite (tokens_step w i _ Hn Hl); [exact Ht|intros; discriminate|right; intros; discriminate]. }
      apply IH; [|exact T]. rewrite (flag_nochange w i _ Hn); auto; intros; discriminate.
    + assert (T : tokens (sched_step w i) = []).
      { rewrite (tokens_step w i _ Hn Hl); [exact Ht|intros; discriminate|right; intros; discriminate]. }
      apply IH; [|exact T]. rewrite (flag_nochange w i _ Hn); auto; intros; discriminate.
    + assert (T : tokens (sched_step w i) = []).
      { rewrite (tokens_step w i _ Hn Hl); [exact Ht|intros; discriminate|right; intros; discriminate]. }
      apply IH; [|exact T]. rewrite (flag_nochange w i _ Hn); auto; intros; discriminate.
Qed.

Lemma starting_tokens ts : forallb starting ts = true -> flat_map edge_reason ts = [].
Proof.
  induction ts as [|p r IH]; [reflexivity|]. cbn. intros H. bool_prop.
  destruct p; try discriminate; cbn; auto.
Qed.
Lemma done_tokens ts : Forall (fun p => p = Done) ts -> flat_map edge_reason ts = [].
Proof. induction 1 as [|p r -> _ IH]; [reflexivity|exact IH]. Qed.

(** The reported state, without the safe-state hook. *)
Definition sinv (w : shared * list pc) : Prop :=
  forallb (fun p => negb (is_safe_hook p)) (snd w) = true /\
  (flag (fst w) = true -> st (fst w) = SEstop \/
     exists p, In p (snd w) /\ (p = RState \/ exists r e, p = LState r e)).
Lemma sinv_step w i : sinv w -> sinv (sched_step w i).
Proof.
  intros [H1 H2]. unfold sched_step. destruct (nth_error (snd w) i) as [p|] eqn:Hn; [|split; auto].
  destruct (step (fst w) p) as [s' p'] eqn:Es.
  destruct (nth_upd (snd w) i p p' Hn) as (a & b & A & B).
  unfold sinv. cbn [fst snd]. rewrite B. rewrite A in H1, H2.
  rewrite forallb_app in H1 |- *. cbn [forallb] in H1 |- *.
  apply andb_prop in H1. destruct H1 as [G1 G2]. apply andb_prop in G2. destruct G2 as [G2 G3].
  assert (Hkeep : forall q, q <> p -> In q (a ++ p :: b) -> In q (a ++ p' :: b)).
  { intros q Hq HI. apply in_app_or in HI. apply in_or_app. destruct HI as [HI|[HI|HI]]; auto.
    - congruence.
    - right; right; exact HI. }
  assert (Hin : In p' (a ++ p' :: b)) by (apply in_or_app; right; left; reflexivity).
  destruct p as [r|r ed|r| | | | |]; cbn in Es; inv Es; cbn [flag st] in *; cbn in G2; try discriminate.
  - split. { rewrite G1, G3. reflexivity. } intros _. right. eexists. split; [exact Hin|]. eauto.
  - split. { rewrite G1, G3. destruct ed; reflexivity. } auto.
  - split. { rewrite G1, G3. reflexivity. }
    intros F. destruct (H2 F) as [X|(q & Q1 & Q2)]; [auto|]. right. exists q. split; [|exact Q2].
    apply Hkeep; [|exact Q1]. destruct Q2 as [->|(?&?&->)]; discriminate.
  - split. { rewrite G1, G3. reflexivity. } intros _. right. eexists. split; [exact Hin|]. auto.
  - split. { rewrite G1, G3. reflexivity. } auto.
  - split. { rewrite G1, G3. reflexivity. }
    intros F. destruct (H2 F) as [X|(q & Q1 & Q2)]; [auto|]. right. exists q. split; [|exact Q2].
    apply Hkeep; [|exact Q1]. destruct Q2 as [->|(?&?&->)]; discriminate.
  - split. { rewrite G1, G3. reflexivity. } 
    intros F. destruct (H2 F) as [X|(q & Q1 & Q2)]; [auto|]. right. exists q. split; [|exact Q2].
    exact Q1.
Qed.
Lemma sinv_exec sch : forall w, sinv w -> sinv (exec w sch).
Proof. induction sch as [|i r IH]; intros w H; [exact H|]. cbn. apply IH, sinv_step, H. Qed.
End LatchP.
