(** Properties of launches: C113, C114, C115, C116. *)
From Coq Require Import String.
From Verif.Base Require Import Prelude Bytes AMap Str.
From Verif.Model Require Import Launch.
From Verif.Spec Require Import LaunchSpec.
From Verif.Proofs Require Import LaunchProofs.
From Coq Require Import Relations Permutation.
Local Open Scope N_scope.
Local Open Scope list_scope.

(** ** C113: the order of a launch *)
(** If the names are distinct, an order is all the nodes of the file, each after those it depends on. *)
Theorem C113_order nodes visited order : distinct_names nodes -> sort_by_dependencies nodes = VOk visited order -> Permutation order nodes /\ respects nodes order.
Proof. intros D H. split; [eapply sort_permutation; eauto|]. apply sort_good in H as (_ & _ & R & _). exact R. Qed.
Print Assumptions C113_order.
(** There is no order exactly if there is a circle, and then it is reported. *)
Theorem C113_circle nodes : distinct_names nodes -> ((exists k, sort_by_dependencies nodes = VCycle k) <-> circular nodes) /\ sort_by_dependencies nodes <> VFuel.
Proof.
  intros D. split; [|apply sort_total]. split.
  - intros (k & H). eapply sort_cycle; eauto.
  - intros C. destruct (sort_by_dependencies nodes) as [v o|k|] eqn:E; [|exists k; reflexivity|destruct (sort_total nodes E)].
    exfalso. apply sort_good in E as (_ & B & R & N). eapply order_no_cycle; eauto.
Qed.
Print Assumptions C113_circle.
(** Refuted: "every node of the file is launched".  Of nodes with one name only one is, without a word. *)
Theorem C113_duplicate_refuted nodes visited order : ~ distinct_names nodes -> sort_by_dependencies nodes = VOk visited order -> (length order < length nodes)%nat.
Proof.
  intros Nd H. apply sort_good in H as (A & B & _ & _). assert (I : incl (map l_name order) (map l_name nodes)) by (intros k I; apply in_map_iff in I as (n & <- & I); apply in_map, B, I).
  pose proof (NoDup_incl_length A I) as L. rewrite !map_length in L. destruct (Nat.eq_dec (length order) (length nodes)) as [E|E]; [|lia]. exfalso. apply Nd. unfold distinct_names.
  eapply NoDup_incl_NoDup; [exact A|rewrite !map_length; lia|exact I].
Qed.
Print Assumptions C113_duplicate_refuted.
Definition ln (name : string) (deps : list string) (policy : string) (what : N) : LNode := mkLNode (bs name) (map bs deps) (bs policy) what.
Example C113_ex : let nodes := [ln "plan" ["map"; "lidar"]%string "always" 1; ln "map" ["lidar"]%string "never" 2; ln "lidar" [] "on-failure" 3] in
  distinct_names nodes /\ sort_by_dependencies nodes = VOk [bs "plan"; bs "map"; bs "lidar"] [ln "lidar" [] "on-failure" 3; ln "map" ["lidar"]%string "never" 2; ln "plan" ["map"; "lidar"]%string "always" 1] /\
  sort_by_dependencies [ln "a" ["b"]%string "never" 1; ln "b" ["a"]%string "never" 2] = VCycle (bs "a") /\
  circular [ln "a" ["b"]%string "never" 1; ln "b" ["a"]%string "never" 2] /\
  sort_by_dependencies [ln "cam" [] "never" 1; ln "cam" [] "never" 2] = VOk [bs "cam"] [ln "cam" [] "never" 1].
Proof.
  split; [|split; [vm_compute; reflexivity|split; [vm_compute; reflexivity|split; [|vm_compute; reflexivity]]]].
  - unfold distinct_names. repeat constructor; cbn; intuition discriminate.
  - exists (bs "a"). apply t_trans with (y := bs "b"); apply t_step; [exists (ln "a" ["b"]%string "never" 1)|exists (ln "b" ["a"]%string "never" 2)]; cbn; auto 10.
Qed.

(** ** C114: starting *)
(** A launch that succeeds has started every node of the order, once, each after its dependencies. *)
Theorem C114_started spawn order ps : start_all spawn order [] = LStarted ps ->
  map fst ps = order /\ (forall n pid, In (n, pid) ps -> spawn n = Some pid) /\
  forall before n after, order = before ++ n :: after -> forall d, In d (l_deps n) -> In d (map l_name before).
Proof. intros H. apply start_started in H as (new & -> & A & B & C). cbn [app map] in *. auto. Qed.
Print Assumptions C114_started.
(** It succeeds if every dependency is in the file and every process can be started. *)
Theorem C114_succeeds spawn nodes visited order : complete nodes -> sort_by_dependencies nodes = VOk visited order -> (forall n, In n nodes -> spawn n <> None) ->
  exists ps, start_all spawn order [] = LStarted ps.
Proof.
  intros C H Sp. apply sort_good in H as (_ & B & R & _).
  assert (G : forall todo before started, order = before ++ todo -> map (fun p => l_name (fst p)) started = map l_name before -> exists ps, start_all spawn todo started = LStarted ps).
  { induction todo as [|n r IH]; intros before started E M; cbn [start_all]; [eauto|]. assert (In_n : In n nodes) by (apply B; rewrite E; apply in_or_app; right; left; reflexivity).
    destruct (find _ (l_deps n)) as [d|] eqn:F.
    - exfalso. apply find_some in F as [Id N]. apply negb_true_iff, has_name_not in N. apply N. rewrite M. eapply R; eauto.
    - destruct (spawn n) as [pid|] eqn:E2; [|destruct (Sp n In_n E2)]. apply (IH (before ++ [n])); [rewrite <- app_assoc; exact E|]. rewrite !map_app, M. reflexivity. }
  apply (G order [] []); reflexivity.
Qed.
Print Assumptions C114_succeeds.
(** It never succeeds if some dependency is not in the file. *)
Theorem C114_incomplete spawn nodes visited order ps : distinct_names nodes -> sort_by_dependencies nodes = VOk visited order -> start_all spawn order [] = LStarted ps -> complete nodes.
Proof.
  intros D S H n d In_n Id. pose proof (sort_permutation nodes visited order D S) as P. apply sort_good in S as (_ & B & _ & _). apply start_started in H as (new & _ & _ & _ & C).
  assert (Io : In n order) by (eapply Permutation_in; [symmetry; exact P|exact In_n]). apply in_split in Io as (b & a & E). pose proof (C b n a E d Id) as X. cbn [map app] in X.
  apply in_map_iff in X as (m & <- & Im). apply in_map, B. rewrite E. apply in_or_app. left. exact Im.
Qed.
Print Assumptions C114_incomplete.
(** When a process cannot be started, those started before are killed. *)
Theorem C114_cleanup spawn order name left : start_all spawn order [] = LFailed name left -> left = [].
Proof. apply start_failed. Qed.
Print Assumptions C114_cleanup.
(** Refuted: "a launch that fails leaves nothing running".  When a dependency turns out to be missing, every node started before stays. *)
Theorem C114_orphans_refuted spawn before n after pids : (forall b, In b before -> l_deps b = []) -> (forall d, In d (l_deps n) -> ~ In d (map l_name before)) -> l_deps n <> [] ->
  map spawn before = map Some pids -> exists d, start_all spawn (before ++ n :: after) [] = LMissing d (l_name n) pids.
Proof.
  intros Free Miss Ne M.
  assert (G : forall todo pids started, (forall b, In b todo -> l_deps b = []) -> map spawn todo = map Some pids -> (forall d, In d (l_deps n) -> ~ In d (map (fun p => l_name (fst p)) started ++ map l_name todo)) ->
    exists d, start_all spawn (todo ++ n :: after) started = LMissing d (l_name n) (map snd started ++ pids)).
  { induction todo as [|b r IH]; intros qs started F E Hm; cbn [app start_all].
    - destruct qs; [|discriminate]. rewrite app_nil_r. destruct (l_deps n) as [|d ds] eqn:L; [congruence|]. exists d. cbn [find]. cbn [map] in Hm. rewrite app_nil_r in Hm.
      assert (X : has_name d (map (fun p => l_name (fst p)) started) = false) by (apply has_name_not, Hm; left; reflexivity). rewrite X. reflexivity.
    - rewrite (F b (or_introl eq_refl)). cbn [find]. destruct qs as [|q qs]; [discriminate|]. cbn [map] in E. injection E as E1 E2. rewrite E1.
      destruct (IH qs (started ++ [(b, q)])) as (d & Hd); [intros x I; apply F; right; exact I|exact E2|intros d Id; rewrite map_app; cbn [map fst]; rewrite <- app_assoc; apply Hm, Id|].
      exists d. rewrite Hd, map_app, <- app_assoc. reflexivity. }
  apply (G before pids []); auto.
Qed.
Print Assumptions C114_orphans_refuted.
Example C114_ex : let order := [ln "lidar" [] "never" 1; ln "arm" [] "never" 2; ln "plan" ["map"]%string "never" 3] in
  start_all (fun n => Some (l_what n)) order [] = LMissing (bs "map") (bs "plan") [1; 2] /\
  start_all (fun n => if l_what n =? 2 then None else Some (l_what n)) order [] = LFailed (bs "arm") [] /\
  start_all (fun n => Some (l_what n)) (firstn 2 order) [] = LStarted [(ln "lidar" [] "never" 1, 1); (ln "arm" [] "never" 2, 2)].
Proof. vm_compute. repeat split. Qed.

(** ** C115: restarts *)
(** A process that ended is started again exactly if its policy says so and it has not been restarted ten times. *)
Theorem C115_policy p ok respawn q t gone new : tend p (Gone ok respawn) = (q, t, gone, new) ->
  let wanted := p_count p < 10 /\ (p_restart p = bs "always" \/ (p_restart p = bs "on-failure" /\ ok = false)) in
  (wanted -> t = p_backoff p /\ match respawn with Some x => new = [x] /\ exists p', q = Some p' /\ p_name p' = p_name p /\ p_pid p' = x /\ p_restart p' = p_restart p /\ p_count p' = p_count p + 1 | None => q = None end) /\
  (~ wanted -> q = None /\ t = 0 /\ new = []).
Proof.
  intros H. cbv zeta. cbn [tend] in H.
  assert (W : should_restart (p_restart p) ok && (p_count p <? MAX_RESTARTS) = true <-> p_count p < 10 /\ (p_restart p = bs "always" \/ (p_restart p = bs "on-failure" /\ ok = false))).
  { unfold should_restart, MAX_RESTARTS. rewrite andb_true_iff, N.ltb_lt. destruct (beqb (p_restart p) (bs "always")) eqn:A; [apply beqb_spec in A; intuition|].
    assert (NA : p_restart p <> bs "always") by (intros X; apply beqb_spec in X; congruence). destruct (beqb (p_restart p) (bs "on-failure")) eqn:B.
    - apply beqb_spec in B. rewrite negb_true_iff. intuition.
    - assert (NB : p_restart p <> bs "on-failure") by (intros X; apply beqb_spec in X; congruence). intuition discriminate. }
  destruct (should_restart (p_restart p) ok && (p_count p <? MAX_RESTARTS)).
  - destruct W as [W _]. split; [|intros N; destruct (N (W eq_refl))]. intros _. destruct respawn as [x|]; injection H as <- <- <- <-; (split; [reflexivity|]); [|reflexivity]. split; [reflexivity|]. eexists. split; [reflexivity|]. cbn. auto.
  - split; [intros N; apply W in N; discriminate|]. intros _. injection H as <- <- <- <-. auto.
Qed.
Print Assumptions C115_policy.
(** In every history a process has been restarted at most ten times, and the wait before its next restart is 100 ms doubled for each, at most 10 s. *)
Theorem C115_bounded ps rs p : In p (lc_procs (fst (rounds (watch_from ps) rs))) -> p_count p <= 10 /\ p_backoff p = wait_before (p_count p).
Proof. intros I. pose proof (rounds_counted rs _ (watch_counted ps)) as F. rewrite Forall_forall in F. apply F, I. Qed.
Print Assumptions C115_bounded.
(** A stop or a restart asked for a node reaches the process that has its name (the first one), and no other; and the scheduler the session
    has for it. *)
Theorem C115_told l r name c : c = StopNode name \/ c = RestartNode name -> r_cmds r = [c] -> In name (map s_name (lc_session l)) -> In name (map p_name (lc_procs l)) ->
  let sent := snd (fst (fst (round l r))) in
  (forall x, In (Term x) sent <-> exists before p after, lc_procs l = before ++ p :: after /\ ~ In name (map p_name before) /\ p_name p = name /\ p_pid p = x) /\
  (r_estop r = false -> forall k, In (Graceful k) sent <-> exists before e after, lc_session l = before ++ e :: after /\ ~ In name (map s_name before) /\ s_name e = name /\ s_ctl e = Some k).
Proof.
  intros C R S P. cbv zeta.
  assert (F : forall A (nm : A -> bytes) (xs : list A), In name (map nm xs) -> exists before x after, find (fun e => beqb (nm e) name) xs = Some x /\ xs = before ++ x :: after /\ ~ In name (map nm before) /\ nm x = name).
  { induction xs as [|x xs IH]; intros I; [destruct I|]. cbn [find]. destruct (beqb (nm x) name) eqn:B.
    - apply beqb_spec in B. exists [], x, xs. repeat split; auto.
    - destruct I as [I|I]; [apply beqb_spec in I; congruence|]. destruct (IH I) as (b & y & a & E1 & E2 & E3 & E4). exists (x :: b), y, a. subst xs. repeat split; auto.
      intros [J|J]; [apply beqb_spec in J; congruence|auto]. }
  assert (U : forall A (nm : A -> bytes) b x a b' y a', b ++ x :: a = b' ++ y :: a' -> ~ In name (map nm b) -> ~ In name (map nm b') -> nm x = name -> nm y = name -> x = y).
  { induction b as [|z b IH]; intros x a [|z' b'] y a' E N1 N2 X Y; cbn [app map In] in *; injection E as E1 E2; subst.
    - reflexivity.
    - destruct N2; auto.
    - destruct N1; auto.
    - eapply IH; eauto. }
  destruct (F _ s_name _ S) as (be & e & ae & Ee & Es & En & Eq). destruct (F _ p_name _ P) as (bp & p & ap & Ep & Ps & Pn & Pq).
  assert (K : snd (fst (command c l)) = graceful (Some e) ++ [Term (p_pid p)]).
  { destruct C as [-> | ->]; cbn [command]; rewrite Ep, Ee; reflexivity. }
  assert (L : lc_session (fst (fst (command c l))) = lc_session l).
  { destruct C as [-> | ->]; cbn [command]; [reflexivity|]. rewrite Ep. reflexivity. }
  unfold round. rewrite R. cbn [commands]. destruct (command c l) as [[l1 s1] b1]. cbn [fst snd] in K, L. subst s1.
  assert (G : forall (x : Entry) n, ~ In (Term n) (graceful (Some x))) by (intros x n; unfold graceful; destruct (s_ctl x); cbn; intuition discriminate).
  assert (T : forall n rest, (forall x, In x rest -> exists k, x = Graceful k) -> In (Term n) (((graceful (Some e) ++ [Term (p_pid p)]) ++ []) ++ rest) <-> n = p_pid p).
  { intros n rest Q. rewrite app_nil_r, !in_app_iff. split.
    - intros [[I|[I|[]]]|I]; [destruct (G _ _ I)|congruence|destruct (Q _ I); discriminate].
    - intros ->. left. right. left. reflexivity. }
  assert (V : forall n, n = p_pid p <-> exists before p0 after, lc_procs l = before ++ p0 :: after /\ ~ In name (map p_name before) /\ p_name p0 = name /\ p_pid p0 = n).
  { intros n; split; [intros ->; exists bp, p, ap; auto|]. intros (b & y & a & Y1 & Y2 & Y3 & <-). rewrite Ps in Y1. rewrite (U _ p_name _ _ _ _ _ _ Y1); auto. }
  split.
  - intros x. destruct (r_estop r).
    + cbn [fst snd]. rewrite T; [apply V|]. intros y I. apply in_flat_map in I as (z & _ & I). unfold graceful in I. destruct (s_ctl z); [destruct I as [<-|[]]; eauto|destruct I].
    + destruct (tend_all (lc_procs l1) (r_obs r)) as [[[qs t] g] n]. cbn [fst snd]. rewrite <- (V x), <- (T x []) by (intros y []). rewrite !app_nil_r. reflexivity.
  - intros -> k. destruct (tend_all (lc_procs l1) (r_obs r)) as [[[qs t] g] n]. cbn [fst snd]. rewrite app_nil_r, in_app_iff. split.
    + intros [I|[I|[]]]; [|discriminate]. exists be, e, ae. repeat split; auto. unfold graceful in I. destruct (s_ctl e); [destruct I as [I|[]]; congruence|destruct I].
    + intros (b & y & a & Y1 & Y2 & Y3 & Y4). rewrite Es in Y1. rewrite <- (U _ s_name _ _ _ _ _ _ Y1 En Y2 Eq Y3) in Y4. left. unfold graceful. rewrite Y4. left. reflexivity.
Qed.
Print Assumptions C115_told.
(** Refuted: "StopNode stops the node".  A node with the policy [always] is back in the round that finds its process gone. *)
Theorem C115_stop_refuted p others es alive ok q obs : p_restart p = bs "always" -> p_count p < 10 ->
  let l := mkLauncher (p :: others) es alive in
  let '(l1, _, _, _) := round l (mkRound [StopNode (p_name p)] false (Gone ok (Some q) :: obs) (fun _ => None) []) in
  exists p', hd_error (lc_procs l1) = Some p' /\ p_name p' = p_name p /\ p_pid p' = q /\ In q (lc_alive l1).
Proof.
  intros A C l. subst l. unfold round. cbn [r_cmds commands command lc_procs r_estop r_obs tend_all]. unfold tend, should_restart. rewrite A. cbn [beqb]. rewrite (proj2 (beqb_spec (bs "always") (bs "always")) eq_refl). cbn [andb].
  replace (p_count p <? MAX_RESTARTS) with true by (symmetry; apply N.ltb_lt; exact C).
  destruct (tend_all others obs) as [[[qs t'] g'] n']. cbn [lc_procs hd_error lc_alive]. eexists. split; [reflexivity|]. cbn [p_name p_pid]. split; [reflexivity|]. split; [reflexivity|]. apply in_or_app. right. left. reflexivity.
Qed.
Print Assumptions C115_stop_refuted.
(** Refuted: "RestartNode restarts a node once".  From then on it is restarted whenever it ends, even successfully, whatever its policy was. *)
Theorem C115_sticky_refuted p others es alive ok q obs q2 obs2 : p_count p < 9 ->
  let l := mkLauncher (p :: others) es alive in
  let l2 := fst (rounds l [mkRound [RestartNode (p_name p)] false (Gone ok (Some q) :: obs) (fun _ => None) []; quiet (Gone true (Some q2) :: obs2)]) in
  exists p', hd_error (lc_procs l2) = Some p' /\ p_name p' = p_name p /\ p_pid p' = q2 /\ p_count p' = p_count p + 2.
Proof.
  intros C l l2. subst l2 l. cbn [rounds]. unfold round at 1. cbn [r_cmds commands command lc_procs find]. rewrite (proj2 (beqb_spec (p_name p) (p_name p)) eq_refl). cbn [lc_procs force_restart].
  rewrite (proj2 (beqb_spec (p_name p) (p_name p)) eq_refl). cbn [r_estop lc_procs r_obs tend_all tend p_restart p_count p_name p_pid p_backoff].
  assert (W : forall b, should_restart (bs "always") b = true) by (intros b; reflexivity). rewrite W. replace (p_count p <? MAX_RESTARTS) with true by (symmetry; apply N.ltb_lt; unfold MAX_RESTARTS; lia). cbn [andb].
  destruct (tend_all others obs) as [[[qs t'] g'] n']. unfold round, quiet. cbn [r_cmds commands lc_procs r_estop r_obs tend_all tend p_restart p_count p_name p_pid p_backoff].
  rewrite W. replace (p_count p + 1 <? MAX_RESTARTS) with true by (symmetry; apply N.ltb_lt; unfold MAX_RESTARTS; lia). cbn [andb]. destruct (tend_all qs obs2) as [[[qs2 t2] g2] n2]. cbn [fst lc_procs hd_error].
  eexists. split; [reflexivity|]. cbn [p_name p_pid p_count]. split; [reflexivity|]. split; [reflexivity|]. lia.
Qed.
Print Assumptions C115_sticky_refuted.
(** Refuted: "RestartNode leaves the node running".  After ten restarts it only ends it. *)
Theorem C115_exhausted_refuted p others es alive ok respawn obs : p_count p = 10 ->
  let l := mkLauncher (p :: others) es alive in
  let '(l1, s, _, _) := round l (mkRound [RestartNode (p_name p)] false (Gone ok respawn :: obs) (fun _ => None) []) in
  In (Term (p_pid p)) s /\ (length (lc_procs l1) <= length others)%nat.
Proof.
  intros C l. subst l. unfold round. cbn [r_cmds commands command lc_procs find]. rewrite (proj2 (beqb_spec (p_name p) (p_name p)) eq_refl). cbn [lc_procs force_restart]. rewrite (proj2 (beqb_spec (p_name p) (p_name p)) eq_refl).
  cbn [r_estop lc_procs r_obs tend_all tend p_restart p_count]. rewrite C. change (10 <? MAX_RESTARTS) with false. rewrite andb_false_r.
  assert (L : forall ps os, (length (fst (fst (fst (tend_all ps os)))) <= length ps)%nat).
  { induction ps as [|x r IH]; intros os; [destruct os; cbn; lia|]. destruct os as [|o os]; [cbn; lia|]. cbn [tend_all]. destruct (tend x o) as [[[y t] g] n]. specialize (IH os). destruct (tend_all r os) as [[[qs t'] g'] n']. cbn [fst] in *. destruct y; cbn [length]; lia. }
  specialize (L others obs). destruct (tend_all others obs) as [[[qs t'] g'] n']. cbn [fst lc_procs] in *. split; [|exact L]. rewrite app_nil_r. apply in_or_app. right. left. reflexivity.
Qed.
Print Assumptions C115_exhausted_refuted.
Definition two := watch_from [(ln "arm" [] "never" 1, 71); (ln "cam" [] "on-failure" 2, 72)].
Example C115_ex : map (fun p => (p_pid p, p_count p, p_backoff p)) (lc_procs (fst (rounds two [quiet [Still; Gone false (Some 73)]; quiet [Still; Gone false (Some 74)]; quiet [Still; Gone true (Some 75)]]))) = [(71, 0, 100)] /\
  map (fun p => (p_pid p, p_count p, p_backoff p)) (lc_procs (fst (rounds two [quiet [Still; Gone false (Some 73)]; quiet [Still; Gone false (Some 74)]]))) = [(71, 0, 100); (74, 2, 400)] /\
  map p_pid (lc_procs (fst (rounds two [mkRound [RestartNode (bs "arm")] false [Gone true (Some 73); Still] (fun _ => None) []; quiet [Gone true (Some 74); Still]]))) = [74; 72].
Proof. vm_compute. repeat split. Qed.

(** ** C116: watching and ending *)
(** Whatever happened in a launch, when it ends none of the processes it started is left. *)
Theorem C116_all_stopped ps rs : shut_down (fst (rounds (watch_from ps) rs)) = [].
Proof. apply shut_down_nil, rounds_sound, watch_sound. Qed.
Print Assumptions C116_all_stopped.
(** An emergency stop ends the launch in the round that sees it. *)
Theorem C116_estop l r : r_estop r = true -> snd (round l r) = true /\ snd (fst (round l r)) = 0.
Proof. intros E. unfold round. destruct (commands (r_cmds r) l) as [[l1 s1] stop]. rewrite E. split; reflexivity. Qed.
Print Assumptions C116_estop.
(** A round sleeps at most 10 s for each process ... *)
Theorem C116_delay ps rs r : snd (fst (round (fst (rounds (watch_from ps) rs)) r)) <= 10000 * N.of_nat (length (lc_procs (fst (rounds (watch_from ps) rs)))).
Proof.
  pose proof (rounds_counted rs _ (watch_counted ps)) as S. set (l := fst (rounds (watch_from ps) rs)) in *. clearbody l. unfold round.
  pose proof (commands_frame (r_cmds r) l) as F. destruct (commands (r_cmds r) l) as [[l1 s1] stop]. cbn [fst] in F. destruct F as (_ & _ & F3 & _ & F5 & F6).
  assert (S1 : Forall counted (lc_procs l1)) by (eapply counted_ext; eauto). assert (Ln : length (lc_procs l1) = length (lc_procs l)) by (rewrite <- (map_length p_pid (lc_procs l1)), F3, map_length; reflexivity).
  destruct (r_estop r); [cbn; lia|]. pose proof (tend_all_sleep (lc_procs l1) (r_obs r) S1) as T. destruct (tend_all (lc_procs l1) (r_obs r)) as [[[qs t] gone] new]. cbn [fst snd] in *. rewrite <- Ln. exact T.
Qed.
Print Assumptions C116_delay.
(** ... refuted: "an emergency stop is seen within a second".  A round in which all [n] processes with a wait of 10 s end sleeps 10 n seconds before anything else is looked at. *)
Theorem C116_delay_refuted ps es alive pids : Forall (fun p => p_restart p = bs "always" /\ p_count p < 10 /\ p_backoff p = 10000) ps -> length pids = length ps ->
  snd (fst (round (mkLauncher ps es alive) (quiet (map (fun q => Gone false (Some q)) pids)))) = 10000 * N.of_nat (length ps).
Proof.
  intros F L. unfold round, quiet. cbn [r_cmds commands r_estop lc_procs r_obs].
  assert (T : snd (fst (fst (tend_all ps (map (fun q => Gone false (Some q)) pids)))) = 10000 * N.of_nat (length ps)).
  { clear es alive. revert pids L. induction F as [|p ps (A & B & C) F IH]; intros [|q pids] L; try discriminate; [reflexivity|]. cbn [map tend_all tend]. injection L as L. specialize (IH pids L).
    unfold should_restart. rewrite A, (proj2 (beqb_spec (bs "always") (bs "always")) eq_refl). replace (p_count p <? MAX_RESTARTS) with true by (symmetry; apply N.ltb_lt; exact B). cbn [andb].
    destruct (tend_all ps (map (fun q => Gone false (Some q)) pids)) as [[[qs t'] g'] n']. cbn [fst snd length] in *. lia. }
  destruct (tend_all ps _) as [[[qs t'] g'] n']. exact T.
Qed.
Print Assumptions C116_delay_refuted.
(** Refuted: "the session names each process".  When a process that is not the last ends for good, its entry gets the process of the next one. *)
Theorem C116_session_refuted before p next after es alive ok : aligned (mkLauncher (before ++ p :: next :: after) es alive) -> should_restart (p_restart p) ok = false ->
  let l := mkLauncher (before ++ p :: next :: after) es alive in
  let l1 := fst (fst (fst (round l (quiet (map (fun _ => Still) before ++ Gone ok None :: map (fun _ => Still) (next :: after)))))) in
  exists e, nth_error (lc_session l1) (length before) = Some e /\ s_name e = p_name p /\ s_pid e = p_pid next.
Proof.
  intros [A B] W l l1. cbn [lc_session lc_procs] in A, B. subst l1 l. unfold round, quiet. cbn [r_cmds commands r_estop lc_procs r_obs].
  assert (S1 : forall ps, tend_all ps (map (fun _ => Still) ps) = (ps, 0, [], [])) by (induction ps as [|x r IH]; [reflexivity|]; cbn [map tend_all tend]; rewrite IH; reflexivity).
  assert (S2 : forall bs0, tend_all (bs0 ++ p :: next :: after) (map (fun _ => Still) bs0 ++ Gone ok None :: map (fun _ => Still) (next :: after)) = (bs0 ++ next :: after, 0, [p_pid p], [])).
  { assert (ST : forall x r o os, tend_all (x :: r) (o :: os) = let '(q, t, g, n) := tend x o in let '(qs, t', g', n') := tend_all r os in (match q with Some y => y :: qs | None => qs end, t + t', g ++ g', n ++ n')) by reflexivity.
    induction bs0 as [|x r IH]; cbn [app map]; rewrite ST.
    - pose proof (S1 (next :: after)) as X. cbn [map] in X. rewrite X. cbn [tend]. rewrite W. reflexivity.
    - cbn [map] in IH. rewrite IH. reflexivity. }
  cbn [map] in S2. cbn [map]. rewrite S2. cbn [fst lc_session lc_procs]. clear S1 S2 W.
  revert es A B. induction before as [|x r IH]; intros es A B.
  - destruct es as [|e es]; [discriminate|]. cbn [map app] in A, B. injection A as A _. injection B as B _. cbn [app update_session map nth_error length discover]. eexists. split; [reflexivity|].
    unfold discover. cbn [s_ctl s_pid s_name has_name existsb]. destruct (s_ctl e); cbn [s_name s_pid]; split; auto.
  - destruct es as [|e es]; [discriminate|]. cbn [map app] in A, B. injection A as _ A. injection B as _ B. cbn [app update_session map nth_error length]. apply (IH es A B).
Qed.
Print Assumptions C116_session_refuted.
(** Refuted: "stopping a node concerns that node".  If the first node ended before any scheduler was known, stopping it shuts down the scheduler of the second. *)
Theorem C116_wrong_node_refuted a b pa pb ok sched : l_name a <> l_name b -> should_restart (l_restart a) ok = false -> pa <> pb ->
  let l := watch_from [(a, pa); (b, pb)] in
  let found := fun x => if x =? pb then Some (Some sched) else None in
  snd (rounds l [quiet [Gone ok None; Still]; mkRound [] false [Still] found []; mkRound [StopNode (l_name a)] false [Still] found []]) = [Graceful sched].
Proof.
  intros Ne W Np. cbv zeta. unfold watch_from. cbn [map fst snd]. cbn [rounds]. unfold round at 1, quiet. cbn [r_cmds commands r_estop lc_procs r_obs tend_all]. unfold tend at 1. cbn [p_restart]. rewrite W.
  cbn [andb tend app lc_session update_session map discover s_ctl s_pid r_sched r_known has_name existsb s_name p_pid p_count].
  unfold round at 1. cbn [r_cmds commands r_estop lc_procs r_obs tend_all tend app lc_session update_session map discover s_ctl s_pid r_sched r_known s_name p_pid p_count s_count]. rewrite N.eqb_refl.
  unfold round. cbn [r_cmds commands command lc_session find s_name]. rewrite (proj2 (beqb_spec (l_name a) (l_name a)) eq_refl). cbn [graceful s_ctl lc_procs find p_name].
  replace (beqb (l_name b) (l_name a)) with false by (symmetry; destruct (beqb (l_name b) (l_name a)) eqn:E; [apply beqb_spec in E; congruence|reflexivity]). cbn [app r_estop lc_procs r_obs tend_all tend snd]. reflexivity.
Qed.
Print Assumptions C116_wrong_node_refuted.
Example C116_ex : aligned two /\ should_restart (bs "never") false = false /\
  map (fun e => (s_name e, s_pid e)) (lc_session (fst (rounds two [quiet [Gone false None; Still]]))) = [(bs "arm", 72); (bs "cam", 72)] /\
  shut_down two = [] /\ lc_alive (fst (rounds two [quiet [Gone false None; Gone false (Some 75)]])) = [75].
Proof. split; [split; reflexivity|]. vm_compute. repeat split. Qed.
