(** Properties of changing the backend of a topic: C127. *)
From Verif.Base Require Import Prelude.
From Verif.Model Require Import Migrate.
From Verif.Spec Require Import MigrateSpec.
From Verif.Proofs Require Import MigrateProofs.
Open Scope nat_scope.

(** ** C127: one change at a time, each with its own number *)
(** As long as no lock is taken away, at most one caller is changing the backend, whatever the schedule and whoever crashes. *)
Theorem C127_exclusive m0 tr t u : unforced tr -> inside (at_ (run (init m0) tr) t) -> inside (at_ (run (init m0) tr) u) -> t = u.
Proof. intros U. apply (g_one m0). apply good_run; [apply good_init|exact U]. Qed.
Print Assumptions C127_exclusive.
(** Then the changes that succeeded have the numbers 1, 2, 3, ... in the order in which they returned. *)
Theorem C127_numbered m0 tr : unforced tr -> map snd (changes (run (init m0) tr)) = seq 1 (length (changes (run (init m0) tr))).
Proof. intros U. apply (g_num m0). apply good_run; [apply good_init|exact U]. Qed.
Print Assumptions C127_numbered.
(** And when nobody is in a call, the topic's epoch is their count, its mode that of the last, and the lock is free. *)
Theorem C127_settled m0 tr : unforced tr -> quiet (run (init m0) tr) ->
  let s := run (init m0) tr in epoch s = length (changes s) /\ mode s = final m0 (changes s) /\ lock s = false.
Proof.
  intros U Q s. assert (G : good m0 s) by (apply good_run; [apply good_init|exact U]). destruct (lock s) eqn:L.
  - destruct (g_held _ _ G L) as (t & T). unfold quiet in Q. fold s in Q. rewrite Q in T. destruct T.
  - destruct (g_free _ _ G L) as (_ & E & M). auto.
Qed.
Print Assumptions C127_settled.
(** At every moment the mode is that of the last change that returned, or of the one under way;
    the epoch is the number of that change, or the one before while its caller is between the two stores. *)
Theorem C127_seen m0 tr : unforced tr -> let s := run (init m0) tr in
  (mode s = final m0 (changes s) /\ epoch s = length (changes s)) \/
  (exists t m, at_ s t = Stored m /\ mode s = m /\ epoch s = length (changes s)) \/
  (exists t m, at_ s t = Bumped m (epoch s) /\ mode s = m /\ epoch s = S (length (changes s))).
Proof.
  intros U s. assert (G : good m0 s) by (apply good_run; [apply good_init|exact U]). destruct (lock s) eqn:L.
  - destruct (g_held _ _ G L) as (t & T). destruct (at_ s t) as [|m|m|m|m|m e] eqn:A; try destruct T.
    + left. auto.
    + right. left. exists t, m. auto.
    + right. right. exists t, m. destruct H0 as [H0 H1]. rewrite <- H at 1. auto.
  - left. destruct (g_free _ _ G L) as (_ & E & M). auto.
Qed.
Print Assumptions C127_seen.
(** Whatever the schedule, the crashes and the locks taken away: no number is given to two changes, and none is above the epoch. *)
Theorem C127_once m0 tr : NoDup (map snd (changes (run (init m0) tr))) /\ forall m e, In (m, e) (changes (run (init m0) tr)) -> 1 <= e <= epoch (run (init m0) tr).
Proof. pose proof (fair_run tr _ (fair_init m0)) as [A B _ _]. auto. Qed.
Print Assumptions C127_once.
(** A caller that crashes inside blocks every change, until a lock is taken away ... *)
Theorem C127_stuck m0 tr h tr' : unforced tr -> unforced tr' -> let s := run (init m0) tr in inside (at_ s h) -> dead s h = true ->
  lock (run s tr') = true /\ mode (run s tr') = mode s /\ epoch (run s tr') = epoch s /\ changes (run s tr') = changes s.
Proof.
  intros U U' s I D. assert (G : good m0 s) by (apply good_run; [apply good_init|exact U]).
  apply (stuck_run tr' s h); auto; [apply (held_is m0 s h G I)|]. intros t T. apply (g_one _ _ G); auto.
Qed.
Print Assumptions C127_stuck.
(** ... after which, in any state, a caller that is alone gets its change. *)
Theorem C127_forced s t m : dead s t = false -> at_ s t = Idle -> mode s <> m ->
  let s' := run s [Force t; Start t m; Go t; Go t; Go t; Go t; Go t] in
  mode s' = m /\ epoch s' = S (epoch s) /\ lock s' = false /\ out s' = out s ++ [(t, m, Success (S (epoch s)))].
Proof.
  intros D A M. apply Nat.eqb_neq in M. destruct s as [mo lo ep a d o]. cbn [mode lock epoch at_ dead out] in *. unfold run. cbn [fold_left].
  replace (step (mkSt mo lo ep a d o) (Force t)) with (mkSt mo false ep a d o) by (unfold step, go, goto, ret; cbn [at_ mode lock epoch dead out]; rewrite D, ?upd_same, ?A, ?M; reflexivity).
  replace (step (mkSt mo false ep a d o) (Start t m)) with (mkSt mo false ep (upd a t (AtLook m)) d o) by (unfold step, go, goto, ret; cbn [at_ mode lock epoch dead out]; rewrite D, ?upd_same, ?A, ?M; reflexivity).
  replace (step (mkSt mo false ep (upd a t (AtLook m)) d o) (Go t)) with (mkSt mo false ep (upd (upd a t (AtLook m)) t (AtCas m)) d o) by (unfold step, go, goto, ret; cbn [at_ mode lock epoch dead out]; rewrite D, ?upd_same, ?A, ?M; reflexivity).
  replace (step (mkSt mo false ep (upd (upd a t (AtLook m)) t (AtCas m)) d o) (Go t)) with (mkSt mo true ep (upd (upd (upd a t (AtLook m)) t (AtCas m)) t (Draining m)) d o) by (unfold step, go, goto, ret; cbn [at_ mode lock epoch dead out]; rewrite D, ?upd_same, ?A, ?M; reflexivity).
  replace (step (mkSt mo true ep (upd (upd (upd a t (AtLook m)) t (AtCas m)) t (Draining m)) d o) (Go t)) with (mkSt m true ep (upd (upd (upd (upd a t (AtLook m)) t (AtCas m)) t (Draining m)) t (Stored m)) d o) by (unfold step, go, goto, ret; cbn [at_ mode lock epoch dead out]; rewrite D, ?upd_same, ?A, ?M; reflexivity).
  replace (step (mkSt m true ep (upd (upd (upd (upd a t (AtLook m)) t (AtCas m)) t (Draining m)) t (Stored m)) d o) (Go t)) with (mkSt m true (S ep) (upd (upd (upd (upd (upd a t (AtLook m)) t (AtCas m)) t (Draining m)) t (Stored m)) t (Bumped m (S ep))) d o) by (unfold step, go, goto, ret; cbn [at_ mode lock epoch dead out]; rewrite D, ?upd_same, ?A, ?M; reflexivity).
  replace (step (mkSt m true (S ep) (upd (upd (upd (upd (upd a t (AtLook m)) t (AtCas m)) t (Draining m)) t (Stored m)) t (Bumped m (S ep))) d o) (Go t)) with (mkSt m false (S ep) (upd (upd (upd (upd (upd (upd a t (AtLook m)) t (AtCas m)) t (Draining m)) t (Stored m)) t (Bumped m (S ep))) t Idle) d (o ++ [(t, m, Success (S ep))])) by (unfold step, go, goto, ret; cbn [at_ mode lock epoch dead out]; rewrite D, ?upd_same, ?A, ?M; reflexivity).
  cbn [mode lock epoch out]. auto.
Qed.
Print Assumptions C127_forced.
(** Refuted: "an unchanged epoch means mode and epoch belong together".  An observer reads epoch 0, then the mode of change 1,
    then epoch 0 again. *)
Theorem C127_pair_refuted : exists tr1 tr2 tr3, unforced (tr1 ++ tr2 ++ tr3) /\ let s1 := run (init 0) tr1 in let s2 := run s1 tr2 in let s3 := run s2 tr3 in
  epoch s1 = 0 /\ mode s1 = 0 /\ mode s2 = 7 /\ epoch s3 = 0.
Proof.
  exists [Start 1 7; Go 1; Go 1], [Go 1], []. split; [|vm_compute; auto].
  intros t H. cbn in H. repeat (destruct H as [H|H]; [discriminate|]). exact H.
Qed.
Print Assumptions C127_pair_refuted.
(** Refuted: "every change of mode becomes known".  After a crash between the two stores the mode is new under the old epoch,
    and calls for that mode never raise the epoch again: who had read the old mode is never told. *)
Theorem C127_crash_refuted : exists tr, let s := run (init 0) tr in mode s = 7 /\ epoch s = 0 /\
  forall tr', all_for 7 tr' -> epoch (run s tr') = 0 /\ mode (run s tr') = 7.
Proof.
  exists [Start 1 7; Go 1; Go 1; Go 1; Crash 1]. split; [reflexivity|]. split; [reflexivity|]. intros tr' A.
  apply (same_run tr' (run (init 0) [Start 1 7; Go 1; Go 1; Go 1; Crash 1]) 7); [reflexivity| |exact A]. intros t. cbn. unfold upd. destruct (t =? 1); auto.
Qed.
Print Assumptions C127_crash_refuted.
(** Refuted: "a change that succeeds is in force until the next".  A lock taken away from a caller that is only slow lets two in:
    caller 2's change succeeds as the last, with the highest number, and the mode is caller 1's. *)
Theorem C127_force_refuted : exists tr, let s := run (init 0) tr in
  (forall t, dead s t = false) /\ quiet s /\ changes s = [(7, 1); (8, 2)] /\ epoch s = 2 /\ mode s = 7.
Proof.
  exists [Start 1 7; Go 1; Go 1; Force 2; Start 2 8; Go 2; Go 2; Go 2; Go 1; Go 1; Go 2; Go 1; Go 2].
  split; [reflexivity|]. split; [|vm_compute; auto]. intros t. destruct t as [|[|[|t]]]; vm_compute; reflexivity.
Qed.
Print Assumptions C127_force_refuted.
(** Refuted: "after a topic's slots grew, a change makes every process resynchronise".  The topic asks for the mode it is in: nothing changes. *)
Theorem C127_grow_refuted s t tr : all_for (mode s) tr -> (forall u, dead s u = true \/ at_ s u = Idle) -> epoch (run s (Start t (mode s) :: tr)) = epoch s.
Proof.
  intros A Q. apply (same_run _ s (mode s)); auto. intros u m [[= _ <-]|I]; [reflexivity|exact (A u m I)].
Qed.
Print Assumptions C127_grow_refuted.
(** Two changes, one refused as not needed, one while the lock is held, one that lost the race for the lock. *)
Definition demo : list act :=
  [Start 1 7; Start 2 8; Go 1; Go 2; Go 1; Go 2; Start 3 9; Go 3; Go 1; Go 1; Go 1; Start 2 7; Start 4 5; Go 4; Go 4; Go 4; Go 4; Go 4].
Example C127_ex : unforced demo /\ quiet (run (init 0) demo) /\
  out (run (init 0) demo) = [(2, 8, Contention); (3, 9, InProgress); (1, 7, Success 1); (2, 7, NotNeeded); (4, 5, Success 2)] /\ mode (run (init 0) demo) = 5.
Proof.
  split; [intros t H; cbn in H; repeat (destruct H as [H|H]; [discriminate|]); exact H|].
  split; [|vm_compute; auto]. intros t. destruct t as [|[|[|[|[|t]]]]]; vm_compute; reflexivity.
Qed.
(** A crash inside. *)
Example C127_stuck_ex : let tr := [Start 1 7; Go 1; Go 1; Crash 1] in let s := run (init 0) tr in unforced tr /\ inside (at_ s 1) /\ dead s 1 = true.
Proof. cbv zeta. split; [intros t H; cbn in H; repeat (destruct H as [H|H]; [discriminate|]); exact H|]. vm_compute. auto. Qed.
