(** C98: loops paced by a rate. *)
From Coq Require Import QArith.
From Verif.Base Require Import Prelude.
From Verif.Model Require Import Timer.
From Verif.Spec Require Import TimerSpec.
From Verif.Proofs Require Import TimerProofs.
Open Scope nat_scope.

(** Whatever the thread does and however the operating system schedules it, the
    [k+1]-th [sleep] never returns before [k+1] periods have gone by since the
    rate was created. *)
Theorem C98_never_early : forall p t0 l k t,
  nth_error (returns p t0 l) k = Some t -> t0 + (k + 1) * p <= t.
Proof. exact never_early. Qed.
Print Assumptions C98_never_early.

(** A loop that falls behind makes up for one period at the most: between any two
    returns lie all the periods between them but one. *)
Theorem C98_catch_up : forall p t0 l i j a b,
  i < j -> nth_error (returns p t0 l) i = Some a -> nth_error (returns p t0 l) j = Some b ->
  a + (j - i - 1) * p <= b.
Proof. exact window. Qed.
Print Assumptions C98_catch_up.

(** While every turn is done in time, lateness does not add up: the [k+1]-th
    [sleep] returns [k+1] periods after the start, plus only what that very call
    lost to the operating system. *)
Theorem C98_no_drift : forall p t0 l k w o d,
  on_time p 0 l -> nth_error l k = Some (w, o, d) ->
  nth_error (returns p t0 (paced l)) k = Some (t0 + (k + 1) * p + o + d).
Proof. exact no_drift. Qed.
Print Assumptions C98_no_drift.

Example C98_ex_no_drift : on_time 100 0 [(30, 5, 1); (94, 0, 0); (10, 90, 3)]
  /\ returns 100 1000 (paced [(30, 5, 1); (94, 0, 0); (10, 90, 3)]) = [1106; 1200; 1393].
Proof. split; [cbn; lia|reflexivity]. Qed.

(** Two turns can be closer together than a period: after a turn that is late by
    any [x] up to a period, an idle turn comes [p - x] later. *)
Theorem C98_spacing_refuted : forall p t0 x, 0 < x <= p ->
  returns p t0 [Work (p + x); Sleep 0 0 0; Sleep 0 0 0] = [t0 + p + x; t0 + p + x + (p - x)].
Proof.
  intros p t0 x L. unfold returns, run_rate, rate_new. cbn [fold_left act_step].
  unfold rate_sleep at 1. cbn [cycle_start period smoothed].
  destruct (Nat.leb_spec (t0 + (p + x) - t0) p); [lia|].
  match goal with |- context [?a <? ?b] => destruct (Nat.ltb_spec a b); [lia|] end.
  cbn [act_step]. unfold rate_sleep. cbn [cycle_start period smoothed].
  match goal with |- context [?a <=? ?b] => destruct (Nat.leb_spec a b); [|lia] end.
  match goal with |- context [?a <? ?b] => destruct (Nat.ltb_spec a b); [lia|] end.
  cbn [snd app].
  match goal with |- [?a; ?b] = [?c; ?d] => replace b with d by lia; replace a with c by lia; reflexivity end.
Qed.
Print Assumptions C98_spacing_refuted.

(** [actual_hz] is not the frequency the loop achieves: a loop whose turns return
    exactly one period apart reports one over its working time, for every working
    time and however long it runs. *)
Theorem C98_actual_hz_refuted : forall p t0 w n, 0 < w -> w <= p ->
  (forall k, k < S n ->
     nth_error (returns p t0 (paced (repeat (w, 0, 0) (S n)))) k = Some (t0 + (k + 1) * p))
  /\ exists q, actual_hz (after p t0 (paced (repeat (w, 0, 0) (S n)))) = Some q /\ (q == / ns w)%Q.
Proof.
  intros p t0 w n W L. split; [|apply reports_work; auto].
  intros k Hk. erewrite no_drift; [|apply on_time_const; auto|apply (nth_error_repeat (w, 0, 0)), Hk].
  f_equal. lia.
Qed.
Print Assumptions C98_actual_hz_refuted.

(** [is_late] says whether [sleep] would return at once or after the end of the
    period: when it holds, a punctual [sleep] takes no time at all, and when it
    does not, it takes what is left of the period. *)
Theorem C98_is_late : forall p t0 l,
  let r := after p t0 l in let now := snd (fst (run_rate p t0 l)) in
  is_late r now = true <-> snd (rate_sleep r now 0 0 0) = now.
Proof.
  intros p t0 l. cbv zeta. unfold after. pose proof (inv_run p t0 l) as I.
  destruct (run_rate p t0 l) as [[r now] ls]. cbn [fst snd].
  destruct I as (P & L & _).   unfold is_late, rate_sleep. rewrite P.
  destruct (Nat.leb_spec p (now - cycle_start r)), (Nat.leb_spec (now - cycle_start r) p);
    match goal with |- context [?a <? ?b] => destruct (Nat.ltb_spec a b) end; cbn [snd]; split; intros; try lia; try congruence.
Qed.
Print Assumptions C98_is_late.

Example C98_ex_late : let r := after 100 0 [Work 30; Sleep 0 0 0; Work 120] in
  cycle_start r = 100 /\ is_late r 220 = true /\ is_late r 150 = false.
Proof. repeat split; reflexivity. Qed.
