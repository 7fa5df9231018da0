From Verif Require Import Base.Prelude Model.Safety Model.ExecLoop Model.Suppress Spec.SuppressSpec.
Local Open Scope N_scope.

Definition max64 : N := 18446744073709551616.

Lemma u64_id : forall x, x < max64 -> Wd.u64 x = x.
Proof. intros; unfold Wd.u64. apply N.mod_small. exact H. Qed.
Lemma gu64_id : forall x, x < max64 -> Gate.u64 x = x.
Proof. intros; unfold Gate.u64. apply N.mod_small. exact H. Qed.

(** What the check says, without wrap-around. *)
Lemma check_spec : forall w now, 3 * Wd.timeout w < max64 ->
  snd (Wd.check w now) = (if now - Wd.last w <=? Wd.timeout w then Wd.Ok
                          else if now - Wd.last w <=? 2 * Wd.timeout w then Wd.Warning
                          else if now - Wd.last w <=? 3 * Wd.timeout w then Wd.Expired else Wd.Critical) /\
  Wd.timeout (fst (Wd.check w now)) = Wd.timeout w /\ Wd.last (fst (Wd.check w now)) = Wd.last w.
Proof.
  intros w now L. unfold Wd.check. rewrite (u64_id (Wd.timeout w)) by lia.
  rewrite !u64_id by lia. rewrite (N.mul_comm _ 2), (N.mul_comm _ 3).
  destruct (_ <=? _); [auto|]. destruct (_ <=? _); [auto|]. destruct (_ <=? _); auto.
Qed.

Lemma main_free : forall n e, active n -> fit n ->
  Gate.op_paused e = false -> Gate.policy e = true -> Gate.due e = true -> Gate.main n e = (true, n).
Proof.
  intros n e (A & B & C) F P Q D. unfold Gate.main. rewrite B, Q. cbn [negb].
  destruct F as [F|F]; rewrite F; cbn [andb]; rewrite P, C, A, D; reflexivity.
Qed.

(** A cycle that keeps its time. *)
Lemma one_kept : forall s c T, active (nd s) -> Gate.hp (nd s) = Gate.Healthy -> Wd.timeout (wd s) = T -> 3 * T < max64 ->
  free c -> c_check c - c_feed c <= T ->
  exists s', one s c = (true, s') /\ nd s' = nd s /\ Wd.timeout (wd s') = T /\ estop s' = estop s /\ safed s' = safed s.
Proof.
  intros s c T A H E L (F1 & F2 & F3) K. unfold one. rewrite main_free by (auto; left; auto).
  assert (R : (if true && c_ok c then recover (nd s) (Wd.feed (wd s) (c_feed c)) (c_again c)
               else (nd s, Wd.feed (wd s) (c_feed c))) = (nd s, Wd.feed (wd s) (c_feed c))).
  { cbn [andb]. destruct (c_ok c); [|reflexivity]. unfold recover. rewrite H. reflexivity. }
  rewrite R. destruct (check_spec (Wd.feed (wd s) (c_feed c)) (c_check c)) as (V & T1 & _); [cbn; lia|].
  destruct (Wd.check _ _) as [w v]. cbn [fst snd] in *. cbn [Wd.feed Wd.timeout Wd.last] in *.
  assert (c_check c - c_feed c <=? Wd.timeout (wd s) = true) as Q by (apply N.leb_le; lia). rewrite Q in V. subst v.
  eexists; split; [reflexivity|]. cbn [react nd wd estop safed]. repeat split; congruence.
Qed.

Lemma cycles_kept : forall T cs s, active (nd s) -> Gate.hp (nd s) = Gate.Healthy -> Wd.timeout (wd s) = T -> 3 * T < max64 ->
  Forall free cs -> Forall (fun c => c_check c - c_feed c <= T) cs ->
  ticks (fst (cycles s cs)) = length cs /\ nd (snd (cycles s cs)) = nd s /\
  estop (snd (cycles s cs)) = estop s /\ safed (snd (cycles s cs)) = safed s.
Proof.
  intros T cs; induction cs as [|c cs IH]; intros s A H E L F K; cbn [cycles]; [repeat split|].
  inversion F; subst; inversion K; subst.
  destruct (one_kept s c (Wd.timeout (wd s))) as (s' & O & N1 & N2 & N3 & N4); auto.
  rewrite O. destruct (IH s') as (I1 & I2 & I3 & I4); try (rewrite N1); auto.
  destruct (cycles s' cs) as [l s2]. cbn [fst snd] in *. unfold ticks in *. cbn [filter length]. repeat split; congruence.
Qed.

(** Suppressed nodes stay suppressed. *)
Definition unfit (n : Gate.node) : Prop := Gate.hp n = Gate.Unhealthy \/ Gate.hp n = Gate.Isolated.

Lemma main_hp : forall n e, Gate.hp (snd (Gate.main n e)) = Gate.hp n.
Proof.
  intros n e. unfold Gate.main. destruct (Gate.stopped n); [auto|]. destruct (negb (Gate.policy e)); [auto|].
  destruct (Gate.hp n) eqn:H; cbn [andb]; repeat (match goal with |- context [if ?b then _ else _] => destruct b end); cbn; auto.
Qed.
Lemma react_unfit : forall s v, unfit (nd s) -> unfit (nd (react s v)).
Proof.
  intros s v U. destruct v; cbn [react]; auto; destruct (Gate.hp (nd s)) eqn:H; cbn; unfold unfit in *; cbn; auto;
    destruct U; congruence.
Qed.
Lemma one_unfit : forall s c, unfit (nd s) -> unfit (nd (snd (one s c))).
Proof.
  intros s c U. unfold one. pose proof (main_hp (nd s) (c_env c)) as M.
  destruct (Gate.main (nd s) (c_env c)) as [b n1]. cbn [snd] in M.
  assert (R : forall w, (if b && c_ok c then recover n1 w (c_again c) else (n1, w)) = (n1, w)).
  { intros w. destruct (b && c_ok c); [|auto]. unfold recover. rewrite M. destruct U as [-> | ->]; auto. }
  rewrite R. destruct (Wd.check _ _) as [w v]. apply react_unfit. cbn [nd]. unfold unfit in *. rewrite M. exact U.
Qed.
Lemma cycles_unfit : forall cs s, unfit (nd s) -> unfit (nd (snd (cycles s cs))).
Proof.
  induction cs as [|c cs IH]; intros s U; cbn [cycles]; [auto|].
  pose proof (one_unfit s c U) as O. destruct (one s c) as [b s1]. cbn [snd] in O. specialize (IH s1 O).
  destruct (cycles s1 cs) as [l s2]. exact IH.
Qed.

(** The gate of a suppressed node. *)
Lemma main_unfit : forall n e, unfit n -> Gate.probe n + 1 < max64 ->
  (Gate.probe (snd (Gate.main n e)) = Gate.probe n \/ Gate.probe (snd (Gate.main n e)) = Gate.probe n + 1) /\
  (fst (Gate.main n e) = true -> Gate.probe (snd (Gate.main n e)) = Gate.probe n + 1 /\ (Gate.probe n + 1) mod 100 = 0).
Proof.
  intros n e U L. unfold Gate.main. destruct (Gate.stopped n); [cbn; split; [auto|discriminate]|].
  destruct (negb (Gate.policy e)); [cbn; split; [auto|discriminate]|].
  assert (S : match Gate.hp n with Gate.Unhealthy | Gate.Isolated => true | _ => false end = true) by (destruct U as [-> | ->]; auto).
  rewrite S, gu64_id by exact L. cbn [andb]. unfold Gate.probe_interval.
  destruct (((Gate.probe n + 1) mod 100 =? 0)) eqn:M; cbn [negb]; [|cbn; split; [auto|discriminate]].
  apply N.eqb_eq in M. destruct (Gate.op_paused e); [cbn; split; [auto|discriminate]|].
  destruct (Gate.skip n); cbn; split; auto; discriminate.
Qed.
Lemma react_probe : forall s v, Gate.probe (nd (react s v)) = Gate.probe (nd s).
Proof. intros s v. destruct v; cbn [react]; auto; destruct (Gate.hp (nd s)); auto. Qed.
Lemma one_probe : forall s c, unfit (nd s) -> Gate.probe (nd (snd (one s c))) = Gate.probe (snd (Gate.main (nd s) (c_env c))) /\
  fst (one s c) = fst (Gate.main (nd s) (c_env c)).
Proof.
  intros s c U. unfold one. pose proof (main_hp (nd s) (c_env c)) as M.
  destruct (Gate.main (nd s) (c_env c)) as [b n1]. cbn [snd] in M.
  assert (R : forall w, (if b && c_ok c then recover n1 w (c_again c) else (n1, w)) = (n1, w)).
  { intros w. destruct (b && c_ok c); [|auto]. unfold recover. rewrite M. destruct U as [-> | ->]; auto. }
  rewrite R. destruct (Wd.check _ _) as [w v]. cbn [fst snd]. rewrite react_probe. auto.
Qed.
Lemma div_step : forall a, (a + 1) mod 100 = 0 -> (a + 1) / 100 = a / 100 + 1.
Proof.
  intros a H. pose proof (N.div_mod (a + 1) 100). pose proof (N.div_mod a 100). pose proof (N.mod_lt a 100). lia.
Qed.
Lemma cycles_rare : forall cs s, unfit (nd s) -> Gate.probe (nd s) + N.of_nat (length cs) < max64 ->
  N.of_nat (ticks (fst (cycles s cs))) + Gate.probe (nd s) / 100 <= (Gate.probe (nd s) + N.of_nat (length cs)) / 100.
Proof.
  induction cs as [|c cs IH]; intros s U L; cbn [cycles length] in *.
  - cbn. rewrite N.add_0_r. lia.
  - destruct (one_probe s c U) as [P B]. destruct (main_unfit (nd s) (c_env c) U) as [Q1 Q2]; [lia|].
    pose proof (one_unfit s c U) as U1. destruct (one s c) as [b s1]. cbn [fst snd] in *.
    assert (L1 : Gate.probe (nd s1) + N.of_nat (length cs) < max64) by (rewrite P; destruct Q1; lia).
    specialize (IH s1 U1 L1). destruct (cycles s1 cs) as [l s2]. cbn [fst] in *. unfold ticks in *. cbn [filter].
    rewrite <- B, <- P in *.
    assert (Mono : forall x y, x <= y -> x / 100 <= y / 100) by (intros; apply N.div_le_mono; lia).
    destruct b; cbn [length].
    + destruct (Q2 eq_refl) as [E M]. apply div_step in M. rewrite E in IH.
      pose proof (Mono (Gate.probe (nd s) + 1 + N.of_nat (length cs)) (Gate.probe (nd s) + N.of_nat (S (length cs)))). lia.
    + destruct Q1 as [E|E]; rewrite E in IH.
      * pose proof (Mono (Gate.probe (nd s) + N.of_nat (length cs)) (Gate.probe (nd s) + N.of_nat (S (length cs)))). lia.
      * pose proof (Mono (Gate.probe (nd s) + 1 + N.of_nat (length cs)) (Gate.probe (nd s) + N.of_nat (S (length cs)))).
        pose proof (Mono (Gate.probe (nd s)) (Gate.probe (nd s) + 1)). lia.
Qed.

(** A suppressed node that is not probed in time sets off the emergency stop. *)
Lemma one_quiet : forall s c, unfit (nd s) -> fst (one s c) = false -> 3 * Wd.timeout (wd s) < max64 ->
  let s1 := snd (one s c) in
  Wd.timeout (wd s1) = Wd.timeout (wd s) /\ Wd.last (wd s1) = Wd.last (wd s) /\
  (estop s = true -> estop s1 = true) /\ (Wd.last (wd s) + 3 * Wd.timeout (wd s) < c_check c -> estop s1 = true).
Proof.
  intros s c U B L. cbv zeta. rewrite (proj2 (one_probe s c U)) in B. unfold one.
  pose proof (main_hp (nd s) (c_env c)) as M.
  destruct (Gate.main (nd s) (c_env c)) as [b n1]. cbn [fst snd] in M, B. subst b.
  cbn [andb]. destruct (check_spec (wd s) (c_check c) L) as (V & T1 & T2).
  destruct (Wd.check (wd s) (c_check c)) as [w v]. cbn [fst snd] in *.
  assert (W : forall x, wd (react x v) = wd x) by (intros x; destruct v; cbn [react]; auto; destruct (Gate.hp (nd x)); auto).
  rewrite W. cbn [wd]. split; [auto|]. split; [auto|]. split.
  - intros E. destruct v; cbn [react]; auto; destruct (Gate.hp _); auto.
  - intros K. assert (v = Wd.Critical) as ->.
    { rewrite V. destruct (N.leb_spec (c_check c - Wd.last (wd s)) (Wd.timeout (wd s))); [lia|].
      destruct (N.leb_spec (c_check c - Wd.last (wd s)) (2 * Wd.timeout (wd s))); [lia|].
      destruct (N.leb_spec (c_check c - Wd.last (wd s)) (3 * Wd.timeout (wd s))); [lia|]. reflexivity. }
    cbn [react]. destruct (Gate.hp _); reflexivity.
Qed.
Lemma cycles_stop : forall cs s, unfit (nd s) -> 3 * Wd.timeout (wd s) < max64 ->
  Gate.probe (nd s) + N.of_nat (length cs) < max64 -> Gate.probe (nd s) mod 100 + N.of_nat (length cs) < 100 ->
  ticks (fst (cycles s cs)) = 0%nat /\ (estop s = true -> estop (snd (cycles s cs)) = true) /\
  (Exists (fun c => Wd.last (wd s) + 3 * Wd.timeout (wd s) < c_check c) cs -> estop (snd (cycles s cs)) = true).
Proof.
  induction cs as [|c cs IH]; intros s U T L M; cbn [cycles length] in *.
  - split; [reflexivity|]. split; [auto|]. intros X; inversion X.
  - destruct (one_probe s c U) as [P B]. destruct (main_unfit (nd s) (c_env c) U) as [Q1 Q2]; [lia|].
    pose proof (one_unfit s c U) as U1.
    assert (D : (Gate.probe (nd s) + 1) mod 100 = Gate.probe (nd s) mod 100 + 1).
    { rewrite N.add_mod by lia. change (1 mod 100) with 1. apply N.mod_small. lia. }
    assert (Bf : fst (one s c) = false).
    { rewrite B. destruct (fst (Gate.main (nd s) (c_env c))); [|auto]. destruct (Q2 eq_refl) as [_ X]. lia. }
    destruct (one_quiet s c U Bf T) as (O1 & O2 & O3 & O4).
    destruct (one s c) as [b s1]. cbn [fst snd] in *. subst b.
    destruct (IH s1) as (I1 & I2 & I3); auto.
    + rewrite O1; auto.
    + rewrite P; destruct Q1; lia.
    + rewrite P. destruct Q1 as [E|E]; rewrite E; lia.
    + destruct (cycles s1 cs) as [l s2]. cbn [fst snd] in *. rewrite O1, O2 in I3.
      split; [unfold ticks in *; cbn [filter]; rewrite Bf; exact I1|]. split; [auto|].
      intros X. inversion X; subst; auto.
Qed.

(** One tick that takes more than twice the timeout. *)
Lemma one_late : forall s c, active (nd s) -> fit (nd s) -> 3 * Wd.timeout (wd s) < max64 -> free c -> c_ok c = false \/ Gate.hp (nd s) = Gate.Healthy ->
  2 * Wd.timeout (wd s) < c_check c - c_feed c <= 3 * Wd.timeout (wd s) ->
  exists s', one s c = (true, s') /\ Gate.hp (nd s') = Gate.Unhealthy /\ Gate.probe (nd s') = Gate.probe (nd s) /\
    Wd.timeout (wd s') = Wd.timeout (wd s) /\ Wd.last (wd s') = c_feed c /\ estop s' = estop s.
Proof.
  intros s c A H L (F1 & F2 & F3) O K. unfold one. rewrite main_free by auto.
  assert (R : (if true && c_ok c then recover (nd s) (Wd.feed (wd s) (c_feed c)) (c_again c)
               else (nd s, Wd.feed (wd s) (c_feed c))) = (nd s, Wd.feed (wd s) (c_feed c))).
  { cbn [andb]. destruct (c_ok c); [|reflexivity]. unfold recover. destruct O as [O|O]; [discriminate|]. rewrite O. reflexivity. }
  rewrite R. destruct (check_spec (Wd.feed (wd s) (c_feed c)) (c_check c)) as (V & T1 & T2); [cbn; lia|].
  destruct (Wd.check _ _) as [w v]. cbn [fst snd] in *. cbn [Wd.feed Wd.timeout Wd.last] in *.
  assert (v = Wd.Expired) as ->.
  { rewrite V. destruct (N.leb_spec (c_check c - c_feed c) (Wd.timeout (wd s))); [lia|].
    destruct (N.leb_spec (c_check c - c_feed c) (2 * Wd.timeout (wd s))); [lia|].
    destruct (N.leb_spec (c_check c - c_feed c) (3 * Wd.timeout (wd s))); [reflexivity|lia]. }
  cbn [react nd]. destruct H as [H|H]; rewrite H; eexists; (split; [reflexivity|]); cbn; auto.
Qed.

(** Feeding is all a history of handled events does. *)
Lemma run_feeds : forall ts w, fst (Wd.run w (map Wd.Feed ts)) =
  match rev ts with [] => w | t :: _ => {| Wd.timeout := Wd.timeout w; Wd.base := Wd.base w; Wd.last := t; Wd.expired := false |} end.
Proof.
  intros ts. assert (G : forall us w, fst (Wd.run w (map Wd.Feed us)) = fold_left Wd.feed us w).
  { induction us as [|t us IH]; intros w; [reflexivity|]. cbn [map Wd.run Wd.step fold_left].
    rewrite <- IH. destruct (Wd.run (Wd.feed w t) (map Wd.Feed us)). reflexivity. }
  intros w. rewrite G. assert (T : forall us x, Wd.timeout (fold_left Wd.feed us x) = Wd.timeout x /\ Wd.base (fold_left Wd.feed us x) = Wd.base x).
  { induction us as [|t us IH]; intros x; [auto|]. cbn [fold_left]. destruct (IH (Wd.feed x t)) as [-> ->]. auto. }
  destruct ts as [|t0 ts _] using rev_ind; [reflexivity|]. rewrite fold_left_app, rev_app_distr. cbn [fold_left rev app].
  unfold Wd.feed at 1. destruct (T ts w) as [-> ->]. reflexivity.
Qed.

(** Safing. *)
Lemma one_isolated : forall s c, Gate.hp (nd s) = Gate.Isolated -> estop s = true ->
  Gate.hp (nd (snd (one s c))) = Gate.Isolated /\ estop (snd (one s c)) = true /\ safed (snd (one s c)) = safed s.
Proof.
  intros s c H E. unfold one. pose proof (main_hp (nd s) (c_env c)) as M. destruct (Gate.main (nd s) (c_env c)) as [b n1]. cbn [snd] in M.
  assert (R : forall w, (if b && c_ok c then recover n1 w (c_again c) else (n1, w)) = (n1, w))
    by (intros w; destruct (b && c_ok c); [unfold recover; rewrite M, H|]; reflexivity).
  rewrite R. destruct (Wd.check _ _) as [w v]. cbn [snd]. rewrite H in M. destruct v; cbn [react nd]; rewrite ?M; cbn; auto.
Qed.
Lemma one_safes : forall s c, Gate.hp (nd s) <> Gate.Isolated -> estop s = false ->
  (estop (snd (one s c)) = true /\ Gate.hp (nd (snd (one s c))) = Gate.Isolated /\ safed (snd (one s c)) = S (safed s)) \/
  (estop (snd (one s c)) = false /\ Gate.hp (nd (snd (one s c))) <> Gate.Isolated /\ safed (snd (one s c)) = safed s).
Proof.
  intros s c H E. unfold one. pose proof (main_hp (nd s) (c_env c)) as M. destruct (Gate.main (nd s) (c_env c)) as [b n1]. cbn [snd] in M.
  match goal with |- context [let '(n2, w2) := ?x in _] => destruct x as [n2 w2] eqn:R end.
  assert (H2 : Gate.hp n2 <> Gate.Isolated).
  { destruct (b && c_ok c); [|congruence]. unfold recover in R. destruct (Gate.hp n1) eqn:H1; injection R as <- <-; cbn; congruence. }
  destruct (Wd.check _ _) as [w v]. cbn [snd].
  destruct v; cbn [react nd]; destruct (Gate.hp n2) eqn:H3; cbn; try rewrite H3; try congruence;
    ((left; repeat split; congruence) || (right; repeat split; congruence)).
Qed.
