From Coq Require Import QArith.
From Verif.Base Require Import Prelude.
From Verif.Model Require Import Timer.
From Verif.Spec Require Import TimerSpec.
Open Scope nat_scope.

(** The invariant: the clock is past the cycle start, the cycle start is a whole
    number of periods after every return but one. *)
Definition inv_rate (p t0 : nat) (st : rate * nat * list nat) : Prop :=
  let '(r, now, l) := st in
  period r = p /\ cycle_start r <= now /\ t0 + length l * p <= cycle_start r
  /\ (forall k t, nth_error l k = Some t ->
        t0 + (k + 1) * p <= t /\ t <= now /\ t + (length l - k - 1) * p <= cycle_start r + p)
  /\ (forall i j a b, i < j -> nth_error l i = Some a -> nth_error l j = Some b ->
        a + (j - i) * p <= b + p).

Lemma nth_snoc {A} (l : list A) x k y :
  nth_error (l ++ [x]) k = Some y -> nth_error l k = Some y \/ (k = length l /\ y = x).
Proof.
  intros H. destruct (Nat.lt_ge_cases k (length l)).
  - rewrite nth_error_app1 in H by auto. auto.
  - rewrite nth_error_app2 in H by auto. destruct (k - length l) as [|n] eqn:E; cbn in H.
    + injection H as <-. right. split; auto. lia.
    + destruct n; discriminate.
Qed.

Lemma sleep_facts r now o d1 d2 r' now' :
  cycle_start r <= now -> rate_sleep r now o d1 d2 = (r', now') ->
  period r' = period r /\ cycle_start r + period r <= cycle_start r' /\ cycle_start r' <= now'
  /\ now <= now' /\ now' <= cycle_start r' + period r.
Proof.
  intros L. unfold rate_sleep.
  destruct (Nat.leb_spec (now - cycle_start r) (period r)) as [A|A];
    match goal with |- context [?a <? ?b] => destruct (Nat.ltb_spec a b) as [B|B] end;
    intros H; injection H as <- <-; cbn [period cycle_start]; lia.
Qed.

Lemma inv_step p t0 st a : inv_rate p t0 st -> inv_rate p t0 (act_step st a).
Proof.
  destruct st as [[r now] l]. intros (P & L & S & N & W). destruct a as [w|o d1 d2|]; cbn [act_step].
  - split; [auto|split; [lia|split; [auto|split; auto]]].
    intros k t Hk. destruct (N k t Hk) as (A & B & C). lia.
  - destruct (rate_sleep r now o d1 d2) as [r' now'] eqn:E.
    destruct (sleep_facts _ _ _ _ _ _ _ L E) as (P' & S' & L' & M & G).
    rewrite P in *. unfold inv_rate. rewrite app_length; cbn [length].
    split; [auto|split; [auto|split; [lia|split]]].
    + intros k t Hk. apply nth_snoc in Hk as [Hk|[-> ->]].
      * assert (k < length l) by (apply nth_error_Some; congruence).
        destruct (N k t Hk) as (A & B & C). split; [auto|split; [lia|]].
        replace (length l + 1 - k - 1) with (length l - k - 1 + 1) by lia. lia.
      * split; [lia|split; [lia|]]. replace (length l + 1 - length l - 1) with 0 by lia. lia.
    + intros i j a b Hij Hi Hj. apply nth_snoc in Hi as [Hi|[-> ->]].
      * apply nth_snoc in Hj as [Hj|[-> ->]]; [eauto|].
        destruct (N i a Hi) as (A & B & C).
        replace (length l - i) with (length l - i - 1 + 1) by lia. lia.
      * assert (j < length (l ++ [now'])) by (apply nth_error_Some; congruence).
        rewrite app_length in *; cbn [length] in *. lia.
  - split; [auto|split; [cbn; lia|split; [cbn; lia|split; [|auto]]]].
    intros k t Hk. destruct (N k t Hk) as (A & B & C). cbn [rate_reset cycle_start]. lia.
Qed.

Lemma inv_run p t0 l : inv_rate p t0 (run_rate p t0 l).
Proof.
  unfold run_rate. assert (H : inv_rate p t0 (rate_new p t0, t0, [])).
  { split; [reflexivity|split; [cbn; lia|split; [cbn; lia|split]]]; intros.
    - destruct k; discriminate.
    - destruct i; discriminate. }
  revert H. generalize (rate_new p t0, t0, @nil nat). induction l as [|a l IH]; intros st H; [exact H|].
  cbn [fold_left]. apply IH, inv_step, H.
Qed.

Lemma never_early p t0 l k t : nth_error (returns p t0 l) k = Some t -> t0 + (k + 1) * p <= t.
Proof.
  unfold returns. pose proof (inv_run p t0 l) as I. destruct (run_rate p t0 l) as [[r now] ls]; cbn [snd].
  destruct I as (_ & _ & _ & N & _). intros H. apply N in H. apply H.
Qed.

Lemma window p t0 l i j a b :
  i < j -> nth_error (returns p t0 l) i = Some a -> nth_error (returns p t0 l) j = Some b ->
  a + (j - i - 1) * p <= b.
Proof.
  unfold returns. pose proof (inv_run p t0 l) as I. destruct (run_rate p t0 l) as [[r now] ls]; cbn [snd].
  destruct I as (_ & _ & _ & _ & W). intros L Hi Hj. pose proof (W i j a b L Hi Hj) as H.
  replace (j - i) with (j - i - 1 + 1) in H by lia. lia.
Qed.

(** * Turns that are on time *)
Lemma paced_gen p l : forall r now ls lost, period r = p -> now = cycle_start r + lost -> lost <= p ->
  on_time p lost l ->
  exists r' now', fold_left act_step (paced l) (r, now, ls) = (r', now', ls ++ map (fun '(k, (w, o, d)) => cycle_start r + (k + 1) * p + o + d) (combine (seq 0 (length l)) l)) /\ period r' = p.
Proof.
  induction l as [|[[w o] d] l IH]; intros r now ls lost P N L T.
  - exists r, now. cbn. rewrite app_nil_r. auto.
  - destruct T as (A & B & T). cbn [paced flat_map app fold_left act_step].
    unfold rate_sleep. rewrite P.
    replace (now + w - cycle_start r) with (lost + w) by lia.
    replace (lost + w <=? p) with true by (symmetry; apply Nat.leb_le; auto).
    replace (now + w + (p - (lost + w)) + o + d) with (cycle_start r + p + (o + d)) by lia.
    replace (cycle_start r + p + (o + d) - (cycle_start r + p)) with (o + d) by lia.
    replace (p <? o + d) with false by (symmetry; apply Nat.ltb_ge; auto).
    edestruct (IH (Rate p (cycle_start r + p) (Some (smooth (smoothed r) (lost + w)))) (cycle_start r + p + (o + d)) (ls ++ [cycle_start r + p + (o + d)]) (o + d)) as (r' & now' & E & P'); auto.
    exists r', now'. split; auto. fold (paced l). rewrite E. f_equal. rewrite <- app_assoc. f_equal.
    cbn [length seq combine map app cycle_start]. f_equal; [lia|].
    rewrite <- seq_shift. clear. generalize (seq 0 (length l)) as ks. revert l.
    induction l as [|[[w' o'] d'] l IH]; intros [|k ks]; cbn [map combine]; auto.
    f_equal; [lia|apply IH].
Qed.

Lemma nth_error_combine_seq {A} (l : list A) : forall b k x,
  nth_error l k = Some x -> nth_error (combine (seq b (length l)) l) k = Some (b + k, x).
Proof.
  induction l as [|y l IH]; intros b [|k] x H; cbn in *; try discriminate.
  - injection H as <-. rewrite Nat.add_0_r. reflexivity.
  - rewrite (IH (S b) k x H). do 2 f_equal. lia.
Qed.

Lemma no_drift p t0 l k w o d :
  on_time p 0 l -> nth_error l k = Some (w, o, d) ->
  nth_error (returns p t0 (paced l)) k = Some (t0 + (k + 1) * p + o + d).
Proof.
  intros T H. unfold returns, run_rate.
  destruct (paced_gen p l (rate_new p t0) t0 [] 0) as (r' & now' & E & _); cbn; try lia; auto.
  rewrite E. cbn [snd app rate_new cycle_start].
  rewrite (map_nth_error (fun '(k0, (w0, o0, d0)) => t0 + (k0 + 1) * p + o0 + d0) k _ (nth_error_combine_seq l 0 k _ H)).
  reflexivity.
Qed.

(** * The rate it reports *)
Lemma smooth_const w q : (q == ns w)%Q -> (smooth (Some q) w == ns w)%Q.
Proof. intros E. unfold smooth. rewrite E. ring. Qed.

Lemma constant_gen p w n : forall r ls, w <= p -> period r = p ->
  (forall q, smoothed r = Some q -> (q == ns w)%Q) ->
  let '(r', _, _) := fold_left act_step (paced (repeat (w, 0, 0) (S n))) (r, cycle_start r, ls) in
  exists q, smoothed r' = Some q /\ (q == ns w)%Q.
Proof.
  induction n as [|n IH]; intros r ls L P Q;
    change (repeat (w, 0, 0) (S ?k)) with ((w, 0, 0) :: repeat (w, 0, 0) k) at 1;
    cbn [paced flat_map app fold_left act_step]; unfold rate_sleep; rewrite P;
    replace (cycle_start r + w - cycle_start r) with w by lia;
    replace (w <=? p) with true by (symmetry; apply Nat.leb_le; auto);
    replace (cycle_start r + w + (p - w) + 0 + 0) with (cycle_start r + p) by lia;
    rewrite Nat.sub_diag; replace (p <? 0) with false by reflexivity.
  - cbn. eexists; split; [reflexivity|]. destruct (smoothed r) as [q|] eqn:E; [apply smooth_const; auto|cbn; reflexivity].
  - apply (IH (Rate p (cycle_start r + p) (Some (smooth (smoothed r) w)))); auto.
    cbn. intros q H. injection H as <-. destruct (smoothed r) as [q|] eqn:E; [apply smooth_const; auto|cbn; reflexivity].
Qed.

Lemma on_time_const p w n : w <= p -> forall lost, lost = 0 -> on_time p lost (repeat (w, 0, 0) n).
Proof. intros L. induction n; intros lost ->; cbn; auto. split; [lia|]. split; [lia|]. apply IHn. reflexivity. Qed.

Lemma reports_work p t0 w n : 0 < w -> w <= p ->
  exists q, actual_hz (after p t0 (paced (repeat (w, 0, 0) (S n)))) = Some q /\ (q == / ns w)%Q.
Proof.
  intros W L. pose proof (constant_gen p w n (rate_new p t0) [] L eq_refl) as H.
  unfold after, run_rate. change (cycle_start (rate_new p t0)) with t0 in H.
  destruct (fold_left act_step _ _) as [[r now] ls]. cbn [fst].
  destruct H as (q & E & Eq); [discriminate|]. unfold actual_hz. rewrite E.
  destruct (Qlt_le_dec 0 q) as [G|G].
  - exists (/ q)%Q. split; auto. rewrite Eq. reflexivity.
  - exfalso. rewrite Eq in G. unfold Qle, ns in G. cbn in G. lia.
Qed.
