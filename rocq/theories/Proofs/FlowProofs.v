From Verif.Base Require Import Prelude Bytes AMap.
From Verif.Model Require Import Wire Reliability FlowControl.
From Verif.Spec Require Import FlowSpec.
From Verif.Proofs Require Import ReliabilityProofs.
Local Open Scope N_scope.

Lemma rate_thresholds g t : 0 < t ->
  (rate_of g t = Full <-> 100 * g < t) /\
  (rate_of g t = Half <-> t <= 100 * g /\ 20 * g < t) /\
  (rate_of g t = Quarter <-> t <= 20 * g /\ 5 * g < t) /\
  (rate_of g t = KeyframeOnly <-> t <= 5 * g).
Proof.
  intros Ht. unfold rate_of. rewrite (proj2 (N.eqb_neq t 0)) by lia. cbn [orb].
  destruct (N.ltb_spec (100 * g) t); [|destruct (N.ltb_spec (20 * g) t); [|destruct (N.ltb_spec (5 * g) t)]];
    repeat split; intros; try discriminate; try reflexivity; try lia.
Qed.

Lemma rate_monotone g1 t1 g2 t2 : 0 < t1 -> 0 < t2 -> g1 * t2 <= g2 * t1 ->
  divisor (rate_of g1 t1) <= divisor (rate_of g2 t2).
Proof.
  intros H1 H2 Hle. unfold rate_of. rewrite !(proj2 (N.eqb_neq _ 0)) by lia. cbn [orb].
  destruct (N.ltb_spec (100 * g1) t1); [cbn; repeat (destruct (_ <? _)); cbn; lia|].
  rewrite (proj2 (N.ltb_ge (100 * g2) t2)) by nia.
  destruct (N.ltb_spec (20 * g1) t1); [cbn; repeat (destruct (_ <? _)); cbn; lia|].
  rewrite (proj2 (N.ltb_ge (20 * g2) t2)) by nia.
  destruct (N.ltb_spec (5 * g1) t1); [cbn; repeat (destruct (_ <? _)); cbn; lia|].
  rewrite (proj2 (N.ltb_ge (5 * g2) t2)) by nia. cbn; lia.
Qed.

Lemma wadd_small a : a < 2 ^ 32 - 1 -> u32_wrapping_add a 1 = a + 1.
Proof. intros. unfold u32_wrapping_add. change (2 ^ 32) with 4294967296 in *. apply N.mod_small. lia. Qed.

Lemma last_cons {A} (x : A) l d : List.last (x :: l) d = List.last l x.
Proof.
  revert x d; induction l as [|y l IH]; intros x d; [reflexivity|].
  change (List.last (y :: l) d = List.last (y :: l) x). rewrite !IH. reflexivity.
Qed.

(** In-order reception within one window counts exactly the missing numbers. *)
Lemma gap_accounting_mid peer topic : forall l st last gaps total w,
  lookup pair_eqb (peer, topic) st = Some (mkRecv last gaps total w) ->
  last < 2 ^ 32 -> gaps + (List.last (map snd l) last - last) < 2 ^ 32 -> total + N.of_nat (length l) < 2 ^ 32 ->
  increasing_from last (map snd l) -> List.last (map snd l) last < 2 ^ 32 ->
  Forall (fun ts => fst ts < w + 1000) l ->
  exists st', frun st (receptions peer topic l) = Some (st', []) /\
    lookup pair_eqb (peer, topic) st' =
      Some (mkRecv (List.last (map snd l) last)
                   (gaps + (List.last (map snd l) last - last) - N.of_nat (length l))
                   (total + N.of_nat (length l)) w) /\
    last + N.of_nat (length l) <= List.last (map snd l) last.
Proof.
  induction l as [|[t s] r IH]; intros st lst gaps total w Hl Hlast Hg Ht Hinc Hend Hw.
  - exists st. cbn in *. rewrite Hl. split; auto. split; [f_equal; f_equal; lia | lia].
  - cbn [map snd] in *. cbn [receptions map frun fst snd increasing_from] in *.
    destruct Hinc as (Hlt & Hj & Hinc). apply Forall_cons_iff in Hw as [Hw1 Hw2]. cbn [fst] in Hw1.
    assert (Hmono : forall x l', increasing_from x l' -> x <= List.last l' x).
    { intros x l'. revert x. induction l' as [|y l' IHl]; intros x Hx; cbn [increasing_from] in Hx; [cbn; lia|].
      destruct Hx as (? & ? & Hx). specialize (IHl y Hx). rewrite last_cons. lia. }
    rewrite last_cons in *. pose proof (Hmono s (map snd r) Hinc) as Hm.
    change (2 ^ 31 - 1) with 2147483647 in *.
    unfold on_received. rewrite Hl. unfold WINDOW_DURATION. cbn [rs_window].
    rewrite (proj2 (N.leb_gt 1000 (t - w))) by lia. cbn [rs_total rs_last rs_gaps rs_window].
    unfold u32_checked_add. cbn [length] in Ht.
    rewrite (proj2 (N.ltb_lt (total + 1) (2 ^ 32))) by lia.
    assert (Hs32 : s < 2 ^ 32) by lia.
    rewrite wadd_small by lia.
    rewrite (proj2 (N.ltb_lt lst s)) by lia. cbn [orb].
    assert (Hgap : (if (lst + 1 <? s) && (u32_wrapping_sub s (lst + 1) <? U32_HALF)
                    then if gaps + u32_wrapping_sub s (lst + 1) <? 2 ^ 32 then Some (gaps + u32_wrapping_sub s (lst + 1)) else None
                    else Some gaps) = Some (gaps + (s - (lst + 1)))).
    { rewrite wsub_le by lia. unfold U32_HALF. rewrite (proj2 (N.ltb_lt (s - (lst + 1)) 2147483647)) by lia.
      rewrite andb_true_r. destruct (N.ltb_spec (lst + 1) s).
      - rewrite (proj2 (N.ltb_lt _ _)) by lia. auto.
      - f_equal. lia. }
    rewrite Hgap.
    destruct (IH (insert pair_eqb (peer, topic) (mkRecv s (gaps + (s - (lst + 1))) (total + 1) w) st)
                 s (gaps + (s - (lst + 1))) (total + 1) w) as (st' & E1 & E2 & E3); auto; try lia.
    + apply (lookup_insert_eq pair_eqb pair_eqb_spec).
    + exists st'. unfold receptions in E1. rewrite E1, E2. cbn [length]. split; auto. split.
      * f_equal. f_equal; lia.
      * lia.
Qed.

Lemma gap_accounting peer topic t0 s0 l st :
  lookup pair_eqb (peer, topic) st = None ->
  increasing_from s0 (map snd l) -> s0 < 2 ^ 32 -> List.last (map snd l) s0 < 2 ^ 32 ->
  Forall (fun ts => fst ts < t0 + 1000) l -> N.of_nat (length l) + 1 < 2 ^ 32 ->
  exists st', frun st (receptions peer topic ((t0, s0) :: l)) = Some (st', []) /\
    lookup pair_eqb (peer, topic) st' =
      Some (mkRecv (List.last (map snd l) s0)
                   (List.last (map snd l) s0 - s0 - N.of_nat (length l))
                   (N.of_nat (length l) + 1) t0).
Proof.
  intros Hl Hinc Hs Hend Hw Hlen. cbn [receptions map fst snd frun]. unfold on_received. rewrite Hl.
  destruct (gap_accounting_mid peer topic l (insert pair_eqb (peer, topic) (mkRecv s0 0 1 t0) (enforce_key_cap st)) s0 0 1 t0)
    as (st' & E1 & E2 & _); auto; try lia.
  - apply (lookup_insert_eq pair_eqb pair_eqb_spec).
  - unfold receptions in E1. rewrite E1. exists st'. split; auto. rewrite E2. f_equal. f_equal; lia.
Qed.

Lemma frun_app ops1 ops2 : forall st,
  frun st (ops1 ++ ops2) = match frun st ops1 with
    | Some (st1, o1) => match frun st1 ops2 with Some (st2, o2) => Some (st2, o1 ++ o2) | None => None end
    | None => None end.
Proof.
  induction ops1 as [|o r IH]; intros st; cbn [app frun].
  - destruct (frun st ops2) as [[? ?]|]; auto.
  - destruct o.
    + destruct (on_received now st peer topic sequence); auto.
    + rewrite IH. destruct (frun st r) as [[st1 o1]|]; auto. destruct (frun st1 ops2) as [[? ?]|]; auto.
Qed.

Lemma sends_same st n prio p t :
  frun st (repeat (FSend prio p t) n) = Some (st, repeat (transmit_allowed st prio p t) n).
Proof. induction n as [|n IH]; cbn [repeat frun]; auto. rewrite IH. auto. Qed.

Lemma count_repeat b n : count_true (repeat b n) = if b then n else O.
Proof. unfold count_true. induction n; cbn [repeat filter]; [destruct b; auto|]. destruct b; cbn [filter length] in *; auto. Qed.

Lemma all_or_nothing st n prio p t :
  exists out, frun st (repeat (FSend prio p t) n) = Some (st, out) /\ (count_true out = n \/ count_true out = O).
Proof. eexists. split; [apply sends_same|]. rewrite count_repeat. destruct (transmit_allowed _ _ _ _); auto. Qed.

(** The interleaving in which decimation does work: one reception before every send. *)
Lemma flow_bounded ops : forall st st' out, N.of_nat (length st) <= 4096 -> NoDup (keys st) ->
  frun st ops = Some (st', out) -> N.of_nat (length st') <= 4096.
Proof.
  induction ops as [|o r IH]; intros st st' out Hlen Hnd H; cbn [frun] in H.
  - injection H as <- <-; auto.
  - destruct o.
    + destruct (on_received now st peer topic sequence) as [st1|] eqn:E; [|discriminate].
      unfold on_received in E. destruct (lookup pair_eqb (peer, topic) st) as [s|] eqn:El.
      * destruct (u32_checked_add _ 1); [|discriminate].
        match type of E with context [match ?x with Some _ => Some _ | None => None end] => destruct x as [g|] end; [|discriminate].
        injection E as <-. eapply IH; [| |exact H].
        -- rewrite (insert_length_present pair_eqb pair_eqb_spec _ _ s); auto.
        -- apply NoDup_insert_keys; auto using pair_eqb_spec.
      * injection E as <-. unfold enforce_key_cap, MAX_TRACKED_KEYS in H.
        destruct (N.ltb_spec (N.of_nat (length st)) 4096); eapply IH; [| |exact H| | |exact H].
        -- rewrite insert_length_absent by auto. lia.
        -- apply NoDup_insert_keys; auto using pair_eqb_spec.
        -- cbn. lia.
        -- cbn. constructor; auto; constructor.
    + destruct (frun st r) as [[st1 o1]|] eqn:E; [|discriminate]. injection H as <- <-. eapply IH; eauto.
Qed.

(** Among [n] consecutive counter values, the multiples of [k] number n/k rounded down or up. *)
Lemma multiples_in_run k : 0 < k -> forall n start,
  let c := N.of_nat (length (filter (fun i => (start + N.of_nat i) mod k =? 0) (seq 0 n))) in
  c = N.of_nat n / k \/ c = N.of_nat n / k + 1.
Proof.
  intros Hk n start.
  assert (H : forall n start, N.of_nat (length (filter (fun i => (start + N.of_nat i) mod k =? 0) (seq 0 n)))
              = (start + N.of_nat n + k - 1) / k - (start + k - 1) / k).
  { clear n start. intros n start. induction n as [|n IH].
    - cbn [seq filter length]. rewrite N.add_0_r. lia.
    - rewrite seq_S, filter_app, app_length. cbn [plus filter].
      assert (Hmon : (start + k - 1) / k <= (start + N.of_nat n + k - 1) / k) by (apply N.div_le_mono; lia).
      set (q := start + N.of_nat n) in *.
      replace (start + N.of_nat (S n) + k - 1) with (q + k) by lia.
      replace ((q + k) / k) with (q / k + 1) by (rewrite <- (N.mul_1_l k) at 2; rewrite N.div_add; lia).
      pose proof (N.div_mod q k ltac:(lia)) as Hdm. pose proof (N.mod_lt q k ltac:(lia)) as Hml.
      destruct (N.eqb_spec (q mod k) 0) as [E|E]; cbn [length].
      + assert ((q + k - 1) / k = q / k).
        { symmetry. apply (N.div_unique (q + k - 1) k (q / k) (k - 1)); lia. }
        lia.
      + assert ((q + k - 1) / k = q / k + 1).
        { symmetry. apply (N.div_unique (q + k - 1) k (q / k + 1) (q mod k - 1)); lia. }
        lia. }
  cbv zeta. rewrite H. set (a := start + k - 1).
  replace (start + N.of_nat n + k - 1) with (a + N.of_nat n) by lia.
  pose proof (N.div_mod a k ltac:(lia)). pose proof (N.mod_lt a k ltac:(lia)).
  pose proof (N.div_mod (N.of_nat n) k ltac:(lia)). pose proof (N.mod_lt (N.of_nat n) k ltac:(lia)).
  set (x := a / k) in *. set (y := N.of_nat n / k) in *. set (u := a mod k) in *. set (v := N.of_nat n mod k) in *.
  destruct (N.ltb_spec (u + v) k).
  - left. assert ((a + N.of_nat n) / k = x + y) by (symmetry; apply (N.div_unique _ k _ (u + v)); lia). lia.
  - right. assert ((a + N.of_nat n) / k = x + y + 1) by (symmetry; apply (N.div_unique _ k _ (u + v - k)); lia). lia.
Qed.

Lemma on_received_total now st p t s st1 last g c w :
  lookup pair_eqb (p, t) st = Some (mkRecv last g c w) -> now < w + 1000 ->
  on_received now st p t s = Some st1 ->
  exists last' g', lookup pair_eqb (p, t) st1 = Some (mkRecv last' g' (c + 1) w).
Proof.
  intros Hl Hw E. unfold on_received in E. rewrite Hl in E. unfold WINDOW_DURATION in E. cbn [rs_window] in E.
  rewrite (proj2 (N.leb_gt 1000 (now - w))) in E by lia. cbn [rs_total rs_last rs_gaps rs_window] in E.
  unfold u32_checked_add at 1 in E. destruct (c + 1 <? 2 ^ 32); [|discriminate].
  match type of E with context [match ?x with Some _ => Some _ | None => None end] => destruct x as [g'|] end; [|discriminate].
  injection E as <-. do 2 eexists. apply (lookup_insert_eq pair_eqb pair_eqb_spec).
Qed.

Lemma paired_out r p t : forall l st last g c w,
  lookup pair_eqb (p, t) st = Some (mkRecv last g c w) ->
  Forall (fun ts => fst ts < w + 1000) l -> rate_stays r st p t l ->
  exists st', frun st (paired p t l) =
    Some (st', map (fun i => (c + 1 + N.of_nat i) mod divisor r =? 0) (seq 0 (length l))).
Proof.
  induction l as [|[now s] l IH]; intros st last g c w Hl Hw Hr.
  - exists st. reflexivity.
  - cbn [rate_stays fst snd] in Hr. destruct Hr as (st1 & E & Hrate & Hr).
    apply Forall_cons_iff in Hw as [Hw1 Hw2]. cbn [fst] in Hw1.
    destruct (on_received_total _ _ _ _ _ _ _ _ _ _ Hl Hw1 E) as (last' & g' & Hl1).
    destruct (IH st1 last' g' (c + 1) w Hl1 Hw2 Hr) as (st' & E').
    exists st'. cbn [paired flat_map app frun fst snd]. rewrite E. fold (paired p t l). rewrite E'.
    f_equal. f_equal. cbn [length seq map]. f_equal.
    + cbn [transmit_allowed]. unfold should_send, total_for. rewrite Hrate, Hl1. cbn [rs_total].
      change (N.of_nat 0) with 0. rewrite N.add_0_r.
      destruct r; cbn [divisor]; auto. rewrite N.mod_1_r. auto.
    + rewrite <- seq_shift, map_map. apply map_ext. intros i. f_equal. f_equal. lia.
Qed.

Lemma count_true_map {A} (f : A -> bool) l : count_true (map f l) = length (filter f l).
Proof. unfold count_true. induction l; cbn [map filter]; auto. destruct (f a); cbn [length]; auto. Qed.

Lemma decimation_paired r p t l st last g c w :
  lookup pair_eqb (p, t) st = Some (mkRecv last g c w) ->
  Forall (fun ts => fst ts < w + 1000) l -> rate_stays r st p t l ->
  exists st' out, frun st (paired p t l) = Some (st', out) /\ length out = length l /\
    (N.of_nat (count_true out) = N.of_nat (length l) / divisor r \/
     N.of_nat (count_true out) = N.of_nat (length l) / divisor r + 1).
Proof.
  intros Hl Hw Hr. destruct (paired_out r p t l st last g c w Hl Hw Hr) as (st' & E).
  do 2 eexists. split; [exact E|]. rewrite map_length, seq_length. split; auto.
  rewrite count_true_map. apply multiples_in_run. destruct r; cbn; lia.
Qed.
