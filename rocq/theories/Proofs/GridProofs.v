From Coq Require Import QArith Qround Qminmax Lqa.
From Verif.Base Require Import Prelude.
From Verif.Model Require Import Grid.
From Verif.Spec Require Import GridSpec.
Open Scope N_scope.

(** * Cells *)
Lemma store_length {A} (l : list A) i v : length (store l i v) = length l.
Proof. revert i; induction l; intros [|i]; cbn; auto. Qed.
Lemma store_nth {A} (l : list A) i v j :
  nth_error (store l i v) j = if (j =? i)%nat then (if (i <? length l)%nat then Some v else None) else nth_error l j.
Proof.
  revert i j. induction l as [|a l IH]; intros i j.
  - cbn [store length]. destruct (Nat.eqb_spec j i) as [->|]; auto. destruct i; auto.
  - destruct i as [|i], j as [|j]; cbn [store nth_error length Nat.eqb]; auto.
    rewrite IH. destruct (j =? i)%nat; auto.
Qed.

Lemma index_lt w h x y : w * h <= U32 -> x < w -> y < h -> y * w + x < w * h.
Proof. intros. nia. Qed.
Lemma index_plain w h x y : w * h <= U32 -> x < w -> y < h -> cell_index w x y = y * w + x.
Proof. intros A B C. unfold cell_index. apply N.mod_small. pose proof (index_lt w h x y A B C). lia. Qed.
Lemma index_inj w h x y x' y' : w * h <= U32 -> x < w -> y < h -> x' < w -> y' < h ->
  cell_index w x y = cell_index w x' y' -> x = x' /\ y = y'.
Proof.
  intros A B C D E. rewrite (index_plain w h x y), (index_plain w h x' y') by auto. intros F.
  assert (y = y') by (destruct (N.lt_trichotomy y y') as [G|[G|G]]; auto; nia).
  subst. split; auto. lia.
Qed.

Lemma in_grid_iff w h x y : in_grid w h x y = true <-> x < w /\ y < h.
Proof. unfold in_grid. rewrite andb_true_iff, !N.ltb_lt. tauto. Qed.

Lemma get_some {A} w h (c : list A) x y : N.of_nat (length c) = w * h -> w * h <= U32 ->
  x < w -> y < h -> exists v, layer_get w h c x y = Some v.
Proof.
  intros L B X Y. unfold layer_get. replace (in_grid w h x y) with true by (symmetry; apply in_grid_iff; auto).
  rewrite (index_plain w h) by auto. pose proof (index_lt w h x y B X Y).
  destruct (nth_error c (N.to_nat (y * w + x))) eqn:E; [eauto|]. apply nth_error_None in E. lia.
Qed.
Lemma get_none {A} w h (c : list A) x y : ~ (x < w /\ y < h) -> layer_get w h c x y = None.
Proof. intros H. unfold layer_get. destruct (in_grid w h x y) eqn:E; auto. apply in_grid_iff in E. tauto. Qed.

Lemma set_facts {A} w h (c : list A) x y v : N.of_nat (length c) = w * h -> w * h <= U32 ->
  let '(c', ok) := layer_set w h c x y v in
  length c' = length c
  /\ (ok = true <-> x < w /\ y < h)
  /\ forall x' y', layer_get w h c' x' y' =
       if (ok && (x' =? x) && (y' =? y))%bool then Some v else layer_get w h c x' y'.
Proof.
  intros L B. unfold layer_set. destruct (in_grid w h x y) eqn:E.
  - apply in_grid_iff in E as [X Y]. pose proof (index_lt w h x y B X Y) as I.
    assert (P : cell_index w x y = y * w + x) by (eapply index_plain; eauto).
    replace (N.to_nat (cell_index w x y) <? length c)%nat with true
      by (symmetry; apply Nat.ltb_lt; rewrite P; lia).
    split; [apply store_length|]. split; [tauto|]. intros x' y'. cbn [andb].
    unfold layer_get. destruct (in_grid w h x' y') eqn:E'.
    + apply in_grid_iff in E' as [X' Y']. rewrite store_nth.
      replace (N.to_nat (cell_index w x y) <? length c)%nat with true
        by (symmetry; apply Nat.ltb_lt; rewrite P; lia).
      destruct (Nat.eqb_spec (N.to_nat (cell_index w x' y')) (N.to_nat (cell_index w x y))) as [Q|Q].
      * apply N2Nat.inj in Q. apply (index_inj w h) in Q as [-> ->]; auto. rewrite !N.eqb_refl. reflexivity.
      * destruct (N.eqb_spec x' x), (N.eqb_spec y' y); subst; cbn [andb]; congruence.
    + destruct (N.eqb_spec x' x), (N.eqb_spec y' y); subst; cbn [andb]; auto.
      exfalso. assert (in_grid w h x y = true) by (apply in_grid_iff; auto). congruence.
  - split; [auto|]. split.
    + split; [discriminate|]. intros H. apply in_grid_iff in H. congruence.
    + intros. reflexivity.
Qed.

(** * A grid's whole life *)
Definition wf (g : grid) : Prop :=
  N.of_nat (length (g_cells g)) = g_width g * g_height g /\ g_width g * g_height g <= U32
  /\ g_width g < U32 /\ g_height g < U32.

Lemma set_cell_wf g x y v : wf g -> wf (fst (set_cell g x y v)).
Proof.
  intros (A & B & C). unfold set_cell. pose proof (set_facts (g_width g) (g_height g) (g_cells g) x y (clamp v) A B) as H.
  destruct (layer_set _ _ _ _ _ _) as [c ok]. destruct H as (L & _). unfold wf; cbn. rewrite L. auto.
Qed.
Lemma fill_wf g v : wf g -> wf (fill g v).
Proof. intros (A & B & C). unfold wf, fill; cbn. rewrite map_length. auto. Qed.

Lemma steps_wf ops : forall g, wf g -> wf (fold_left grid_step ops g).
Proof. induction ops as [|[x y v|v] ops IH]; intros g H; cbn; auto using set_cell_wf, fill_wf. Qed.
Lemma new_wf w h res : w < U32 -> h < U32 -> w * h <= U32 -> wf (grid_new w h res).
Proof. intros A B C. unfold wf, grid_new; cbn. rewrite repeat_length, N2Nat.id. repeat split; auto. lia. Qed.
Lemma made_wf g : made g -> wf g.
Proof. intros (w & h & res & ops & -> & A & B & C). apply steps_wf, new_wf; auto. Qed.
Lemma placed_wf g : placed g -> wf g.
Proof. intros (g0 & x & y & t & M & ->). apply made_wf in M. exact M. Qed.

(** * Rows *)
Lemma nth_firstn_skipn {A} (l : list A) s w i : (i < w)%nat ->
  nth_error (firstn w (skipn s l)) i = nth_error l (s + i)%nat.
Proof.
  intros H. revert s. induction s as [|s IH] in l |- *.
  - cbn [skipn Nat.add]. revert l i H. induction w; intros l i H; [lia|]. destruct l, i; cbn; auto. apply IHw. lia.
  - destruct l; cbn [skipn Nat.add nth_error]; [rewrite firstn_nil; destruct i; auto|]. apply IH.
Qed.
Lemma row_spec g y : wf g ->
  match row g y with
  | Some r => y < g_height g /\ N.of_nat (length r) = g_width g
      /\ forall x, x < g_width g -> nth_error r (N.to_nat x) = get_cell g x y
  | None => g_height g <= y
  end.
Proof.
  intros (L & B & _). unfold row. destruct (N.ltb_spec y (g_height g)) as [Y|Y]; [|auto].
  assert (F : (N.to_nat y * N.to_nat (g_width g) + N.to_nat (g_width g) <= length (g_cells g))%nat) by nia.
  rewrite (leb_correct _ _ F). split; [auto|]. split.
  - rewrite firstn_length, skipn_length. lia.
  - intros x X. rewrite nth_firstn_skipn by lia. unfold get_cell, layer_get.
    replace (in_grid (g_width g) (g_height g) x y) with true by (symmetry; apply in_grid_iff; auto).
    rewrite (index_plain (g_width g) (g_height g)) by auto. f_equal. lia.
Qed.

(** * Coordinates *)
Open Scope Q_scope.

Lemma floor_iff q (c : Z) : Qfloor q = c <-> inject_Z c <= q /\ q < inject_Z c + 1.
Proof.
  split.
  - intros <-. split; [apply Qfloor_le|]. pose proof (Qlt_floor q) as H. rewrite inject_Z_plus in H. exact H.
  - intros [A B]. assert (C : (c <= Qfloor q)%Z).
    { rewrite <- (Qfloor_Z c). apply Qfloor_resp_le, A. }
    assert (D : (Qfloor q < c + 1)%Z).
    { rewrite Zlt_Qlt, inject_Z_plus. eapply Qle_lt_trans; [apply Qfloor_le|exact B]. }
    lia.
Qed.

Lemma res_pos res : MIN_RES <= res -> 0 < res.
Proof. intros H. eapply Qlt_le_trans; [|exact H]. reflexivity. Qed.

Lemma axis_iff res o v (c : N) : MIN_RES <= res -> (Z.of_N c < 2147483647)%Z ->
  axis res o v = Z.of_N c <-> covers res o c v.
Proof.
  intros R C. pose proof (res_pos _ R) as P. unfold axis.
  rewrite (Q.max_l res MIN_RES R).
  assert (S : sat_i32 (Qfloor ((v - o) / res + EPSILON)) = Z.of_N c <-> Qfloor ((v - o) / res + EPSILON) = Z.of_N c)
    by (unfold sat_i32; lia).
  rewrite S, floor_iff. unfold covers. set (d := (v - o) / res).
  assert (D : v - o == d * res) by (unfold d; field; intros E; rewrite E in P; discriminate).
  rewrite D. rewrite <- (Qmult_plus_distr_l d EPSILON res).
  rewrite (Qmult_le_r _ _ _ P), (Qmult_lt_r _ _ _ P). reflexivity.
Qed.

Lemma as_i32_small (w : N) : (w <= 2147483647)%N -> as_i32 w = Z.of_N w.
Proof. intros H. unfold as_i32. destruct (N.ltb_spec w 2147483648); lia. Qed.
Lemma as_i32_wide (w : N) : (2147483648 <= w)%N -> (w < 4294967296)%N -> (as_i32 w < 0)%Z.
Proof. intros H. unfold as_i32. destruct (N.ltb_spec w 2147483648); lia. Qed.

Lemma world_iff g px py x y : (g_width g <= 2147483647)%N -> (g_height g <= 2147483647)%N -> MIN_RES <= g_res g ->
  world_to_grid g px py = Some (x, y) <->
  (x < g_width g)%N /\ (y < g_height g)%N /\ covers (g_res g) (g_ox g) x px /\ covers (g_res g) (g_oy g) y py.
Proof.
  intros W H R. unfold world_to_grid. rewrite !as_i32_small by auto.
  pose proof (axis_iff (g_res g) (g_ox g) px) as AX. pose proof (axis_iff (g_res g) (g_oy g) py) as AY.
  set (ax := axis (g_res g) (g_ox g) px) in *. set (ay := axis (g_res g) (g_oy g) py) in *.
  split.
  - destruct (_ && _)%bool eqn:E; [|discriminate]. rewrite !andb_true_iff in E.
    destruct E as (((A & B) & C) & D). apply Z.leb_le in A, C. apply Z.ltb_lt in B, D.
    intros I. injection I as <- <-. split; [lia|]. split; [lia|].
    split; [apply AX|apply AY]; auto; try lia.
  - intros (X & Y & CX & CY). apply AX in CX; [|auto|lia]. apply AY in CY; [|auto|lia].
    rewrite CX, CY.
    replace (_ && _)%bool with true.
    + rewrite !N2Z.id. reflexivity.
    + symmetry. rewrite !andb_true_iff, !Z.leb_le, !Z.ltb_lt. lia.
Qed.

Lemma centre_covered res o c : 0 < res -> covers res o c (centre res o c).
Proof.
  intros P. unfold covers, centre. set (i := inject_Z (Z.of_N c)).
  assert (E : o + (i + (1 # 2)) * res - o + EPSILON * res == (i + (1 # 2) + EPSILON) * res) by ring.
  rewrite E, (Qmult_le_r _ _ _ P), (Qmult_lt_r _ _ _ P). unfold EPSILON. split; lra.
Qed.

Lemma world_round g x y : (g_width g <= 2147483647)%N -> (g_height g <= 2147483647)%N -> MIN_RES <= g_res g ->
  (x < g_width g)%N -> (y < g_height g)%N ->
  exists px py, grid_to_world g x y = Some (px, py) /\ world_to_grid g px py = Some (x, y).
Proof.
  intros W H R X Y. unfold grid_to_world.
  replace (in_grid (g_width g) (g_height g) x y) with true by (symmetry; apply in_grid_iff; auto).
  eexists _, _. split; [reflexivity|]. apply world_iff; auto.
  repeat split; auto; apply centre_covered, res_pos; auto.
Qed.

Lemma covers_unique res o c c' v : 0 < res -> covers res o c v -> covers res o c' v -> c = c'.
Proof.
  intros P [A B] [C D].
  assert (E : inject_Z (Z.of_N c) < inject_Z (Z.of_N c') + 1) by (apply (Qmult_lt_r _ _ _ P); eapply Qle_lt_trans; eauto).
  assert (F : inject_Z (Z.of_N c') < inject_Z (Z.of_N c) + 1) by (apply (Qmult_lt_r _ _ _ P); eapply Qle_lt_trans; eauto).
  change 1 with (inject_Z 1) in *. rewrite <- inject_Z_plus, <- Zlt_Qlt in *. lia.
Qed.

Lemma wide_none g px py : (2147483648 <= g_width g)%N -> (g_width g < 4294967296)%N -> world_to_grid g px py = None.
Proof.
  intros A B. unfold world_to_grid. pose proof (as_i32_wide _ A B).
  destruct (_ && _)%bool eqn:E; auto. rewrite !andb_true_iff, !Z.leb_le, !Z.ltb_lt in E. lia.
Qed.

Lemma axis_zero o c : axis 0 o (centre 0 o c) = 0%Z.
Proof.
  unfold axis, centre. rewrite (Q.max_r 0 MIN_RES) by discriminate.
  assert (E : Qfloor ((o + (inject_Z (Z.of_N c) + (1 # 2)) * 0 - o) / MIN_RES + EPSILON) = 0%Z).
  { apply floor_iff. assert (Z : (o + (inject_Z (Z.of_N c) + (1 # 2)) * 0 - o) / MIN_RES + EPSILON == EPSILON) by (unfold MIN_RES; field).
    rewrite Z. split; [discriminate|reflexivity]. }
  rewrite E. reflexivity.
Qed.
Close Scope Q_scope.

(** * Values *)
Definition sane (v : Z) : Prop := (-1 <= v <= 100)%Z.
Lemma clamp_sane v : sane (clamp v).
Proof. unfold sane, clamp. lia. Qed.
Lemma store_Forall {A} (P : A -> Prop) l i v : Forall P l -> P v -> Forall P (store l i v).
Proof. intros H V. revert i. induction H; intros [|i]; cbn; constructor; auto. Qed.
Lemma steps_sane ops : (forall v, In (OFill v) ops -> sane v) -> forall g, Forall sane (g_cells g) ->
  Forall sane (g_cells (fold_left grid_step ops g)).
Proof.
  induction ops as [|o ops IH]; intros F g H; cbn [fold_left]; auto.
  apply IH; [intros v I; apply F; right; auto|]. destruct o as [x y v|v]; cbn [grid_step].
  - unfold set_cell, layer_set. destruct (in_grid _ _ _ _); [|exact H].
    destruct (_ <? _)%nat; [|exact H]. cbn. apply store_Forall; auto using clamp_sane.
  - cbn. apply Forall_forall. intros z I. apply in_map_iff in I as (_ & <- & _). apply F. left. reflexivity.
Qed.

(** * Cost maps *)
Definition cwf (m : costmap) : Prop :=
  N.of_nat (length (c_occ m)) = c_width m * c_height m /\ N.of_nat (length (c_cost m)) = c_width m * c_height m
  /\ c_width m * c_height m <= U32 /\ c_lethal m = 254%Z.
Lemma apply_cells_length l occ cost : length (apply_cells l occ cost) = length cost.
Proof. revert cost. induction occ; intros [|c cost]; cbn; auto. Qed.
Lemma apply_cells_nth l occ : forall cost i, length occ = length cost ->
  nth_error (apply_cells l occ cost) i = option_map (fun o => if (50 <=? o)%Z then l else 0%Z) (nth_error occ i).
Proof. induction occ as [|o occ IH]; intros [|c cost] [|i] H; cbn in *; try discriminate; auto. Qed.

Lemma cost_step_wf m o : cwf m -> cwf (cost_step m o).
Proof.
  intros (A & B & C & D). destruct o as [x y v|x y v| | |]; unfold cwf; cbn.
  - pose proof (set_facts (c_width m) (c_height m) (c_occ m) x y (clamp v) A C) as H.
    destruct (layer_set _ _ _ _ _ _) as [c ok]. destruct H as (L & _). cbn. rewrite L. auto.
  - pose proof (set_facts (c_width m) (c_height m) (c_cost m) x y v B C) as H.
    destruct (layer_set _ _ _ _ _ _) as [c ok]. destruct H as (L & _). cbn. rewrite L. auto.
  - rewrite map_length. auto.
  - rewrite map_length. auto.
  - rewrite apply_cells_length. auto.
Qed.
Lemma cost_made_wf m : cost_made m -> cwf m.
Proof.
  intros (w & h & ops & -> & A & B & C). assert (W : cwf (costmap_new w h)).
  { unfold cwf, costmap_new; cbn. rewrite !repeat_length, N2Nat.id. repeat split; auto; lia. }
  revert W. generalize (costmap_new w h). induction ops as [|o ops IH]; intros m W; cbn; auto using cost_step_wf.
Qed.

Lemma apply_get m x y : cwf m ->
  get_cost (apply_from_occupancy m) x y = option_map (fun o => if (50 <=? o)%Z then 254%Z else 0%Z) (get_occupancy m x y).
Proof.
  intros (A & B & C & D). unfold get_cost, get_occupancy, layer_get, apply_from_occupancy; cbn [c_width c_height c_cost c_occ].
  destruct (in_grid _ _ _ _); auto. rewrite apply_cells_nth by lia. rewrite D. reflexivity.
Qed.
