(** C101: occupancy grids.  C102: cost maps. *)
From Coq Require Import QArith Qminmax Lqa.
From Verif.Base Require Import Prelude.
From Verif.Model Require Import Grid.
From Verif.Spec Require Import GridSpec.
From Verif.Proofs Require Import GridProofs.
Open Scope N_scope.

(** On a grid with any history, setting a cell succeeds exactly inside the grid,
    changes that cell to the value brought into [-1, 100] and no other. *)
Theorem C101_set_get : forall g x y v, made g ->
  let '(g', ok) := set_cell g x y v in
  (ok = true <-> x < g_width g /\ y < g_height g)
  /\ forall x' y', get_cell g' x' y' =
       if ok && (x' =? x) && (y' =? y) then Some (Z.max (-1) (Z.min 100 v)) else get_cell g x' y'.
Proof.
  intros g x y v M. apply made_wf in M as (A & B & _). unfold set_cell.
  pose proof (set_facts (g_width g) (g_height g) (g_cells g) x y (clamp v) A B) as H.
  destruct (layer_set _ _ _ _ _ _) as [c ok]. destruct H as (_ & H1 & H2). split; auto.
Qed.
Print Assumptions C101_set_get.

(** A cell of the grid always has a value, and nothing else has one. *)
Theorem C101_total : forall g x y, made g ->
  (exists v, get_cell g x y = Some v) <-> x < g_width g /\ y < g_height g.
Proof.
  intros g x y M. apply made_wf in M as (A & B & _). split.
  - intros [v H]. destruct (N.lt_ge_cases x (g_width g)), (N.lt_ge_cases y (g_height g)); auto;
      unfold get_cell in H; rewrite get_none in H; try discriminate; lia.
  - intros [X Y]. apply get_some; auto.
Qed.
Print Assumptions C101_total.

(** A row is the cells of that row. *)
Theorem C101_row : forall g y, made g ->
  match row g y with
  | Some r => y < g_height g /\ N.of_nat (length r) = g_width g
      /\ forall x, x < g_width g -> nth_error r (N.to_nat x) = get_cell g x y
  | None => g_height g <= y
  end.
Proof. intros g y M. apply row_spec, made_wf, M. Qed.
Print Assumptions C101_row.

Example C101_ex_made : exists g, made g /\ get_cell g 2 1 = Some 70%Z /\ get_cell g 1 1 = Some 100%Z
  /\ get_cell g 0 0 = Some (-1)%Z /\ get_cell g 3 0 = None /\ row g 1 = Some [-1; 100; 70]%Z.
Proof.
  exists (fold_left grid_step [OFill 9%Z; OFill (-1)%Z; OSet 2 1 70%Z; OSet 1 1 120%Z; OSet 3 0 5%Z] (grid_new 3 2 (1 # 20)%Q)).
  split; [|repeat split]. exists 3, 2, (1 # 20)%Q, [OFill 9%Z; OFill (-1)%Z; OSet 2 1 70%Z; OSet 1 1 120%Z; OSet 3 0 5%Z].
  repeat split; lia.
Qed.

(** Beyond 2^32 cells two different cells are one: their place is computed in 32
    bits. *)
Theorem C101_large_refuted : forall w h, 0 < w < 4294967296 -> 4294967296 < w * h ->
  exists x y, x < w /\ y < h /\ (x, y) <> (0, 0)
    /\ forall (cells : list Z), layer_get w h cells x y = layer_get w h cells 0 0.
Proof.
  intros w h W H. exists (4294967296 mod w), (4294967296 / w).
  pose proof (N.mod_lt 4294967296 w) as M. pose proof (N.div_mod' 4294967296 w) as D.
  set (x := 4294967296 mod w) in *. set (y := 4294967296 / w) in *.
  assert (Y : y < h) by nia.
  split; [lia|]. split; [auto|]. split.
  - intros E. injection E as E1 E2. lia.
  - intros cells. unfold layer_get.
    replace (in_grid w h x y) with true by (symmetry; apply in_grid_iff; lia).
    replace (in_grid w h 0 0) with true by (symmetry; apply in_grid_iff; lia).
    unfold cell_index. replace (y * w + x) with U32 by (unfold U32; lia). reflexivity.
Qed.
Print Assumptions C101_large_refuted.

Example C101_ex_large : 0 < 65537 < 4294967296 /\ 4294967296 < 65537 * 65536.
Proof. lia. Qed.

(** A point of the world belongs to the one cell whose square holds it, up to a
    millionth of a cell. *)
Theorem C101_world : forall g px py x y, placed g ->
  g_width g <= 2147483647 -> g_height g <= 2147483647 -> (1 # 1000000000 <= g_res g)%Q ->
  world_to_grid g px py = Some (x, y) <->
  x < g_width g /\ y < g_height g /\ covers (g_res g) (g_ox g) x px /\ covers (g_res g) (g_oy g) y py.
Proof. intros. apply world_iff; auto. Qed.
Print Assumptions C101_world.

Theorem C101_one_cell : forall res origin c c' v, (0 < res)%Q ->
  covers res origin c v -> covers res origin c' v -> c = c'.
Proof. intros. eapply covers_unique; eauto. Qed.
Print Assumptions C101_one_cell.

(** The centre of a cell is a point of that cell. *)
Theorem C101_centre : forall g x y, placed g ->
  g_width g <= 2147483647 -> g_height g <= 2147483647 -> (1 # 1000000000 <= g_res g)%Q ->
  x < g_width g -> y < g_height g ->
  exists px py, grid_to_world g x y = Some (px, py) /\ world_to_grid g px py = Some (x, y).
Proof. intros. apply world_round; auto. Qed.
Print Assumptions C101_centre.

Example C101_ex_world :
  let g := set_origin (grid_new 100 200 (1 # 20)%Q) (-(5 # 2))%Q 1%Q (157 # 100)%Q in
  placed g /\ world_to_grid g (12 # 10)%Q 2%Q = Some (74, 20) /\ world_to_grid g (-(3))%Q 2%Q = None.
Proof.
  cbv zeta. split; [|split; reflexivity].
  exists (grid_new 100 200 (1 # 20)%Q), (-(5 # 2))%Q, 1%Q, (157 # 100)%Q. split; [|reflexivity].
  exists 100, 200, (1 # 20)%Q, []. repeat split; lia.
Qed.

(** A point outside the map, by up to a millionth of a cell, is taken for a point
    of its first column. *)
Theorem C101_outside_refuted : forall g d py y, placed g ->
  0 < g_width g <= 2147483647 -> g_height g <= 2147483647 -> (1 # 1000000000 <= g_res g)%Q ->
  (0 < d <= (1 # 1000000) * g_res g)%Q -> y < g_height g -> covers (g_res g) (g_oy g) y py ->
  world_to_grid g (g_ox g - d)%Q py = Some (0, y).
Proof.
  intros g d py y P W H R [D1 D2] Y C. apply world_iff; auto; [lia|].
  split; [lia|]. split; [auto|]. split; [|auto].
  pose proof (res_pos _ R). unfold covers. change (inject_Z (Z.of_N 0)) with 0%Q. unfold EPSILON. split; lra.
Qed.
Print Assumptions C101_outside_refuted.

(** The map's orientation is ignored: turning the map moves no point to another cell. *)
Theorem C101_rotation_refuted : forall g x y theta px py,
  world_to_grid (set_origin g x y theta) px py = world_to_grid (set_origin g x y 0%Q) px py
  /\ forall cx cy, grid_to_world (set_origin g x y theta) cx cy = grid_to_world (set_origin g x y 0%Q) cx cy.
Proof. intros. split; reflexivity. Qed.
Print Assumptions C101_rotation_refuted.

(** A grid is accepted with a resolution of zero, and then the centre of every cell
    is a point of the first one. *)
Theorem C101_zero_resolution_refuted : forall w h x y, 0 < w <= 2147483647 -> 0 < h <= 2147483647 ->
  x < w -> y < h ->
  exists px py, grid_to_world (grid_new w h 0%Q) x y = Some (px, py)
    /\ world_to_grid (grid_new w h 0%Q) px py = Some (0, 0).
Proof.
  intros w h x y W H X Y. unfold grid_to_world; cbn [g_width g_height g_res g_ox g_oy grid_new].
  replace (in_grid w h x y) with true by (symmetry; apply in_grid_iff; auto).
  eexists _, _. split; [reflexivity|].
  unfold world_to_grid; cbn [g_width g_height g_res g_ox g_oy grid_new]. rewrite !axis_zero, !as_i32_small by lia.
  replace (_ && _)%bool with true; [reflexivity|].
  symmetry. rewrite !andb_true_iff, !Z.leb_le, !Z.ltb_lt. lia.
Qed.
Print Assumptions C101_zero_resolution_refuted.

(** A map of 2^31 columns or more has no points at all. *)
Theorem C101_wide_refuted : forall g px py, 2147483648 <= g_width g < 4294967296 ->
  world_to_grid g px py = None.
Proof. intros g px py [A B]. apply wide_none; auto. Qed.
Print Assumptions C101_wide_refuted.

(** While cells are only set, cleared and reset, every cell is exactly one of
    unknown, free and occupied. *)
Theorem C101_classified : forall w h res ops x y v,
  (forall u, In (OFill u) ops -> (-1 <= u <= 100)%Z) ->
  get_cell (fold_left grid_step ops (grid_new w h res)) x y = Some v ->
  (v = -1 /\ free_value v = false /\ occupied_value v = false)%Z
  \/ (v <> -1 /\ free_value v = true /\ occupied_value v = false)%Z
  \/ (v <> -1 /\ free_value v = false /\ occupied_value v = true)%Z.
Proof.
  intros w h res ops x y v F H.
  assert (S : Forall sane (g_cells (fold_left grid_step ops (grid_new w h res)))).
  { apply steps_sane; auto. cbn. apply Forall_forall. intros z I. apply repeat_spec in I as ->. unfold sane; lia. }
  unfold get_cell, layer_get in H. destruct (in_grid _ _ _ _); [|discriminate].
  apply nth_error_In in H. rewrite Forall_forall in S. apply S in H. unfold sane in H.
  unfold free_value, occupied_value.
  destruct (Z.leb_spec 0 v), (Z.ltb_spec v 50), (Z.leb_spec 50 v); cbn [andb]; lia.
Qed.
Print Assumptions C101_classified.

(** [fill] does not bring its value into range: below -1 the cells are none of the
    three. *)
Theorem C101_fill_refuted : forall g x y v, made g -> x < g_width g -> y < g_height g -> (v < -1)%Z ->
  get_cell (fill g v) x y = Some v /\ is_unknown (fill g v) x y = false
  /\ free_value v = false /\ occupied_value v = false.
Proof.
  intros g x y v M X Y V. destruct (proj2 (C101_total g x y M) (conj X Y)) as [u U].
  assert (G : get_cell (fill g v) x y = Some v).
  { unfold get_cell, layer_get, fill in *; cbn [g_width g_height g_cells with_cells] in *.
    destruct (in_grid _ _ _ _); [|discriminate]. rewrite (map_nth_error _ _ _ U). reflexivity. }
  split; [exact G|]. unfold is_unknown. rewrite G. unfold free_value, occupied_value.
  destruct (Z.eqb_spec v (-1)), (Z.leb_spec 0 v), (Z.ltb_spec v 50), (Z.leb_spec 50 v); cbn; auto; lia.
Qed.
Print Assumptions C101_fill_refuted.

(** * C102 *)

(** After the costs are taken from the occupancy, a cell is lethal exactly when it
    is occupied, and traversable exactly when it is free; unknown cells are
    neither. *)
Theorem C102_apply : forall m x y, cost_made m ->
  let m' := apply_from_occupancy m in
  match get_occupancy m' x y with
  | Some o => get_occupancy m x y = Some o
      /\ (is_lethal m' x y = true <-> (50 <= o)%Z)
      /\ (is_traversable m' x y = true <-> (0 <= o < 50)%Z)
  | None => is_lethal m' x y = false /\ is_traversable m' x y = false
  end.
Proof.
  intros m x y M. apply cost_made_wf in M. pose proof (apply_get m x y M) as A.
  destruct M as (_ & _ & _ & L). cbv zeta. change (get_occupancy (apply_from_occupancy m) x y) with (get_occupancy m x y).
  unfold is_lethal, is_traversable. rewrite A.
  change (get_occupancy (apply_from_occupancy m) x y) with (get_occupancy m x y).
  change (c_lethal (apply_from_occupancy m)) with (c_lethal m). rewrite L.
  destruct (get_occupancy m x y) as [o|]; cbn [option_map]; [|auto].
  destruct (Z.leb_spec 50 o), (Z.leb_spec 0 o); cbn; split; auto; split; split; intros; try discriminate; try lia; auto.
Qed.
Print Assumptions C102_apply.

(** The two layers are separate: writing one leaves the other, and every other
    cell, as it was. *)
Theorem C102_layers : forall m x y v x' y', cost_made m ->
  get_cost (set_occupancy m x y v) x' y' = get_cost m x' y'
  /\ get_occupancy (set_cost m x y v) x' y' = get_occupancy m x' y'
  /\ (x < c_width m /\ y < c_height m ->
        get_occupancy (set_occupancy m x y v) x' y' =
          (if (x' =? x) && (y' =? y) then Some (Z.max (-1) (Z.min 100 v)) else get_occupancy m x' y')
        /\ get_cost (set_cost m x y v) x' y' = (if (x' =? x) && (y' =? y) then Some v else get_cost m x' y')).
Proof.
  intros m x y v x' y' M. apply cost_made_wf in M as (A & B & C & _).
  split; [reflexivity|]. split; [reflexivity|]. intros R.
  pose proof (set_facts (c_width m) (c_height m) (c_occ m) x y (clamp v) A C) as H1.
  pose proof (set_facts (c_width m) (c_height m) (c_cost m) x y v B C) as H2.
  unfold get_occupancy, get_cost, set_occupancy, set_cost; cbn [c_width c_height c_occ c_cost].
  destruct (layer_set _ _ (c_occ m) _ _ _) as [c1 ok1]. destruct (layer_set _ _ (c_cost m) _ _ _) as [c2 ok2].
  destruct H1 as (_ & O1 & G1). destruct H2 as (_ & O2 & G2). cbn [fst].
  apply O1 in R as R1. apply O2 in R as R2. subst. split; [apply G1|apply G2].
Qed.
Print Assumptions C102_layers.

Example C102_ex : exists m, cost_made m /\ is_lethal m 1 0 = true /\ is_traversable m 0 1 = true
  /\ is_traversable m 0 0 = false /\ is_lethal m 0 0 = false.
Proof.
  exists (fold_left cost_step [CSetOcc 1 0 50%Z; CSetOcc 0 1 49%Z; CApply] (costmap_new 2 2)).
  split; [|repeat split]. exists 2, 2, [CSetOcc 1 0 50%Z; CSetOcc 0 1 49%Z; CApply]. repeat split; lia.
Qed.
