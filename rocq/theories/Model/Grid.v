(** Occupancy grids and cost maps: horus_core/src/memory/occupancy_grid.rs and
    costmap.rs with their descriptors in horus_core/src/types.  The shared memory a
    grid's tensor names is the list of its cells.  World coordinates and the
    resolution are exact rationals; the code has [f64] and [f32]. *)
From Coq Require Import QArith Qround Qminmax.
From Verif.Base Require Import Prelude.
Open Scope N_scope.

Definition U32 : N := 4294967296. (* 2^32, for wrap-around *)

(** [OccupancyGridDescriptor], occupancy_grid_descriptor.rs:46-79, without frame,
    time and metadata, and the cells of its tensor. *)
Record grid := Grid {
  g_width : N; g_height : N; g_res : Q; g_ox : Q; g_oy : Q; g_theta : Q; g_cells : list Z }.

(** [(grid_y * self.width() + grid_x) as usize], occupancy_grid.rs:167 and 180: [u32]
    arithmetic, wrapping as in a release build. *)
Definition cell_index (w x y : N) : N := (y * w + x) mod U32.

(** The bounds check both accessors begin with. *)
Definition in_grid (w h x y : N) : bool := (x <? w) && (y <? h).

(** A store to one element of a slice. *)
Fixpoint store {A} (l : list A) (i : nat) (v : A) : list A :=
  match l, i with
  | [], _ => []
  | _ :: r, O => v :: r
  | a :: r, S i' => a :: store r i' v
  end.

(** Reading a layer of cells: [get_cell] occupancy_grid.rs:165-172, [get_occupancy]
    costmap.rs:313-320, [get_cost] 336-343. *)
Definition layer_get {A} (w h : N) (cells : list A) (x y : N) : option A :=
  if in_grid w h x y then nth_error cells (N.to_nat (cell_index w x y)) else None.

(** Writing one: [set_cell] occupancy_grid.rs:178-188, [set_occupancy]
    costmap.rs:323-333, [set_cost] 346-356. *)
Definition layer_set {A} (w h : N) (cells : list A) (x y : N) (v : A) : list A * bool :=
  if in_grid w h x y then
    let i := N.to_nat (cell_index w x y) in
    if (i <? length cells)%nat then (store cells i v, true) else (cells, false)
  else (cells, false).

(** [value.clamp(-1, 100)]. *)
Definition clamp (v : Z) : Z := Z.max (-1) (Z.min 100 v).

(** The grid with other cells. *)
Definition with_cells (g : grid) (c : list Z) : grid :=
  Grid (g_width g) (g_height g) (g_res g) (g_ox g) (g_oy g) (g_theta g) c.

(** [new_on], occupancy_grid.rs:55-74: the tensor has [height * width] cells, all -1. *)
Definition grid_new (w h : N) (res : Q) : grid :=
  Grid w h res 0 0 0 (repeat (-1)%Z (N.to_nat (h * w))).

(** [get_cell], occupancy_grid.rs:165-172. *)
Definition get_cell (g : grid) (x y : N) : option Z := layer_get (g_width g) (g_height g) (g_cells g) x y.

(** [set_cell], occupancy_grid.rs:178-188. *)
Definition set_cell (g : grid) (x y : N) (v : Z) : grid * bool :=
  let '(c, ok) := layer_set (g_width g) (g_height g) (g_cells g) x y (clamp v) in (with_cells g c, ok).

(** [fill], occupancy_grid.rs:249-253; [clear] is [fill 0], [reset] is [fill (-1)], 256-263. *)
Definition fill (g : grid) (v : Z) : grid := with_cells g (map (fun _ => v) (g_cells g)).

(** [set_origin], occupancy_grid.rs:123-126. *)
Definition set_origin (g : grid) (x y theta : Q) : grid :=
  Grid (g_width g) (g_height g) (g_res g) x y theta (g_cells g).

(** [row], occupancy_grid.rs:266-275. *)
Definition row (g : grid) (y : N) : option (list Z) :=
  if y <? g_height g then
    let w := N.to_nat (g_width g) in
    let start := (N.to_nat y * w)%nat in
    if (start + w <=? length (g_cells g))%nat then Some (firstn w (skipn start (g_cells g))) else None
  else None.

Definition EPSILON : Q := 1 # 1000000. (* occupancy_grid.rs:194 *)
Definition MIN_RES : Q := 1 # 1000000000. (* occupancy_grid.rs:195 *)

(** A float cast to [i32]: saturating. *)
Definition sat_i32 (z : Z) : Z := Z.max (-2147483648) (Z.min 2147483647 z).

(** A [u32] cast to [i32]: wrapping. *)
Definition as_i32 (n : N) : Z :=
  if n <? 2147483648 then Z.of_N n else (Z.of_N n - 4294967296)%Z.

(** One coordinate of [world_to_grid], occupancy_grid.rs:195-197. *)
Definition axis (res origin v : Q) : Z :=
  sat_i32 (Qfloor ((v - origin) / Qmax res MIN_RES + EPSILON)).

(** [world_to_grid], occupancy_grid.rs:193-208 and costmap.rs:378-393. *)
Definition world_to_grid (g : grid) (x y : Q) : option (N * N) :=
  let gx := axis (g_res g) (g_ox g) x in
  let gy := axis (g_res g) (g_oy g) y in
  if ((0 <=? gx) && (gx <? as_i32 (g_width g)) && (0 <=? gy) && (gy <? as_i32 (g_height g)))%Z
  then Some (Z.to_N gx, Z.to_N gy) else None.

(** One coordinate of [grid_to_world], occupancy_grid.rs:213-214. *)
Definition centre (res origin : Q) (c : N) : Q :=
  origin + (inject_Z (Z.of_N c) + (1 # 2)) * res.

(** [grid_to_world], occupancy_grid.rs:211-219 and costmap.rs:396-404. *)
Definition grid_to_world (g : grid) (x y : N) : option (Q * Q) :=
  if in_grid (g_width g) (g_height g) x y
  then Some (centre (g_res g) (g_ox g) x, centre (g_res g) (g_oy g) y) else None.

(** What [is_free], [is_occupied] and [is_unknown] ask of a cell's value,
    occupancy_grid.rs:224-246. *)
Definition free_value (v : Z) : bool := ((0 <=? v) && (v <? 50))%Z.
(** See above. *)
Definition occupied_value (v : Z) : bool := (50 <=? v)%Z.

(** [is_free], occupancy_grid.rs:224-231. *)
Definition is_free (g : grid) (x y : Q) : bool :=
  match world_to_grid g x y with
  | Some (gx, gy) => match get_cell g gx gy with Some v => free_value v | None => false end
  | None => false
  end.

(** [is_occupied], occupancy_grid.rs:234-241. *)
Definition is_occupied (g : grid) (x y : Q) : bool :=
  match world_to_grid g x y with
  | Some (gx, gy) => match get_cell g gx gy with Some v => occupied_value v | None => false end
  | None => false
  end.

(** [is_unknown], occupancy_grid.rs:244-246. *)
Definition is_unknown (g : grid) (x y : N) : bool :=
  match get_cell g x y with Some v => (v =? -1)%Z | None => false end.

(** What the owner of a grid does to its cells. *)
Inductive grid_op := OSet (x y : N) (v : Z) | OFill (v : Z).
(** One such call. *)
Definition grid_step (g : grid) (o : grid_op) : grid :=
  match o with OSet x y v => fst (set_cell g x y v) | OFill v => fill g v end.

(** [CostMap], costmap.rs:40-43 and costmap_descriptor.rs:47-83: two layers of the
    same size. *)
Record costmap := CostMap { c_width : N; c_height : N; c_occ : list Z; c_cost : list Z; c_lethal : Z }.

(** [new_on], costmap.rs:84-118; the lethal threshold is 254, costmap_descriptor.rs:156. *)
Definition costmap_new (w h : N) : costmap :=
  CostMap w h (repeat (-1)%Z (N.to_nat (h * w))) (repeat 0%Z (N.to_nat (h * w))) 254.

(** [get_occupancy], costmap.rs:313-320. *)
Definition get_occupancy (m : costmap) (x y : N) : option Z := layer_get (c_width m) (c_height m) (c_occ m) x y.
(** [get_cost], costmap.rs:336-343. *)
Definition get_cost (m : costmap) (x y : N) : option Z := layer_get (c_width m) (c_height m) (c_cost m) x y.
(** [set_occupancy], costmap.rs:323-333. *)
Definition set_occupancy (m : costmap) (x y : N) (v : Z) : costmap :=
  CostMap (c_width m) (c_height m) (fst (layer_set (c_width m) (c_height m) (c_occ m) x y (clamp v))) (c_cost m) (c_lethal m).
(** [set_cost], costmap.rs:346-356. *)
Definition set_cost (m : costmap) (x y : N) (v : Z) : costmap :=
  CostMap (c_width m) (c_height m) (c_occ m) (fst (layer_set (c_width m) (c_height m) (c_cost m) x y v)) (c_lethal m).
(** [clear_costs], costmap.rs:409-412. *)
Definition clear_costs (m : costmap) : costmap :=
  CostMap (c_width m) (c_height m) (c_occ m) (map (fun _ => 0%Z) (c_cost m)) (c_lethal m).
(** [reset_occupancy], costmap.rs:415-418. *)
Definition reset_occupancy (m : costmap) : costmap :=
  CostMap (c_width m) (c_height m) (map (fun _ => (-1)%Z) (c_occ m)) (c_cost m) (c_lethal m).

(** The loop of [apply_from_occupancy], costmap.rs:430-432: as many cells as both
    layers have. *)
Fixpoint apply_cells (lethal : Z) (occ cost : list Z) : list Z :=
  match occ, cost with
  | o :: occ', _ :: cost' => (if (50 <=? o)%Z then lethal else 0%Z) :: apply_cells lethal occ' cost'
  | _, _ => cost
  end.
(** [apply_from_occupancy], costmap.rs:423-434. *)
Definition apply_from_occupancy (m : costmap) : costmap :=
  CostMap (c_width m) (c_height m) (c_occ m) (apply_cells (c_lethal m) (c_occ m) (c_cost m)) (c_lethal m).

(** [is_lethal], costmap.rs:361-364. *)
Definition is_lethal (m : costmap) (x y : N) : bool :=
  match get_cost m x y with Some c => (c_lethal m <=? c)%Z | None => false end.
(** [is_traversable], costmap.rs:367-373. *)
Definition is_traversable (m : costmap) (x y : N) : bool :=
  match get_cost m x y with Some c => (c <? c_lethal m)%Z | None => false end
  && match get_occupancy m x y with Some o => (0 <=? o)%Z | None => false end.

(** What the owner of a cost map does. *)
Inductive cost_op := CSetOcc (x y : N) (v : Z) | CSetCost (x y : N) (v : Z) | CClear | CReset | CApply.
(** One such call. *)
Definition cost_step (m : costmap) (o : cost_op) : costmap :=
  match o with
  | CSetOcc x y v => set_occupancy m x y v
  | CSetCost x y v => set_cost m x y v
  | CClear => clear_costs m
  | CReset => reset_occupancy m
  | CApply => apply_from_occupancy m
  end.
