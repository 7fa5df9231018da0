(** What a map of cells should be to its users. *)
From Coq Require Import QArith.
From Verif.Base Require Import Prelude.
From Verif.Model Require Import Grid.
Open Scope N_scope.

(** A grid as created and then used: the sizes are of 32 bits and every cell has
    its place. *)
Definition made (g : grid) : Prop :=
  exists w h res ops, g = fold_left grid_step ops (grid_new w h res)
    /\ w < 4294967296 /\ h < 4294967296 /\ w * h <= 4294967296.

(** The same, with its origin moved. *)
Definition placed (g : grid) : Prop := exists g0 x y t, made g0 /\ g = set_origin g0 x y t.

(** The cell's square along one axis, shifted by a millionth of a cell. *)
Definition covers (res origin : Q) (c : N) (v : Q) : Prop :=
  (inject_Z (Z.of_N c) * res <= v - origin + EPSILON * res
   /\ v - origin + EPSILON * res < (inject_Z (Z.of_N c) + 1) * res)%Q.

(** A cost map as created and then used. *)
Definition cost_made (m : costmap) : Prop :=
  exists w h ops, m = fold_left cost_step ops (costmap_new w h)
    /\ w < 4294967296 /\ h < 4294967296 /\ w * h <= 4294967296.
