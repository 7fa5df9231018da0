(** What pictures, depth images and point clouds are said to be. *)
From Coq Require Import QArith.
From Verif.Base Require Import Prelude Bytes.
From Verif.Model Require Import Pixels.
Open Scope nat_scope.

(** A picture of [w] by [h]: a value for every pixel. *)
Definition picture := nat -> nat -> bytes.

(** What a call does to a picture. *)
Definition paint (w h bpp : nat) (p : picture) (o : image_op) : picture :=
  match o with
  | ISet x y v => fun x' y' =>
      if (x' =? x) && (y' =? y) && (length v =? bpp) then v else p x' y'
  | IFill v => if length v =? bpp then fun _ _ => v else p
  end.

(** An image shows a picture: every pixel in range has its value, none out of it. *)
Definition shows (m : image) (w h : nat) (p : picture) : Prop :=
  forall x y, pixel m x y = if (x <? w) && (y <? h) then Some (p x y) else None.

(** The pixels of a rectangle, row by row. *)
Definition rectangle (p : picture) (x y w h : nat) : bytes :=
  flat_map (fun r => flat_map (fun c => p c r) (seq x w)) (seq y h).

(** The image after calls. *)
Definition painted (w h : nat) (e : encoding) (ops : list image_op) : image :=
  fold_left image_step ops (image_new w h e).
Definition picture_of (w h : nat) (e : encoding) (ops : list image_op) : picture :=
  fold_left (paint w h (bytes_per_pixel e)) ops (fun _ _ => repeat 0%N (bytes_per_pixel e)).

(** The depths that count: positive ones; their sum. *)
Definition positive (l : list Q) : list Q := filter (fun d => if Qlt_le_dec 0 d then true else false) l.
Definition qsum (l : list Q) : Q := fold_right Qplus 0%Q l.

(** A depth image as made: a reading for every pixel, and a positive scale. *)
Definition sound_depth (m : depth) : Prop :=
  length (d_px m) = d_h m * d_w m /\ (0 < d_scale m)%Q /\ Forall (fun r => r < 65536)%N (d_px m).

(** Apart by at most one raw unit, downwards, and four roundings to 24 bits. *)
Definition within_a_unit (scale v d : Q) : Prop :=
  (d <= v + v * (1 # 2097152) /\ v - v * (1 # 2097152) - scale * (1 # 1000) < d)%Q.
