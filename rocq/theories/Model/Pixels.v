(** Images, depth images and point clouds: horus_core/src/memory/image.rs,
    depth_image.rs and pointcloud.rs, with image_encoding.rs and the descriptors in
    horus_core/src/types.  The shared memory a tensor names is a list. *)
From Coq Require Import QArith Qround.
From Verif.Base Require Import Prelude Bytes.
From Verif.Model Require Import Grid.
Open Scope nat_scope.

(** * Images *)

(** [ImageEncoding], image_encoding.rs:19-43. *)
Inductive encoding :=
  Mono8 | Mono16 | Rgb8 | Bgr8 | Rgba8 | Bgra8 | Yuv422 | Mono32F | Rgb32F | BayerRggb8 | Depth16.

(** [bytes_per_pixel], image_encoding.rs:72-80. *)
Definition bytes_per_pixel (e : encoding) : nat :=
  match e with
  | Mono8 | BayerRggb8 => 1
  | Mono16 | Yuv422 | Depth16 => 2
  | Rgb8 | Bgr8 => 3
  | Rgba8 | Bgra8 | Mono32F => 4
  | Rgb32F => 12
  end.
(** [channels], image_encoding.rs:84-95. *)
Definition channels (e : encoding) : nat :=
  match e with
  | Mono8 | Mono16 | Mono32F | BayerRggb8 | Depth16 => 1
  | Yuv422 => 2
  | Rgb8 | Bgr8 | Rgb32F => 3
  | Rgba8 | Bgra8 => 4
  end.
(** The element size of [tensor_dtype], image_encoding.rs:99-111. *)
Definition element_size (e : encoding) : nat :=
  match e with
  | Mono8 | Rgb8 | Bgr8 | Rgba8 | Bgra8 | Yuv422 | BayerRggb8 => 1
  | Mono16 | Depth16 => 2
  | Mono32F | Rgb32F => 4
  end.

(** [Image], image.rs:44-47, with what its descriptor says: image_descriptor.rs:132-171. *)
Record image := Image { i_w : nat; i_h : nat; i_enc : encoding; i_step : nat; i_data : bytes }.

(** [new_on], image.rs:73-92 and image_descriptor.rs:89-116: rows of channels of
    elements without padding, all zero (the pool scrubs slots); the step is the row
    stride.  The code casts it to 32 bits: rows of 2^32 bytes and more are not
    modelled. *)
Definition image_new (w h : nat) (e : encoding) : image :=
  let row := w * (channels e * element_size e) in
  Image w h e row (repeat 0%N (h * row)).

(** The place of a pixel, image.rs:128-129. *)
Definition pixel_offset (m : image) (x y : nat) : nat := y * i_step m + x * bytes_per_pixel (i_enc m).

(** [pixel], image.rs:123-136. *)
Definition pixel (m : image) (x y : nat) : option bytes :=
  if (i_w m <=? x) || (i_h m <=? y) then None
  else
    let bpp := bytes_per_pixel (i_enc m) in
    let off := pixel_offset m x y in
    if off + bpp <=? length (i_data m) then Some (slice off bpp (i_data m)) else None.

(** [data[off..off+n].copy_from_slice(v)]. *)
Definition splice (l : bytes) (off : nat) (v : bytes) : bytes :=
  firstn off l ++ v ++ skipn (off + length v) l.

(** The image with other bytes. *)
Definition with_data (m : image) (d : bytes) : image := Image (i_w m) (i_h m) (i_enc m) (i_step m) d.

(** [set_pixel], image.rs:142-157. *)
Definition set_pixel (m : image) (x y : nat) (v : bytes) : image :=
  if (i_w m <=? x) || (i_h m <=? y) then m
  else
    let bpp := bytes_per_pixel (i_enc m) in
    if negb (length v =? bpp) then m
    else
      let off := pixel_offset m x y in
      if off + bpp <=? length (i_data m) then with_data m (splice (i_data m) off v) else m.

(** [fill], image.rs:163-173: every whole chunk of the data. *)
Definition fill_image (m : image) (v : bytes) : image :=
  let bpp := bytes_per_pixel (i_enc m) in
  if negb (length v =? bpp) then m
  else
    let n := length (i_data m) / bpp in
    with_data m (flat_map (fun _ => v) (seq 0 n) ++ skipn (n * bpp) (i_data m)).

(** [roi], image.rs:178-202; the additions are checked, and the image's sides are
    of 32 bits, so a sum that does not fit exceeds them. *)
Definition roi (m : image) (x y w h : nat) : option bytes :=
  if (i_w m <? x + w) || (i_h m <? y + h) then None
  else
    let bpp := bytes_per_pixel (i_enc m) in
    Some (flat_map (fun r =>
      let start := r * i_step m + x * bpp in
      if start + w * bpp <=? length (i_data m) then slice start (w * bpp) (i_data m) else [])
      (seq y h)).

(** What the owner of an image does. *)
Inductive image_op := ISet (x y : nat) (v : bytes) | IFill (v : bytes).
(** One such call. *)
Definition image_step (m : image) (o : image_op) : image :=
  match o with ISet x y v => set_pixel m x y v | IFill v => fill_image m v end.

(** * Depth images in millimetres *)

(** [DepthImage] with [u16] pixels, depth_image.rs:38-41; two bytes are one number
    here.  The scale is [depth_scale], 1 unless a descriptor says otherwise. *)
Record depth := Depth { d_w : nat; d_h : nat; d_scale : Q; d_px : list N }.

(** [millimeters], depth_image.rs:63-65. *)
Definition depth_new (w h : nat) : depth := Depth w h 1 (repeat 0%N (h * w)).

(** To the nearest whole number, a half to the even one. *)
Definition round_even (q : Q) : Z :=
  let f := Qfloor q in
  match Qcompare (q - inject_Z f) (1 # 2) with
  | Lt => f
  | Gt => (f + 1)%Z
  | Eq => if Z.even f then f else (f + 1)%Z
  end.

(** The result of one [f32] operation whose exact value is [q]: 24 significant bits,
    to nearest.  Subnormal numbers and overflow are left out. *)
Definition f32 (q : Q) : Q :=
  if Qlt_le_dec 0 q then
    let k := (Z.log2 (Qnum q) - Z.log2 (Zpos (Qden q)))%Z in
    let s := if Qlt_le_dec (q * Qpower 2 (24 - k)) (Qpower 2 24) then (24 - k)%Z else (23 - k)%Z in
    Qred (inject_Z (round_even (q * Qpower 2 s)) * Qpower 2 (- s))
  else q.

(** A raw reading in metres, depth_image.rs:121: [mm as f32 * scale / 1000.0]; a
    [u16] is an [f32] exactly. *)
Definition metres (scale : Q) (raw : N) : Q := f32 (f32 (inject_Z (Z.of_N raw) * scale) / 1000).

(** [get_depth], depth_image.rs:96-128. *)
Definition get_depth (m : depth) (x y : nat) : option Q :=
  if (d_w m <=? x) || (d_h m <=? y) then None
  else option_map (metres (d_scale m)) (nth_error (d_px m) (y * d_w m + x)).

(** [get_depth_u16], depth_image.rs:178-190. *)
Definition get_depth_u16 (m : depth) (x y : nat) : option N :=
  if (d_w m <=? x) || (d_h m <=? y) then None else nth_error (d_px m) (y * d_w m + x).

(** [set_depth], depth_image.rs:141-173, of a finite number; [None] is the error. *)
Definition set_depth (m : depth) (x y : nat) (v : Q) : option depth :=
  if (d_w m <=? x) || (d_h m <=? y) then Some m
  else
    let mm := f32 (f32 (v * 1000) / d_scale m) in
    if Qlt_le_dec mm 0 then None
    else if Qlt_le_dec 65535 mm then None
    else
      let i := y * d_w m + x in
      if i <? length (d_px m)
      then Some (Depth (d_w m) (d_h m) (d_scale m) (store (d_px m) i (Z.to_N (Qfloor mm))))
      else Some m.

(** The loop of [depth_statistics], depth_image.rs:206-221: smallest, largest, sum
    and count of the positive depths.  [f32::MAX] and [f32::MIN] at the start are
    "none yet". *)
Definition stats := option (Q * Q * Q * nat).
(** One pixel of that loop. *)
Definition stat_step (a : stats) (d : Q) : stats :=
  if Qlt_le_dec 0 d then
    match a with
    | None => Some (d, d, d, 1)
    | Some (mn, mx, s, n) =>
        Some (if Qlt_le_dec d mn then d else mn, if Qlt_le_dec mx d then d else mx, (s + d)%Q, S n)
    end
  else a.
(** [depth_statistics], depth_image.rs:198-227, over the depths in row order; exact
    numbers. *)
Definition depth_statistics (l : list Q) : option (Q * Q * Q) :=
  match fold_left stat_step l None with
  | None => None
  | Some (mn, mx, s, n) => Some (mn, mx, (s / inject_Z (Z.of_nat n))%Q)
  end.

(** * Point clouds *)

Section Cloud.
Context {A : Type}.

(** [PointCloud] of floats, pointcloud.rs:44-47: points, fields per point, the floats. *)
Record cloud := Cloud { pc_count : nat; pc_fpp : nat; pc_data : list A }.

(** [from_xyz], [from_xyzi] and [from_xyzrgb], pointcloud.rs:76-126, of points of
    [fpp] floats each.  The number of points is cast to 32 bits; more are not
    modelled. *)
Definition from_points (fpp : nat) (pts : list (list A)) : cloud :=
  Cloud (length pts) fpp (concat pts).

(** [point_at], pointcloud.rs:162-176. *)
Definition point_at (c : cloud) (i : nat) : option (list A) :=
  if pc_count c <=? i then None
  else if i * pc_fpp c + pc_fpp c <=? length (pc_data c)
  then Some (firstn (pc_fpp c) (skipn (i * pc_fpp c) (pc_data c))) else None.

(** [extract_xyz], pointcloud.rs:183-221, of a float cloud; the outer [None] is a
    refusal, an element that is [None] an access out of range (a panic). *)
Definition extract_xyz (c : cloud) : option (list (option (A * A * A))) :=
  if pc_fpp c <? 3 then None
  else if length (pc_data c) <? pc_count c * pc_fpp c then None
  else Some (map (fun i =>
    let b := i * pc_fpp c in
    match nth_error (pc_data c) b, nth_error (pc_data c) (b + 1), nth_error (pc_data c) (b + 2) with
    | Some x, Some y, Some z => Some (x, y, z)
    | _, _, _ => None
    end) (seq 0 (pc_count c))).

(** [has_intensity] and [has_color], pointcloud_descriptor.rs:136-144. *)
Definition has_intensity (c : cloud) : bool := 4 <=? pc_fpp c.
Definition has_color (c : cloud) : bool := 6 <=? pc_fpp c.
End Cloud.
Arguments cloud : clear implicits.
