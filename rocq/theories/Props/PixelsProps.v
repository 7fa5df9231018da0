(** C103-C105: images, depth images and point clouds. *)
From Coq Require Import QArith.
From Verif.Base Require Import Prelude Bytes.
From Verif.Model Require Import Grid Pixels.
From Verif.Spec Require Import PixelsSpec.
From Verif.Proofs Require Import GridProofs PixelsProofs.
Open Scope nat_scope.

(** C103: whatever is painted, the image shows it: a pixel has the value last set or
    filled with the right number of bytes, zero before; values of another length and
    places outside change nothing; outside there is no pixel. *)
Theorem C103_picture : forall w h e ops, shows (painted w h e ops) w h (picture_of w h e ops).
Proof. intros. apply painted_shows. Qed.
Print Assumptions C103_picture.

(** A region that fits is exactly its pixels, row by row, and no other is given. *)
Theorem C103_region : forall w h e ops x y rw rh,
  roi (painted w h e ops) x y rw rh =
    if (x + rw <=? w) && (y + rh <=? h) then Some (rectangle (picture_of w h e ops) x y rw rh) else None.
Proof. intros. destruct (painted_shows w h e ops) as [W S]. apply (roi_rectangle _ _ _ _ _ _ _ _ _ W S). Qed.
Print Assumptions C103_region.

(** A pixel has as many bytes as the channels of its encoding, and the memory of an
    image is its pixels and no more. *)
Theorem C103_size : forall w h e ops x y v,
  length (i_data (painted w h e ops)) = w * h * (channels e * element_size e)
  /\ (pixel (painted w h e ops) x y = Some v -> length v = channels e * element_size e).
Proof.
  intros w h e ops x y v. destruct (painted_shows w h e ops) as [W S]. pose proof W as (_ & _ & _ & _ & L).
  rewrite encoding_size. split; [rewrite L; nia|]. rewrite (pixel_slice _ _ _ _ _ _ W).
  destruct (_ && _) eqn:E; [|discriminate]. apply andb_true_iff in E as [E1 E2]. apply Nat.ltb_lt in E1, E2. intro X. injection X as <-. unfold slice.
  rewrite firstn_length, skipn_length, L. pose proof (off_bound (bytes_per_pixel e) w h x y E1 E2). lia.
Qed.
Print Assumptions C103_size.

Example C103_ex :
  let m := painted 3 2 Rgb8 [IFill [9;9;9]%N; ISet 2 1 [1;2;3]%N; ISet 3 0 [7;7;7]%N; ISet 0 0 [7;7]%N] in
  pixel m 2 1 = Some [1;2;3]%N /\ pixel m 0 0 = Some [9;9;9]%N /\ pixel m 3 0 = None
  /\ roi m 1 1 2 1 = Some [9;9;9;1;2;3]%N /\ roi m 2 1 2 1 = None.
Proof. repeat split. Qed.

(** C104: a depth that is accepted is read back within one raw unit below and the
    rounding of four [f32] operations; every other pixel is as it was. *)
Theorem C104_set_get : forall m x y v m', sound_depth m -> x < d_w m -> y < d_h m ->
  set_depth m x y v = Some m' ->
  (0 <= v)%Q /\ sound_depth m' /\ d_w m' = d_w m /\ d_h m' = d_h m /\ d_scale m' = d_scale m
  /\ (exists d, get_depth m' x y = Some d /\ within_a_unit (d_scale m) v d)
  /\ (forall x' y', (x', y') <> (x, y) -> get_depth m' x' y' = get_depth m x' y').
Proof. exact set_get_depth. Qed.
Print Assumptions C104_set_get.

(** Negative depths and those above 65535 units are refused, and none between: the
    bounds are exact to three parts in eight million. *)
Theorem C104_refused : forall m x y v, x < d_w m -> y < d_h m -> (0 < d_scale m)%Q ->
  ((v < 0)%Q -> set_depth m x y v = None)
  /\ ((0 <= v)%Q -> (v * 1000 <= 65535 * d_scale m * (16777210 # 16777216))%Q -> set_depth m x y v <> None)
  /\ ((65535 * d_scale m * (16777222 # 16777216) < v * 1000)%Q -> set_depth m x y v = None).
Proof. exact set_depth_refused. Qed.
Print Assumptions C104_refused.

(** Setting a depth outside the image reports success and changes nothing, whatever
    the depth. *)
Theorem C104_outside : forall m x y v, d_w m <= x \/ d_h m <= y ->
  set_depth m x y v = Some m /\ get_depth m x y = None.
Proof.
  intros m x y v H. unfold set_depth, get_depth.
  replace ((d_w m <=? x) || (d_h m <=? y)) with true; auto.
  symmetry. apply orb_true_iff. rewrite !Nat.leb_le. auto.
Qed.
Print Assumptions C104_outside.

(** Refuted: that a depth read from an image and written back is the same depth.  At
    the default scale 251 mm comes back as 250 mm, wherever the pixel is. *)
Theorem C104_write_back_refuted : forall m x y d, sound_depth m -> x < d_w m -> y < d_h m -> d_scale m = 1%Q ->
  get_depth_u16 m x y = Some 251%N -> get_depth m x y = Some d ->
  exists m', set_depth m x y d = Some m' /\ get_depth_u16 m' x y = Some 250%N.
Proof.
  intros m x y d (L & P & F) X Y S G E. unfold get_depth_u16, get_depth, set_depth in *.
  replace ((d_w m <=? x) || (d_h m <=? y)) with false in *
    by (symmetry; apply orb_false_iff; rewrite !Nat.leb_gt; auto).
  rewrite G, S in E. cbn [option_map] in E. apply some_eq_q in E. subst d. cbv zeta. rewrite S.
  assert (M : f32 (f32 (metres 1 251 * 1000) / 1) = 16449535 # 65536) by (vm_compute; reflexivity).
  rewrite M. destruct (Qlt_le_dec (16449535 # 65536) 0) as [C|_]; [discriminate C|].
  destruct (Qlt_le_dec 65535 (16449535 # 65536)) as [C|_]; [discriminate C|].
  assert (I : y * d_w m + x < length (d_px m)) by (apply nth_error_Some; rewrite G; discriminate).
  rewrite (proj2 (Nat.ltb_lt _ _) I). eexists. split; [reflexivity|]. cbn [d_w d_h d_px].
  replace ((d_w m <=? x) || (d_h m <=? y)) with false
    by (symmetry; apply orb_false_iff; rewrite !Nat.leb_gt; auto).
  rewrite store_nth, Nat.eqb_refl, (proj2 (Nat.ltb_lt _ _) I). reflexivity.
Qed.
Print Assumptions C104_write_back_refuted.

(** Statistics: none exactly when no depth is positive; otherwise the least and the
    greatest positive depth and their mean. *)
Theorem C104_statistics : forall l,
  (depth_statistics l = None <-> positive l = [])
  /\ (forall mn mx mean, depth_statistics l = Some (mn, mx, mean) ->
       In mn (positive l) /\ In mx (positive l) /\ Forall (fun d => mn <= d /\ d <= mx)%Q (positive l)
       /\ (mean * inject_Z (Z.of_nat (length (positive l))) == qsum (positive l))%Q /\ (mn <= mean /\ mean <= mx)%Q).
Proof. intro l. split; [apply statistics_none|apply statistics_some]. Qed.
Print Assumptions C104_statistics.

Example C104_ex : sound_depth (depth_new 4 3)
  /\ (exists m', set_depth (depth_new 4 3) 3 2 (5 # 2) = Some m' /\ get_depth_u16 m' 3 2 = Some 2500%N)
  /\ set_depth (depth_new 4 3) 3 2 66 = None.
Proof.
  split; [|split].
  - split; [reflexivity|]. split; [reflexivity|]. repeat constructor.
  - eexists. split; vm_compute; reflexivity.
  - vm_compute. reflexivity.
Qed.
Example C104_ex_write_back : get_depth_u16 (Depth 1 1 1 [251%N]) 0 0 = Some 251%N.
Proof. reflexivity. Qed.
Example C104_ex_statistics : depth_statistics [0; 1; 3; 0; 2]%Q = Some (1, 3, 6 / 3)%Q.
Proof. vm_compute. reflexivity. Qed.

(** C105: a cloud made of points holds those points, in order, and no others; their
    coordinates come out as they went in. *)
Theorem C105_points : forall A k (pts : list (list A)) i, Forall (fun p => length p = k) pts ->
  pc_count (from_points k pts) = length pts /\ point_at (from_points k pts) i = nth_error pts i.
Proof. intros. split; [reflexivity|]. apply point_at_from; auto. Qed.
Print Assumptions C105_points.

Theorem C105_coordinates : forall A k (pts : list (list A)), 3 <= k -> Forall (fun p => length p = k) pts ->
  exists xyz, extract_xyz (from_points k pts) = Some xyz /\ length xyz = length pts
    /\ forall i p x y z r, nth_error pts i = Some p -> p = x :: y :: z :: r -> nth_error xyz i = Some (Some (x, y, z)).
Proof. exact @extract_from. Qed.
Print Assumptions C105_coordinates.

(** Any descriptor, also one of another process, is answered without an access out of
    range. *)
Theorem C105_total : forall A (c : cloud A) xyz, extract_xyz c = Some xyz ->
  Forall (fun o => o <> None) xyz /\ length xyz = pc_count c.
Proof.
  intros A c xyz E. unfold extract_xyz in E. destruct (pc_fpp c <? 3) eqn:E1; [discriminate|].
  destruct (length (pc_data c) <? pc_count c * pc_fpp c) eqn:E2; [discriminate|]. apply some_eq_q in E. subst xyz. bool_prop.
  rewrite map_length, seq_length. split; auto. apply Forall_map, Forall_forall. intros i Hi. apply in_seq in Hi.
  cbv beta zeta. assert (i * pc_fpp c + 2 < length (pc_data c)) by nia.
  destruct (nth_error (pc_data c) (i * pc_fpp c)) eqn:N0; [|apply nth_error_None in N0; lia].
  destruct (nth_error (pc_data c) (i * pc_fpp c + 1)) eqn:N1; [|apply nth_error_None in N1; lia].
  destruct (nth_error (pc_data c) (i * pc_fpp c + 2)) eqn:N2; [|apply nth_error_None in N2; lia]. discriminate.
Qed.
Print Assumptions C105_total.

(** Refuted: that a cloud that says it has intensity carries one.  Every coloured
    cloud does, and the field where intensity is looked for is the red channel. *)
Theorem C105_intensity_refuted : forall A (pts : list (list A)) i x y z r g b,
  Forall (fun p => length p = 6) pts -> nth_error pts i = Some [x; y; z; r; g; b] ->
  has_intensity (from_points 6 pts) = true
  /\ option_map (fun p => nth_error p 3) (point_at (from_points 6 pts) i) = Some (Some r).
Proof. intros. split; [reflexivity|]. rewrite point_at_from, H0 by auto. reflexivity. Qed.
Print Assumptions C105_intensity_refuted.

Example C105_ex :
  let c := from_points 4 [[1;2;3;9];[4;5;6;8]] in
  extract_xyz c = Some [Some (1,2,3); Some (4,5,6)] /\ point_at c 1 = Some [4;5;6;8] /\ point_at c 2 = None.
Proof. repeat split. Qed.
