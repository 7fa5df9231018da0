From Coq Require Import QArith Qround Qpower Lqa.
From Verif.Base Require Import Prelude Bytes.
From Verif.Model Require Import Grid Pixels.
From Verif.Spec Require Import PixelsSpec.
From Verif.Proofs Require Import GridProofs.
Open Scope nat_scope.

(** * Lists *)

Lemma some_eq_q {A} (x y : A) : Some x = Some y -> x = y.
Proof. congruence. Qed.

Lemma nth_ext_err {A} : forall (l l' : list A), (forall i, nth_error l i = nth_error l' i) -> l = l'.
Proof.
  induction l as [|a l IH]; intros [|b l'] H; auto; try (specialize (H 0); discriminate).
  pose proof (H 0) as H0. cbn in H0. injection H0 as ->. f_equal. apply IH. intro i. exact (H (S i)).
Qed.

Lemma nth_skipn' {A} : forall n (l : list A) i, nth_error (skipn n l) i = nth_error l (n + i).
Proof. induction n; intros [|a l] i; auto. - destruct i; auto. - cbn. apply IHn. Qed.

Lemma nth_firstn' {A} : forall n (l : list A) i, nth_error (firstn n l) i = if i <? n then nth_error l i else None.
Proof.
  induction n as [|n IH]; intros l i.
  - cbn [firstn]. destruct (i <? 0) eqn:E; [bool_prop; lia|]. destruct i; reflexivity.
  - destruct l as [|a l].
    + cbn [firstn]. destruct (i <? S n); destruct i; reflexivity.
    + destruct i as [|i]; [reflexivity|]. cbn [firstn nth_error]. rewrite IH. reflexivity.
Qed.

Lemma nth_slice : forall o k (l : bytes) i,
  nth_error (slice o k l) i = if i <? k then nth_error l (o + i) else None.
Proof. intros. unfold slice. rewrite nth_firstn', nth_skipn'. reflexivity. Qed.

Lemma nth_splice : forall (l : bytes) o v i, o + length v <= length l ->
  nth_error (splice l o v) i = if (o <=? i) && (i <? o + length v) then nth_error v (i - o) else nth_error l i.
Proof.
  intros l o v i H. unfold splice.
  assert (Hf : length (firstn o l) = o) by (apply firstn_length_le; lia).
  destruct (o <=? i) eqn:E1; bool_prop; cbn [andb].
  - rewrite nth_error_app2 by lia. rewrite Hf. destruct (i <? o + length v) eqn:E2; bool_prop.
    + apply nth_error_app1. lia.
    + rewrite nth_error_app2 by lia. rewrite nth_skipn'. f_equal. lia.
  - rewrite nth_error_app1 by lia. rewrite nth_firstn'. replace (i <? o) with true by (symmetry; apply Nat.ltb_lt; lia).
    reflexivity.
Qed.

Lemma splice_length : forall (l : bytes) o v, o + length v <= length l -> length (splice l o v) = length l.
Proof.
  intros. unfold splice. rewrite !app_length, skipn_length, firstn_length. lia.
Qed.

Lemma slice_all : forall (v : bytes), slice 0 (length v) v = v.
Proof. intro. unfold slice. cbn [skipn]. apply firstn_all. Qed.

Lemma slice_splice_same : forall (l : bytes) o v, o + length v <= length l ->
  slice o (length v) (splice l o v) = v.
Proof.
  intros l o v H. apply nth_ext_err. intro i. rewrite nth_slice.
  destruct (i <? length v) eqn:E; bool_prop.
  - rewrite nth_splice by auto. replace ((o <=? o + i) && (o + i <? o + length v)) with true.
    + f_equal. lia.
    + symmetry. apply andb_true_iff. split; [apply Nat.leb_le|apply Nat.ltb_lt]; lia.
  - symmetry. apply nth_error_None. lia.
Qed.

Lemma slice_splice_other : forall (l : bytes) o v o' k, o + length v <= length l ->
  o' + k <= o \/ o + length v <= o' -> slice o' k (splice l o v) = slice o' k l.
Proof.
  intros l o v o' k H D. apply nth_ext_err. intro i. rewrite !nth_slice.
  destruct (i <? k) eqn:E; bool_prop; auto. rewrite nth_splice by auto.
  replace ((o <=? o' + i) && (o' + i <? o + length v)) with false; auto.
  symmetry. apply andb_false_iff. rewrite Nat.leb_gt, Nat.ltb_ge. lia.
Qed.

Lemma repeat_slice : forall n o k, o + k <= n -> slice o k (repeat 0%N n) = repeat 0%N k.
Proof.
  intros n o k H. unfold slice. replace n with (o + (k + (n - o - k))) by lia.
  rewrite !repeat_app. rewrite skipn_app, repeat_length, Nat.sub_diag.
  rewrite skipn_all2 by (rewrite repeat_length; lia). cbn [app skipn].
  rewrite firstn_app, repeat_length, Nat.sub_diag, firstn_all2 by (rewrite repeat_length; lia).
  cbn [firstn]. apply app_nil_r.
Qed.

Lemma slice_add : forall o a b (l : bytes), slice o (a + b) l = slice o a l ++ slice (o + a) b l.
Proof.
  intros. unfold slice. rewrite <- (firstn_skipn a (skipn o l)) at 1.
  rewrite firstn_app.
  destruct (le_lt_dec a (length (skipn o l))).
  - rewrite firstn_length_le by auto. replace (a + b - a) with b by lia.
    rewrite firstn_firstn. replace (Nat.min (a + b) a) with a by lia. f_equal.
    f_equal. apply nth_ext_err. intro. rewrite !nth_skipn'. f_equal. lia.
  - rewrite (firstn_all2 (n := a)) by lia. rewrite firstn_all2 by lia. f_equal.
    rewrite (skipn_all2 (n := a)) by lia. rewrite firstn_nil.
    rewrite (skipn_all2 (n := o + a)) by (rewrite skipn_length in *; lia). rewrite firstn_nil. reflexivity.
Qed.

Lemma slice_chunks : forall (l : bytes) b w o,
  slice o (w * b) l = flat_map (fun i => slice (o + i * b) b l) (seq 0 w).
Proof.
  intros l b. induction w as [|w IH]; intro o; auto.
  replace (S w * b) with (b + w * b) by lia. rewrite slice_add. cbn [seq flat_map].
  f_equal; [f_equal; lia|]. rewrite IH, <- seq_shift, !flat_map_concat_map, map_map. f_equal.
  apply map_ext. intro i. f_equal. lia.
Qed.

Lemma fill_slice : forall (v r : bytes) n i, i < n ->
  slice (i * length v) (length v) (flat_map (fun _ => v) (seq 0 n) ++ r) = v.
Proof.
  intros v r n. assert (G : forall n s i, i < n ->
    slice (i * length v) (length v) (flat_map (fun _ => v) (seq s n) ++ r) = v).
  2: { intros. apply G. auto. }
  clear n. induction n as [|n IH]; intros s i H; [lia|]. cbn [seq flat_map]. rewrite <- app_assoc.
  destruct i as [|i].
  - unfold slice. cbn [Nat.mul skipn]. rewrite firstn_app, Nat.sub_diag, firstn_all. cbn [firstn]. apply app_nil_r.
  - unfold slice. cbn [Nat.mul]. rewrite skipn_app. rewrite skipn_all2 by lia. cbn [app].
    replace (length v + i * length v - length v) with (i * length v) by lia. apply IH. lia.
Qed.

Lemma fill_length : forall (v : bytes) n, length (flat_map (fun _ => v) (seq 0 n)) = n * length v.
Proof.
  intros v n. generalize 0. induction n; intro s; auto. cbn [seq flat_map Nat.mul]. rewrite app_length, IHn. reflexivity.
Qed.

Lemma seq_from : forall n x, seq x n = map (fun i => x + i) (seq 0 n).
Proof.
  induction n as [|n IH]; intro x; auto. cbn [seq map]. f_equal; [lia|].
  rewrite IH, <- (seq_shift n 0), map_map. apply map_ext. intro. lia.
Qed.

(** * Images *)

Lemma encoding_size : forall e, channels e * element_size e = bytes_per_pixel e.
Proof. destruct e; reflexivity. Qed.

Lemma bpp_pos : forall e, 0 < bytes_per_pixel e.
Proof. destruct e; cbn; lia. Qed.

(** The shape of an image [image_new] made. *)
Definition wf (w h : nat) (e : encoding) (m : image) : Prop :=
  i_w m = w /\ i_h m = h /\ i_enc m = e /\ i_step m = w * bytes_per_pixel e
  /\ length (i_data m) = h * (w * bytes_per_pixel e).

Lemma new_wf : forall w h e, wf w h e (image_new w h e).
Proof. intros. unfold wf, image_new. cbn. rewrite encoding_size, repeat_length. auto. Qed.

Lemma off_bound : forall b w h x y, x < w -> y < h -> (y * w + x) * b + b <= h * (w * b).
Proof. intros. assert (y * w + x + 1 <= h * w) by nia. nia. Qed.

Lemma pixel_slice : forall w h e m x y, wf w h e m ->
  pixel m x y = if (x <? w) && (y <? h)
    then Some (slice ((y * w + x) * bytes_per_pixel e) (bytes_per_pixel e) (i_data m)) else None.
Proof.
  intros w h e m x y (Hw & Hh & He & Hs & Hl). unfold pixel, pixel_offset. rewrite Hw, Hh, He, Hs, Hl.
  destruct (w <=? x) eqn:E1; destruct (h <=? y) eqn:E2; bool_prop; cbn [orb].
  1-3: replace ((x <? w) && (y <? h)) with false; auto; symmetry; apply andb_false_iff; rewrite !Nat.ltb_ge; lia.
  replace ((x <? w) && (y <? h)) with true by (symmetry; apply andb_true_iff; rewrite !Nat.ltb_lt; lia).
  pose proof (off_bound (bytes_per_pixel e) w h x y E1 E2) as B.
  replace (y * (w * bytes_per_pixel e) + x * bytes_per_pixel e) with ((y * w + x) * bytes_per_pixel e) by nia.
  destruct (_ <=? _) eqn:E3; bool_prop; auto. lia.
Qed.

Lemma cells_apart : forall w b x y x' y', x < w -> x' < w -> (x', y') <> (x, y) ->
  (y' * w + x') * b + b <= (y * w + x) * b \/ (y * w + x) * b + b <= (y' * w + x') * b.
Proof.
  intros w b x y x' y' H H' D. destruct (lt_eq_lt_dec (y' * w + x') (y * w + x)) as [[L|E]|L].
  - left. nia.
  - exfalso. apply D. assert (y' = y) by (destruct (lt_eq_lt_dec y' y) as [[?|?]|?]; auto; nia).
    subst. f_equal. lia.
  - right. nia.
Qed.

Lemma paint_step : forall w h e m p o, wf w h e m -> shows m w h p ->
  wf w h e (image_step m o) /\ shows (image_step m o) w h (paint w h (bytes_per_pixel e) p o).
Proof.
  intros w h e m p o W S. pose proof W as (Hw & Hh & He & Hs & Hl). destruct o as [x y v|v]; cbn [image_step paint].
  - unfold set_pixel. rewrite Hw, Hh, He.
    destruct ((w <=? x) || (h <=? y)) eqn:O.
    + split; auto. intros x' y'. rewrite S. destruct ((x' <? w) && (y' <? h)) eqn:I; auto.
      destruct ((x' =? x) && (y' =? y)) eqn:Q; auto. exfalso. apply orb_true_iff in O. rewrite !Nat.leb_le in O.
      bool_prop. lia.
    + apply orb_false_iff in O. rewrite !Nat.leb_gt in O. destruct O as [Ox Oy].
      destruct (length v =? bytes_per_pixel e) eqn:L; cbn [negb].
      2: { split; auto. intros x' y'. rewrite S, andb_false_r. reflexivity. }
      bool_prop. unfold pixel_offset. rewrite He, Hs.
      replace (y * (w * bytes_per_pixel e) + x * bytes_per_pixel e) with ((y * w + x) * bytes_per_pixel e) by nia.
      pose proof (off_bound (bytes_per_pixel e) w h x y Ox Oy) as B.
      replace (_ <=? _) with true by (symmetry; apply Nat.leb_le; rewrite Hl; exact B).
      assert (W' : wf w h e (with_data m (splice (i_data m) ((y * w + x) * bytes_per_pixel e) v))).
      { unfold wf, with_data. cbn. rewrite splice_length by (rewrite L, Hl; exact B). auto. }
      split; auto. intros x' y'. rewrite (pixel_slice _ _ _ _ _ _ W'). cbn [with_data i_data].
      specialize (S x' y'). rewrite (pixel_slice _ _ _ _ _ _ W) in S.
      destruct ((x' <? w) && (y' <? h)) eqn:I; auto. bool_prop. rewrite andb_true_r.
      destruct ((x' =? x) && (y' =? y)) eqn:Q; bool_prop.
      * subst. f_equal. rewrite <- L. apply slice_splice_same. rewrite L, Hl. exact B.
      * rewrite <- S. f_equal. apply slice_splice_other; [rewrite L, Hl; exact B|]. rewrite L.
        apply cells_apart; auto. intro X. injection X as -> ->. rewrite !Nat.eqb_refl in Q. discriminate.
  - unfold fill_image. rewrite He. destruct (length v =? bytes_per_pixel e) eqn:L; cbn [negb]; [|split; auto].
    bool_prop. pose proof (bpp_pos e) as P. rewrite Hl. rewrite Nat.mul_assoc, Nat.div_mul by lia.
    assert (W' : wf w h e (with_data m (flat_map (fun _ => v) (seq 0 (h * w)) ++ skipn (h * w * bytes_per_pixel e) (i_data m)))).
    { unfold wf, with_data. cbn. rewrite app_length, fill_length, skipn_length, Hl, L. repeat split; auto. nia. }
    split; auto. intros x' y'. rewrite (pixel_slice _ _ _ _ _ _ W'). cbn [with_data i_data].
    destruct ((x' <? w) && (y' <? h)) eqn:I; auto. bool_prop. f_equal. rewrite <- L. apply fill_slice. nia.
Qed.

Lemma painted_shows : forall w h e ops,
  wf w h e (painted w h e ops) /\ shows (painted w h e ops) w h (picture_of w h e ops).
Proof.
  intros w h e ops. unfold painted, picture_of.
  assert (I : wf w h e (image_new w h e) /\ shows (image_new w h e) w h (fun _ _ => repeat 0%N (bytes_per_pixel e))).
  { split; [apply new_wf|]. intros x y. rewrite (pixel_slice _ _ _ _ _ _ (new_wf w h e)).
    destruct ((x <? w) && (y <? h)) eqn:E; auto. bool_prop. f_equal. unfold image_new. cbn [i_data].
    rewrite encoding_size. apply repeat_slice. apply off_bound; auto. }
  revert I. generalize (image_new w h e), (fun _ _ : nat => repeat 0%N (bytes_per_pixel e)).
  induction ops as [|o ops IH]; intros m p [W S]; auto. cbn [fold_left]. apply IH. apply paint_step; auto.
Qed.

Lemma roi_rectangle : forall w h e m p x y rw rh, wf w h e m -> shows m w h p ->
  roi m x y rw rh = if (x + rw <=? w) && (y + rh <=? h) then Some (rectangle p x y rw rh) else None.
Proof.
  intros w h e m p x y rw rh W S. pose proof W as (Hw & Hh & He & Hs & Hl). unfold roi. rewrite Hw, Hh, He, Hs.
  destruct (w <? x + rw) eqn:E1; destruct (h <? y + rh) eqn:E2; bool_prop; cbn [orb].
  1-3: replace ((x + rw <=? w) && (y + rh <=? h)) with false; auto; symmetry; apply andb_false_iff; rewrite !Nat.leb_gt; lia.
  replace ((x + rw <=? w) && (y + rh <=? h)) with true by (symmetry; apply andb_true_iff; rewrite !Nat.leb_le; lia).
  f_equal. unfold rectangle. rewrite !flat_map_concat_map. f_equal. apply map_ext_in. intros r Hr.
  apply in_seq in Hr. assert (Hrh : r < h) by lia. set (b := bytes_per_pixel e) in *.
  replace (_ <=? _) with true.
  2: { symmetry. apply Nat.leb_le. rewrite Hl. assert (r * w + x + rw <= h * w) by nia. nia. }
  rewrite slice_chunks. rewrite !flat_map_concat_map.
  replace (seq x rw) with (map (fun i => x + i) (seq 0 rw)).
  2: { symmetry. apply seq_from. }
  rewrite map_map. f_equal. apply map_ext_in. intros i Hi. apply in_seq in Hi.
  specialize (S (x + i) r). rewrite (pixel_slice _ _ _ _ _ _ W) in S.
  replace ((x + i <? w) && (r <? h)) with true in S by (symmetry; apply andb_true_iff; rewrite !Nat.ltb_lt; lia).
  fold b in S. injection S as <-. f_equal. nia.
Qed.

(** * Depth images *)

Open Scope Q_scope.

Lemma floor_bounds : forall q, inject_Z (Qfloor q) <= q /\ q < inject_Z (Qfloor q) + 1.
Proof.
  intro q. split; [apply Qfloor_le|]. pose proof (Qlt_floor q) as H. rewrite inject_Z_plus in H. exact H.
Qed.

Lemma round_even_err : forall q, inject_Z (round_even q) - q <= 1 # 2 /\ q - inject_Z (round_even q) <= 1 # 2.
Proof.
  intro q. destruct (floor_bounds q) as [A B]. unfold round_even.
  destruct (Qcompare_spec (q - inject_Z (Qfloor q)) (1 # 2)) as [E|E|E]; [destruct (Z.even _)|..];
    rewrite ?inject_Z_plus; change (inject_Z 1) with 1; split; lra.
Qed.

Lemma pow2_pos : forall s, 0 < Qpower 2 s.
Proof. intro. apply Qpower_0_lt. reflexivity. Qed.

Lemma log2_bounds : forall p, Qpower 2 (Z.log2 (Zpos p)) <= inject_Z (Zpos p) /\ inject_Z (Zpos p) < Qpower 2 (Z.log2 (Zpos p) + 1).
Proof.
  intro p. pose proof (Z.log2_spec (Zpos p) eq_refl) as [A B]. pose proof (Z.log2_nonneg (Zpos p)) as N.
  change 2 with (inject_Z 2). rewrite <- !Zpower_Qpower by lia. split; [rewrite <- Zle_Qle|rewrite <- Zlt_Qlt]; auto.
Qed.

(** Scaled, a positive number has 24 bits before the point. *)
Lemma scaled_big : forall q, 0 < q ->
  let k := (Z.log2 (Qnum q) - Z.log2 (Zpos (Qden q)))%Z in
  Qpower 2 23 <= q * Qpower 2 (24 - k).
Proof.
  intros q H k. destruct q as [n d]. unfold Qlt in H. cbn in H. destruct n as [|n|n]; [lia| |lia].
  cbn [Qnum Qden] in k. destruct (log2_bounds n) as [A _], (log2_bounds d) as [_ B].
  assert (E : (Zpos n # d) * inject_Z (Zpos d) == inject_Z (Zpos n)).
  { unfold Qeq. cbn. lia. }
  set (a := Z.log2 (Zpos n)) in *. set (b := Z.log2 (Zpos d)) in *.
  assert (X : Qpower 2 a <= (Zpos n # d) * Qpower 2 (b + 1)).
  { rewrite <- E in A. eapply Qle_trans; [exact A|]. rewrite !(Qmult_comm (Zpos n # d)).
    apply Qmult_le_compat_r; [apply Qlt_le_weak, B|]. unfold Qle. cbn. lia. }
  assert (M : Qpower 2 a * Qpower 2 (23 - a) <= (Zpos n # d) * Qpower 2 (b + 1) * Qpower 2 (23 - a)).
  { apply Qmult_le_compat_r; auto. apply Qlt_le_weak, pow2_pos. }
  rewrite <- Qmult_assoc, <- !Qpower_plus in M by discriminate.
  replace (a + (23 - a))%Z with 23%Z in M by lia. replace (b + 1 + (23 - a))%Z with (24 - k)%Z in M by (unfold k; lia).
  exact M.
Qed.

Lemma f32_err : forall q, 0 <= q -> q * (16777215 # 16777216) <= f32 q <= q * (16777217 # 16777216).
Proof.
  intros q H. unfold f32. destruct (Qlt_le_dec 0 q) as [P|P].
  2: { assert (Z : q == 0) by lra. rewrite Z. split; discriminate. }
  pose proof (scaled_big q P) as B. cbn zeta in B. set (k := (Z.log2 (Qnum q) - Z.log2 (Zpos (Qden q)))%Z) in *.
  set (s := if Qlt_le_dec (q * Qpower 2 (24 - k)) (Qpower 2 24) then (24 - k)%Z else (23 - k)%Z).
  assert (S : Qpower 2 23 <= q * Qpower 2 s).
  { unfold s. destruct (Qlt_le_dec _ _) as [L|L]; auto.
    replace (24 - k)%Z with (1 + (23 - k))%Z in L by lia. rewrite Qpower_plus in L by discriminate.
    change (Qpower 2 1) with 2 in L. change (Qpower 2 24) with 16777216 in L. change (Qpower 2 23) with 8388608. lra. }
  cbv zeta. rewrite Qred_correct. clearbody s. change (Qpower 2 23) with 8388608 in S.
  destruct (round_even_err (q * Qpower 2 s)) as [E1 E2].
  set (r := inject_Z (round_even (q * Qpower 2 s))) in *. clearbody r.
  assert (I : Qpower 2 s * Qpower 2 (- s) == 1).
  { rewrite <- Qpower_plus by discriminate. replace (s + - s)%Z with 0%Z by lia. reflexivity. }
  pose proof (pow2_pos (- s)) as PI. set (z := q * Qpower 2 s) in *.
  assert (Q : q == z * Qpower 2 (- s)). { unfold z. rewrite <- Qmult_assoc, I. lra. }
  rewrite Q. clearbody z. set (i := Qpower 2 (- s)) in *. clearbody i.
  rewrite <- !(Qmult_comm i), <- !Qmult_assoc. 
  split; apply Qmult_le_l; auto; lra.
Qed.

Lemma f32_pos : forall q, 0 <= q -> 0 <= f32 q.
Proof. intros q H. destruct (f32_err q H) as [A _]. lra. Qed.

Lemma f32_neg : forall q, q <= 0 -> f32 q = q.
Proof. intros q H. unfold f32. destruct (Qlt_le_dec 0 q); auto. lra. Qed.

Lemma raw_bounds : forall s raw, 0 < s ->
  let r := inject_Z (Z.of_N raw) in
  0 <= r /\ r * s * (16777214 # 16777216) <= metres s raw * 1000 <= r * s * (16777219 # 16777216).
Proof.
  intros s raw H r. assert (R : 0 <= r). { unfold r. change 0 with (inject_Z 0). rewrite <- Zle_Qle. lia. }
  split; auto. assert (RS : 0 <= r * s) by (apply Qmult_le_0_compat; lra).
  unfold metres. fold r. destruct (f32_err _ RS) as [A B]. set (y := f32 (r * s)) in *.
  assert (Y : 0 <= y) by lra. assert (Y' : y / 1000 == y * (1 # 1000)) by reflexivity.
  destruct (f32_err (y / 1000)) as [C D]; [rewrite Y'; lra|]. rewrite Y' in C at 1. rewrite Y' in D at 2.
  set (d := f32 (y / 1000)) in *. clearbody d. clearbody y. split; lra.
Qed.

Lemma mm_bounds : forall s v, 0 < s -> 0 <= v ->
  let mm := f32 (f32 (v * 1000) / s) in
  0 <= mm /\ v * 1000 * (16777214 # 16777216) <= mm * s <= v * 1000 * (16777219 # 16777216).
Proof.
  intros s v H V mm. destruct (f32_err (v * 1000)) as [A B]; [lra|]. set (x := f32 (v * 1000)) in *.
  assert (X : 0 <= x) by lra.
  assert (XS : 0 <= x / s) by (apply Qle_shift_div_l; lra).
  destruct (f32_err _ XS) as [C D]. fold mm in C, D. split; [lra|].
  assert (E : x / s * s == x) by (field; lra).
  assert (C' : x * (16777215 # 16777216) <= mm * s).
  { rewrite <- E. setoid_replace (x / s * s * (16777215 # 16777216)) with (x / s * (16777215 # 16777216) * s) by ring.
    apply Qmult_le_compat_r; lra. }
  assert (D' : mm * s <= x * (16777217 # 16777216)).
  { rewrite <- E. setoid_replace (x / s * s * (16777217 # 16777216)) with (x / s * (16777217 # 16777216) * s) by ring.
    apply Qmult_le_compat_r; lra. }
  clearbody mm. clearbody x. split; lra.
Qed.

(** What is read back after a store. *)
Lemma stored : forall s v, 0 < s -> 0 <= v -> within_a_unit s v (metres s (Z.to_N (Qfloor (f32 (f32 (v * 1000) / s))))).
Proof.
  intros s v H V. destruct (mm_bounds s v H V) as (M0 & M1 & M2). set (mm := f32 (f32 (v * 1000) / s)) in *.
  destruct (raw_bounds s (Z.to_N (Qfloor mm)) H) as (R0 & R1 & R2).
  destruct (floor_bounds mm) as [F1 F2].
  assert (FZ : (0 <= Qfloor mm)%Z). { change 0%Z with (Qfloor 0). apply Qfloor_resp_le. auto. }
  rewrite Z2N.id in * by auto. set (r := inject_Z (Qfloor mm)) in *.
  assert (G1 : r * s <= mm * s) by (apply Qmult_le_compat_r; lra).
  assert (G2 : mm * s < (r + 1) * s) by (apply Qmult_lt_compat_r; auto).
  assert (G3 : (r + 1) * s == r * s + s) by ring. rewrite G3 in G2.
  assert (RS : 0 <= r * s) by (apply Qmult_le_0_compat; lra).
  set (d := metres s (Z.to_N (Qfloor mm))) in *. clearbody d. clear G3.
  set (a := mm * s) in *. set (b := r * s) in *. clearbody a b. unfold within_a_unit. split; lra.
Qed.

Lemma get_depth_nth : forall m x y, sound_depth m ->
  get_depth m x y = if ((x <? d_w m) && (y <? d_h m))%nat
    then option_map (metres (d_scale m)) (nth_error (d_px m) (y * d_w m + x)%nat) else None.
Proof.
  intros m x y _. unfold get_depth. rewrite (Nat.leb_antisym x), (Nat.leb_antisym y), <- negb_andb.
  destruct (_ && _)%bool; reflexivity.
Qed.

Lemma set_get_depth : forall m x y v m', sound_depth m -> (x < d_w m)%nat -> (y < d_h m)%nat ->
  set_depth m x y v = Some m' ->
  0 <= v /\ sound_depth m' /\ d_w m' = d_w m /\ d_h m' = d_h m /\ d_scale m' = d_scale m
  /\ (exists d, get_depth m' x y = Some d /\ within_a_unit (d_scale m) v d)
  /\ (forall x' y', (x', y') <> (x, y) -> get_depth m' x' y' = get_depth m x' y').
Proof.
  intros m x y v m' G X Y E. pose proof G as (L & P & F). unfold set_depth in E.
  replace ((d_w m <=? x) || (d_h m <=? y))%nat%bool with false in E
    by (symmetry; apply orb_false_iff; rewrite !Nat.leb_gt; auto).
  cbv zeta in E. set (mm := f32 (f32 (v * 1000) / d_scale m)) in *.
  destruct (Qlt_le_dec mm 0) as [|M0]; [discriminate|]. destruct (Qlt_le_dec 65535 mm) as [|M1]; [discriminate|].
  assert (I : (y * d_w m + x < length (d_px m))%nat) by (rewrite L; nia).
  rewrite (proj2 (Nat.ltb_lt _ _) I) in E. apply some_eq_q in E.
  assert (V : 0 <= v).
  { destruct (Qlt_le_dec v 0) as [Vn|]; auto. exfalso. assert (v * 1000 <= 0) as V1 by lra.
    unfold mm in M0. rewrite (f32_neg _ V1) in M0.
    assert (D : v * 1000 / d_scale m < 0). { apply Qlt_shift_div_r; lra. }
    rewrite f32_neg in M0 by lra. lra. }
  assert (G' : sound_depth m').
  { subst m'. unfold sound_depth. cbn [d_px d_h d_w d_scale]. rewrite store_length. split; [auto|]. split; [auto|].
    apply store_Forall; auto. destruct (floor_bounds mm) as [F1 _].
    assert (inject_Z (Qfloor mm) <= inject_Z 65535) as B by (eapply Qle_trans; [exact F1|exact M1]).
    rewrite <- Zle_Qle in B. lia. }
  split; [auto|]. split; [auto|]. split; [subst m'; reflexivity|]. split; [subst m'; reflexivity|].
  split; [subst m'; reflexivity|]. split.
  - exists (metres (d_scale m) (Z.to_N (Qfloor mm))). split.
    + rewrite (get_depth_nth m' x y G'). subst m'. cbn [d_px d_h d_w d_scale].
      rewrite (proj2 (Nat.ltb_lt _ _) X), (proj2 (Nat.ltb_lt _ _) Y). cbn [andb].
      rewrite store_nth, Nat.eqb_refl, (proj2 (Nat.ltb_lt _ _) I). reflexivity.
    + apply stored; auto.
  - intros x' y' D. rewrite (get_depth_nth m' x' y' G'), (get_depth_nth m x' y' G). subst m'.
    cbn [d_px d_h d_w d_scale]. destruct ((x' <? d_w m) && (y' <? d_h m))%nat%bool eqn:R; auto.
    apply andb_true_iff in R as [R1 R2]. apply Nat.ltb_lt in R1, R2. rewrite store_nth.
    destruct (Nat.eqb_spec (y' * d_w m + x') (y * d_w m + x)) as [E|]; auto. exfalso. apply D.
    assert (y' = y) by (destruct (lt_eq_lt_dec y' y) as [[?|?]|?]; auto; nia). subst. f_equal. lia.
Qed.

Lemma set_depth_refused : forall m x y v, (x < d_w m)%nat -> (y < d_h m)%nat -> 0 < d_scale m ->
  (v < 0 -> set_depth m x y v = None)
  /\ (0 <= v -> v * 1000 <= 65535 * d_scale m * (16777210 # 16777216) -> set_depth m x y v <> None)
  /\ (65535 * d_scale m * (16777222 # 16777216) < v * 1000 -> set_depth m x y v = None).
Proof.
  intros m x y v X Y P. unfold set_depth.
  replace ((d_w m <=? x) || (d_h m <=? y))%nat%bool with false
    by (symmetry; apply orb_false_iff; rewrite !Nat.leb_gt; auto).
  cbv zeta. split; [|split].
  - intro V. destruct (Qlt_le_dec _ 0) as [|M0]; auto. exfalso. assert (v * 1000 <= 0) as V1 by lra.
    rewrite (f32_neg _ V1) in M0.
    assert (D : v * 1000 / d_scale m < 0). { apply Qlt_shift_div_r; lra. }
    rewrite f32_neg in M0 by lra. lra.
  - intros V H. destruct (mm_bounds _ v P V) as (M0 & M1 & M2). set (mm := f32 _) in *.
    destruct (Qlt_le_dec mm 0); [lra|]. destruct (Qlt_le_dec 65535 mm) as [B|]; [|destruct (_ <? _)%nat; discriminate].
    exfalso. assert (65535 * d_scale m < mm * d_scale m) by (apply Qmult_lt_compat_r; auto).
    assert (0 < 65535 * d_scale m) by lra. lra.
  - intro H. assert (V : 0 <= v) by lra.
    destruct (mm_bounds _ v P V) as (M0 & M1 & M2). set (mm := f32 _) in *.
    destruct (Qlt_le_dec mm 0); [auto|]. destruct (Qlt_le_dec 65535 mm) as [B|B]; [auto|]. exfalso.
    assert (mm * d_scale m <= 65535 * d_scale m) by (apply Qmult_le_compat_r; lra). lra.
Qed.

(** ** Statistics *)

Definition stat_ok (l : list Q) (a : stats) : Prop :=
  match a with
  | None => l = []
  | Some (mn, mx, s, n) => In mn l /\ In mx l /\ Forall (fun d => mn <= d /\ d <= mx) l
                           /\ s == qsum l /\ n = length l /\ (1 <= n)%nat
  end.

Lemma qsum_app : forall l d, qsum (l ++ [d]) == qsum l + d.
Proof. induction l as [|a l IH]; intro d; unfold qsum in *; cbn [fold_right app]; [ring|]. rewrite IH. ring. Qed.

Lemma stat_step_ok : forall l a d, stat_ok l a -> stat_ok (if Qlt_le_dec 0 d then l ++ [d] else l) (stat_step a d).
Proof.
  intros l a d H. unfold stat_step. destruct (Qlt_le_dec 0 d) as [P|P]; auto.
  destruct a as [[[[mn mx] s] n]|]; cbn [stat_ok] in *.
  - destruct H as (H1 & H2 & H3 & H4 & H5 & H6).
    assert (I : In d (l ++ [d])) by (apply in_or_app; right; left; auto).
    split; [destruct (Qlt_le_dec d mn); auto; apply in_or_app; auto|].
    split; [destruct (Qlt_le_dec mx d); auto; apply in_or_app; auto|].
    split.
    { apply Forall_app. split.
      - eapply Forall_impl; [|exact H3]. cbv beta. intros z [Z1 Z2].
        destruct (Qlt_le_dec d mn), (Qlt_le_dec mx d); split; lra.
      - constructor; [|constructor]. destruct (Qlt_le_dec d mn), (Qlt_le_dec mx d); split; lra. }
    split; [rewrite qsum_app, H4; reflexivity|]. rewrite app_length. cbn [length]. lia.
  - subst l. cbn [app]. split; [left; auto|]. split; [left; auto|]. split; [constructor; [split; lra|constructor]|].
    split; [unfold qsum; cbn [fold_right]; ring|]. cbn. lia.
Qed.

Lemma stat_fold : forall l pre a, stat_ok pre a -> stat_ok (pre ++ positive l) (fold_left stat_step l a).
Proof.
  induction l as [|d l IH]; intros pre a H; cbn [fold_left positive filter].
  - rewrite app_nil_r. exact H.
  - specialize (IH _ _ (stat_step_ok pre a d H)). fold (positive l). destruct (Qlt_le_dec 0 d); auto.
    rewrite <- app_assoc in IH. exact IH.
Qed.

Lemma sum_between : forall l mn mx, Forall (fun d => mn <= d /\ d <= mx) l ->
  mn * inject_Z (Z.of_nat (length l)) <= qsum l /\ qsum l <= mx * inject_Z (Z.of_nat (length l)).
Proof.
  induction l as [|a l IH]; intros mn mx H; [change (inject_Z (Z.of_nat (length (@nil Q)))) with 0; change (qsum []) with 0; split; lra|]. inversion H as [|? ? [A B] F]; subst.
  destruct (IH _ _ F) as [C D]. cbn [length]. rewrite Nat2Z.inj_succ. unfold Z.succ. rewrite inject_Z_plus.
  change (qsum (a :: l)) with (a + qsum l). change (inject_Z 1) with 1.
  set (k := inject_Z (Z.of_nat (length l))) in *.
  assert (mn * (k + 1) == mn * k + mn) as -> by ring. assert (mx * (k + 1) == mx * k + mx) as -> by ring.
  set (u := mn * k) in *. set (w := mx * k) in *. split; lra.
Qed.

Lemma statistics_none : forall l, depth_statistics l = None <-> positive l = [].
Proof.
  intro l. pose proof (stat_fold l [] None eq_refl) as H. cbn [app] in H. unfold depth_statistics.
  destruct (fold_left stat_step l None) as [[[[mn mx] s] n]|]; cbn [stat_ok] in H.
  - split; [discriminate|]. intro E. rewrite E in H. destruct H as [[] _].
  - tauto.
Qed.

Lemma statistics_some : forall l mn mx mean, depth_statistics l = Some (mn, mx, mean) ->
  In mn (positive l) /\ In mx (positive l) /\ Forall (fun d => mn <= d /\ d <= mx) (positive l)
  /\ mean * inject_Z (Z.of_nat (length (positive l))) == qsum (positive l) /\ mn <= mean /\ mean <= mx.
Proof.
  intros l mn mx mean E. pose proof (stat_fold l [] None eq_refl) as H. cbn [app] in H. unfold depth_statistics in E.
  destruct (fold_left stat_step l None) as [[[[mn' mx'] s] n]|]; cbn [stat_ok] in H; [|discriminate].
  apply some_eq_q in E. assert (mn' = mn /\ mx' = mx /\ s / inject_Z (Z.of_nat n) = mean) as (-> & -> & M).
  { inversion E. auto. }
  destruct H as (H1 & H2 & H3 & H4 & H5 & H6). subst n.
  assert (K : 0 < inject_Z (Z.of_nat (length (positive l)))).
  { change 0 with (inject_Z 0). rewrite <- Zlt_Qlt. lia. }
  destruct (sum_between _ _ _ H3) as [S1 S2]. set (k := inject_Z (Z.of_nat (length (positive l)))) in *.
  split; [auto|]. split; [auto|]. split; [auto|]. subst mean. split; [|split].
  - rewrite H4. field. lra.
  - apply Qle_shift_div_l; auto. rewrite H4. exact S1.
  - apply Qle_shift_div_r; auto. rewrite H4. exact S2.
Qed.

(** * Point clouds *)

Open Scope nat_scope.

Lemma nth_concat {A} : forall k (pts : list (list A)) i j, Forall (fun p => length p = k) pts -> j < k ->
  nth_error (concat pts) (i * k + j) = match nth_error pts i with Some p => nth_error p j | None => None end.
Proof.
  intros k pts. induction pts as [|p pts IH]; intros i j F J; cbn [concat].
  - destruct (i * k + j), i; reflexivity.
  - inversion F; subst. destruct i as [|i].
    + cbn [Nat.mul Nat.add nth_error]. apply nth_error_app1. auto.
    + rewrite nth_error_app2 by nia. cbn [nth_error]. rewrite <- IH by auto. f_equal. nia.
Qed.

Lemma concat_length {A} : forall k (pts : list (list A)), Forall (fun p => length p = k) pts ->
  length (concat pts) = length pts * k.
Proof. induction 1; cbn; auto. rewrite app_length. lia. Qed.

Lemma skipn_concat {A} : forall k (pts : list (list A)) i, Forall (fun p => length p = k) pts ->
  skipn (i * k) (concat pts) = concat (skipn i pts).
Proof.
  intros k pts i F. revert i. induction F as [|p pts E F IH]; intro i.
  - cbn. destruct i; cbn; rewrite ?skipn_nil; reflexivity.
  - destruct i as [|i]; [reflexivity|]. cbn [concat skipn Nat.mul]. rewrite skipn_app, skipn_all2 by lia. cbn [app].
    rewrite E. replace (k + i * k - k) with (i * k) by lia. apply IH.
Qed.

Lemma point_at_from {A} : forall k (pts : list (list A)) i, Forall (fun p => length p = k) pts ->
  point_at (from_points k pts) i = nth_error pts i.
Proof.
  intros k pts i F. unfold point_at, from_points. cbn [pc_count pc_fpp pc_data].
  destruct (length pts <=? i) eqn:E; bool_prop; [symmetry; apply nth_error_None; auto|].
  rewrite (concat_length k) by auto. replace (_ <=? _) with true by (symmetry; apply Nat.leb_le; nia).
  rewrite skipn_concat by auto. destruct (nth_error pts i) as [p|] eqn:N; [|apply nth_error_None in N; lia].
  f_equal. apply nth_error_split in N as (a & b & -> & La). rewrite <- La. rewrite skipn_app, skipn_all2, Nat.sub_diag by lia.
  cbn [skipn app concat]. apply Forall_app in F as [_ F]. inversion F as [|? ? E' _]; subst.
  rewrite firstn_app, Nat.sub_diag, firstn_all. cbn [firstn]. apply app_nil_r.
Qed.

Lemma extract_from {A} : forall k (pts : list (list A)), 3 <= k -> Forall (fun p => length p = k) pts ->
  exists xyz, extract_xyz (from_points k pts) = Some xyz /\ length xyz = length pts
    /\ forall i p x y z r, nth_error pts i = Some p -> p = x :: y :: z :: r -> nth_error xyz i = Some (Some (x, y, z)).
Proof.
  intros k pts K F. unfold extract_xyz, from_points. cbn [pc_count pc_fpp pc_data].
  replace (k <? 3) with false by (symmetry; apply Nat.ltb_ge; lia).
  rewrite (concat_length k) by auto. rewrite Nat.ltb_irrefl.
  eexists. split; [reflexivity|]. split; [rewrite map_length, seq_length; reflexivity|].
  intros i p x y z r N ->. assert (L : i < length pts) by (apply nth_error_Some; congruence).
  rewrite nth_error_map. replace (nth_error (seq 0 (length pts)) i) with (Some i).
  2: { symmetry. rewrite nth_error_nth' with (d := 0) by (rewrite seq_length; auto). rewrite seq_nth by auto. reflexivity. }
  cbn [option_map]. pose proof (nth_concat k pts i) as C.
  rewrite <- (Nat.add_0_r (i * k)) at 1. rewrite !C, N by (auto; lia). reflexivity.
Qed.
