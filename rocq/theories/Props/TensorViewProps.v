(** C106: views of tensors. *)
From Verif.Base Require Import Prelude.
From Verif.Model Require Import TensorView.
From Verif.Spec Require Import TensorViewSpec.
From Verif.Proofs Require Import TensorViewProofs.
Open Scope N_scope.

(** A tensor of the pool has its elements in row order without gaps and inside its
    bytes, and passes the check a reader makes. *)
Theorem C106_allocated : forall t shape, allocated t shape ->
  dense t /\ t_shape t = shape /\ within_allocation t = true /\ is_contiguous t = true.
Proof.
  intros t sh A. destruct (alloc_dense _ _ A) as (D & S & _). split; [exact D|]. split; [exact S|].
  split; [exact (alloc_within _ _ A)|exact (alloc_contig _ _ A)].
Qed.
Print Assumptions C106_allocated.

(** A reshaped tensor has the asked shape and the same elements in the same order;
    a shape of another number of elements is refused. *)
Theorem C106_view : forall t shape new, allocated t shape -> (length new <= 8)%nat -> Forall (fun d => 0 < d) new ->
  (volume new = volume shape ->
     exists t', view t new = VSome t' /\ allocated t' new /\ t_off t' = t_off t /\ t_size t' = t_size t
       /\ forall i j, inside shape i -> inside new j -> rank shape i = rank new j -> address t i = address t' j)
  /\ (volume new < 18446744073709551616 -> volume new <> volume shape -> view t new = VNone).
Proof.
  intros t sh new A L P. split.
  - intro V. destruct (view_alloc t sh new A L P V) as (t' & H & A' & O & S & E). exists t'.
    split; [auto|]. split; [auto|]. split; [auto|]. split; [auto|]. intros i j I J R.
    destruct (alloc_dense _ _ A) as ((_ & D) & S1 & _), (alloc_dense _ _ A') as ((_ & D') & S2 & _).
    rewrite D by (rewrite S1; auto). rewrite D' by (rewrite S2; auto). rewrite S1, S2, O, E, R. reflexivity.
  - intros B V. apply (view_refused t sh new A B V).
Qed.
Print Assumptions C106_view.

(** A slice of the first dimension has exactly the elements of those rows, at the
    same bytes, for any descriptor that passes the check. *)
Theorem C106_slice : forall t a b t' idx, length (t_strides t) = length (t_shape t) ->
  within_allocation t = true -> t_off t + t_size t < 18446744073709551616 -> 0 < t_elem t ->
  slice_first_dim t a b = Some t' -> inside (t_shape t') idx ->
  exists i r, idx = i :: r /\ i < b - a /\ inside (t_shape t) ((a + i) :: r)
    /\ address t' idx = address t ((a + i) :: r).
Proof. exact slice_address. Qed.
Print Assumptions C106_slice.

(** It is refused only if it is empty or leaves the dimension. *)
Theorem C106_slice_refused : forall t a b, length (t_strides t) = length (t_shape t) ->
  (slice_first_dim t a b = None <-> t_shape t = [] \/ b <= a \/ exists d r, t_shape t = d :: r /\ d < b).
Proof. exact slice_none. Qed.
Print Assumptions C106_slice_refused.

(** Any chain of views and slices stays inside the bytes of the first tensor, and the
    result is again laid out in row order. *)
Theorem C106_chain : forall ops t shape t', allocated t shape -> Forall modest ops ->
  fold_left apply_view ops (Some t) = Some t' ->
  dense t' /\ t_off t <= t_off t' /\ t_off t' + t_size t' <= t_off t + t_size t
  /\ forall idx, inside (t_shape t') idx ->
       t_off t <= address t' idx /\ address t' idx + t_elem t <= t_off t + t_size t.
Proof.
  intros ops t sh t' A F H. destruct (views_stay _ _ _ _ A F H) as ((sh' & A') & X1 & X2 & X3).
  destruct (alloc_dense _ _ A') as (D & S & L). split; [auto|]. split; [auto|]. split; [auto|].
  intros idx I. split; [unfold address; lia|].
  pose proof (within_sound t' idx ltac:(congruence) (alloc_within _ _ A') I). rewrite X3 in *. lia.
Qed.
Print Assumptions C106_chain.

(** The check of a descriptor from another process: passing it, every element lies
    inside the bytes; failing it, one does not. *)
Theorem C106_checked : forall t, length (t_strides t) = length (t_shape t) ->
  (within_allocation t = true -> forall idx, inside (t_shape t) idx -> address t idx + t_elem t <= t_off t + t_size t)
  /\ (Forall (fun d => 0 < d) (t_shape t) -> t_size t < 18446744073709551616 -> within_allocation t = false ->
      exists idx, inside (t_shape t) idx /\ t_off t + t_size t < address t idx + t_elem t).
Proof.
  intros t L. split.
  - intros W idx I. apply within_sound; auto.
  - intros P S W. apply within_complete; auto.
Qed.
Print Assumptions C106_checked.

(** Refuted: that an incompatible shape is answered with [None].  One whose number of
    elements is right only modulo 2^64 panics. *)
Theorem C106_incompatible_refuted : forall t shape new, allocated t shape ->
  18446744073709551616 <= volume new -> volume new mod 18446744073709551616 = volume shape -> view t new = VPanic.
Proof. exact view_panics. Qed.
Print Assumptions C106_incompatible_refuted.

(** Refuted: that a reshaped tensor has the asked shape.  From the ninth dimension on
    it is cut off, and with it all but a part of the elements. *)
Theorem C106_ninth_refuted : forall t shape new, allocated t shape -> Forall (fun d => 0 < d) new ->
  volume new = volume shape -> 1 < volume (skipn 8 new) ->
  exists t', view t new = VSome t' /\ t_shape t' <> new /\ volume (t_shape t') < volume shape.
Proof.
  intros t sh new A P V N. destruct (view_many t sh new A P V) as (t' & H & S & M). exists t'.
  split; [auto|]. assert (Q : 0 < volume (t_shape t')).
  { rewrite S. apply volume_pos. rewrite <- (firstn_skipn 8 new) in P. apply Forall_app in P. tauto. }
  assert (B : volume (t_shape t') < volume sh) by nia. split; auto. intro X. rewrite X, V in B. lia.
Qed.
Print Assumptions C106_ninth_refuted.

(** Refuted: that a slice of a tensor that passes the check passes it.  With padded
    rows no slice of two rows or more does, although each of its elements lies inside
    the bytes of the tensor. *)
Theorem C106_padded_refuted : forall off size elem rows cols pitch a b t',
  let t := Tensor off size elem [rows; cols] [pitch; elem] in
  within_allocation t = true -> off + size < 18446744073709551616 -> 0 < elem -> 0 < cols -> cols * elem < pitch ->
  a + 2 <= b -> slice_first_dim t a b = Some t' ->
  within_allocation t' = false
  /\ forall idx, inside (t_shape t') idx -> off <= address t' idx /\ address t' idx + elem <= off + size.
Proof.
  intros off size elem rows cols pitch a b t' t W B Pe Pc Pp Hab H. split.
  - destruct (within_allocation t') eqn:W'; auto. exfalso.
    assert (E : t_shape t' = [b - a; cols] /\ t_strides t' = [pitch; elem] /\ t_elem t' = elem
                /\ t_size t' = (product [b - a; cols] * elem) mod U64).
    { unfold slice_first_dim, t in H. cbn [t_shape t_strides t_off t_elem] in H.
      destruct (_ || _)%bool; [discriminate|]. injection H as <-. auto. }
    destruct E as (E1 & E2 & E3 & E4).
    assert (I : inside (t_shape t') [b - a - 1; cols - 1]) by (rewrite E1; repeat constructor; lia).
    pose proof (within_sound t' _ ltac:(rewrite E1, E2; reflexivity) W' I) as X. unfold address in X.
    rewrite E2, E3 in X. cbn [dot] in X.
    assert (S : t_size t' <= (b - a) * cols * elem).
    { rewrite E4, product_volume. cbn [volume]. rewrite N.mul_1_r.
      eapply N.le_trans; [apply N.mod_le; discriminate|]. apply N.mul_le_mono_r. apply N.mod_le. discriminate. }
    set (n := b - a) in *. assert (n = (n - 1) + 1) by lia. set (k := n - 1) in *. 
    assert (C : cols = cols - 1 + 1) by lia. set (c := cols - 1) in *.
    assert ((n * cols) * elem = k * (cols * elem) + cols * elem) by (rewrite H0; lia).
    assert (cols * elem = c * elem + elem) by (rewrite C at 1; lia).
    assert (k * (cols * elem + 1) <= k * pitch) by (apply N.mul_le_mono_l; lia).
    assert (1 <= k) by lia. lia.
  - intros idx I. destruct (slice_address t a b t' idx) as (i & r & -> & L & I2 & E); auto.
    split; [rewrite E; unfold address, t; cbn [t_off]; lia|]. rewrite E.
    exact (within_sound t _ eq_refl W I2).
Qed.
Print Assumptions C106_padded_refuted.

Definition C106_t : tensor := Tensor 64 96 4 [2; 3; 4] [48; 16; 4].
Example C106_ex_allocated : allocated C106_t [2; 3; 4].
Proof. split; [vm_compute; reflexivity|]. split; [cbn; lia|]. repeat split; repeat constructor. Qed.
Example C106_ex_chain :
  fold_left apply_view [OView [6; 4]; OSlice 2 5; OView [12]] (Some C106_t) = Some (Tensor 96 48 4 [12] [4]).
Proof. vm_compute. reflexivity. Qed.
Example C106_ex_incompatible : volume [4; 4611686018427387910] mod 18446744073709551616 = volume [2; 3; 4].
Proof. vm_compute. reflexivity. Qed.
Example C106_ex_ninth : volume [1;1;1;1;1;1;1;2;12] = volume [2; 3; 4] /\ 1 < volume (skipn 8 [1;1;1;1;1;1;1;2;12]).
Proof. vm_compute. auto. Qed.
Example C106_ex_padded : within_allocation (Tensor 0 60 4 [4; 3] [16; 4]) = true
  /\ exists t', slice_first_dim (Tensor 0 60 4 [4; 3] [16; 4]) 1 4 = Some t'.
Proof. split; [vm_compute; reflexivity|]. eexists. vm_compute. reflexivity. Qed.
