(** Tensor descriptors and their views: horus_core/src/types/tensor.rs lines 130-347.
    Pool, slot, generation and device travel unchanged and are left out; the arrays
    of shape and strides are their first [ndim] elements. *)
From Verif.Base Require Import Prelude.
Open Scope N_scope.

Definition MAX_TENSOR_DIMS : nat := 8. (* tensor.rs:24 *)
Definition U64 : N := 18446744073709551616. (* 2^64, for overflow *)

(** [Tensor], tensor.rs:40-83. *)
Record tensor := Tensor { t_off : N; t_size : N; t_elem : N; t_shape : list N; t_strides : list N }.

(** [iter().product()] of [u64]s: wrapping, as in a release build. *)
Definition product (l : list N) : N := fold_left (fun a d => (a * d) mod U64) l 1.

(** [try_fold(1, checked_mul)], tensor.rs:142-146. *)
Fixpoint checked_product (a : N) (l : list N) : option N :=
  match l with
  | [] => Some a
  | d :: r => if a * d <? U64 then checked_product (a * d) r else None
  end.

(** Row-major strides, tensor.rs:151-158: the last is the element size, each one
    before it the next times the next dimension (wrapping). *)
Fixpoint row_major (elem : N) (shape : list N) : list N :=
  match shape with
  | [] => []
  | _ :: r =>
      match row_major elem r, r with
      | s :: ss, d :: _ => (s * d) mod U64 :: s :: ss
      | _, _ => [elem]
      end
  end.

(** [Tensor::new], tensor.rs:130-181; [None] is a panic. *)
Definition tensor_new (off : N) (shape : list N) (elem : N) : option tensor :=
  match checked_product 1 shape with
  | None => None
  | Some n =>
      if n * elem <? U64 then
        let kept := firstn MAX_TENSOR_DIMS shape in
        Some (Tensor off (n * elem) elem kept (row_major elem kept))
      else None
  end.

(** The loop of [addressed_extent_bytes], tensor.rs:225-230. *)
Fixpoint extent_loop (acc : N) (dims : list (N * N)) : option N :=
  match dims with
  | [] => Some acc
  | (d, s) :: r =>
      if d =? 0 then Some 0
      else if (d - 1) * s <? U64 then
        if acc + (d - 1) * s <? U64 then extent_loop (acc + (d - 1) * s) r else None
      else None
  end.
(** [addressed_extent_bytes], tensor.rs:222-232. *)
Definition addressed_extent (t : tensor) : option N := extent_loop (t_elem t) (combine (t_shape t) (t_strides t)).

(** [descriptor_is_within_allocation], tensor.rs:260-265. *)
Definition within_allocation (t : tensor) : bool :=
  match addressed_extent t with Some e => e <=? t_size t | None => false end.

(** The loop of [is_contiguous], tensor.rs:279-285, over dimensions last first. *)
Fixpoint contiguous_loop (expected : N) (dims : list (N * N)) : bool :=
  match dims with
  | [] => true
  | (d, s) :: r => if s =? expected then contiguous_loop ((expected * d) mod U64) r else false
  end.
(** [is_contiguous], tensor.rs:274-287. *)
Definition is_contiguous (t : tensor) : bool :=
  contiguous_loop (t_elem t) (rev (combine (t_shape t) (t_strides t))).

(** What [view] comes to. *)
Inductive viewed := VSome (t : tensor) | VNone | VPanic.
(** [view], tensor.rs:310-330. *)
Definition view (t : tensor) (shape : list N) : viewed :=
  if negb (product (t_shape t) =? product shape) then VNone
  else if negb (is_contiguous t) then VNone
  else match tensor_new (t_off t) shape (t_elem t) with Some t' => VSome t' | None => VPanic end.

(** [slice_first_dim], tensor.rs:333-347. *)
Definition slice_first_dim (t : tensor) (start stop : N) : option tensor :=
  match t_shape t, t_strides t with
  | d :: r, s :: _ =>
      if (stop <=? start) || (d <? stop) then None
      else
        let shape := (stop - start) :: r in
        Some (Tensor ((t_off t + start * s) mod U64) ((product shape * t_elem t) mod U64) (t_elem t)
                shape (t_strides t))
  | _, _ => None
  end.
