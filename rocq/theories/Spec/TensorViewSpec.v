(** Which bytes an element of a tensor is. *)
From Verif.Base Require Import Prelude.
From Verif.Model Require Import TensorView.
Open Scope N_scope.

(** An index inside a shape. *)
Definition inside (shape idx : list N) : Prop := Forall2 (fun i d => i < d) idx shape.

(** The first byte of the element at an index: the offset plus each index times its
    stride. *)
Fixpoint dot (idx strides : list N) : N :=
  match idx, strides with
  | i :: r, s :: q => i * s + dot r q
  | _, _ => 0
  end.
Definition address (t : tensor) (idx : list N) : N := t_off t + dot idx (t_strides t).

(** The number of elements of a shape, and the number of an element in row order. *)
Fixpoint volume (shape : list N) : N := match shape with [] => 1 | d :: r => d * volume r end.
Fixpoint rank (shape idx : list N) : N :=
  match shape, idx with
  | d :: r, i :: q => i * volume r + rank r q
  | _, _ => 0
  end.

(** A tensor whose elements lie in row order without gaps. *)
Definition dense (t : tensor) : Prop :=
  t_size t = volume (t_shape t) * t_elem t
  /\ forall idx, inside (t_shape t) idx -> address t idx = t_off t + rank (t_shape t) idx * t_elem t.

(** What a pool hands out: a tensor of up to eight dimensions, none empty, whose
    bytes fit in the address space. *)
Definition allocated (t : tensor) (shape : list N) : Prop :=
  tensor_new (t_off t) shape (t_elem t) = Some t /\ (length shape <= 8)%nat
  /\ Forall (fun d => 0 < d) shape /\ 0 < t_elem t
  /\ t_off t + t_size t < 18446744073709551616.

(** A chain of views and slices; [None] once one was refused. *)
Inductive view_op := OView (shape : list N) | OSlice (start stop : N).
Definition apply_view (t : option tensor) (o : view_op) : option tensor :=
  match t with
  | None => None
  | Some t =>
      match o with
      | OView s => match view t s with VSome t' => Some t' | _ => None end
      | OSlice a b => slice_first_dim t a b
      end
  end.
(** The shapes asked for have at most eight dimensions, none empty. *)
Definition modest (o : view_op) : Prop :=
  match o with OView s => (length s <= 8)%nat /\ Forall (fun d => 0 < d) s | OSlice _ _ => True end.
