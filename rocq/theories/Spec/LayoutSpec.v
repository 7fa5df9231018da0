(** Memory safety of a topic's layout. *)
From Verif.Base Require Import Prelude.
From Verif.Model Require Import Layout.
Local Open Scope N_scope.

(** Two byte ranges [a, a+n) and [b, b+m) do not meet. *)
Definition disjoint (a n b m : N) : Prop := a + n <= b \/ b + m <= a.
Definition inside (a n len : N) : Prop := a + n <= len.

(** Handle [x] stays inside its mapping and inside the file whichever slot it uses. *)
Definition in_bounds (file : N) (x : mhandle) : Prop :=
  forall i, i < h_cap x ->
    inside (seq_slot_offset i) 8 (h_map x) /\ inside (data_slot_offset (h_cap x) i (h_slot x)) (h_slot x) (h_map x) /\
    h_map x <= file.

(** Histories in which the creator finishes before anyone else opens the topic. *)
Definition orderly (ops : list mop) : Prop :=
  match ops with
  | MOpen h cap slot :: MSetLen h' :: rest => h = h' /\ Forall (fun o => match o with MSetLen _ => False | _ => True end) rest
  | _ => False
  end.
Definition no_grow (ops : list mop) : Prop := Forall (fun o => match o with MGrow _ _ => False | _ => True end) ops.
