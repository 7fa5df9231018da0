(** Vocabulary for a node and its watchdog. *)
From Verif Require Import Base.Prelude Model.Safety Model.ExecLoop Model.Suppress.
Local Open Scope N_scope.

(** A node that runs: initialized, not stopped, not told to skip. *)
Definition active (n : Gate.node) : Prop := Gate.init n = true /\ Gate.stopped n = false /\ Gate.skip n = false.
(** Nothing in this cycle keeps the node from its tick: no pause, no back-off, and it is due. *)
Definition free (c : cycle) : Prop :=
  Gate.op_paused (c_env c) = false /\ Gate.policy (c_env c) = true /\ Gate.due (c_env c) = true.
(** The node is fit for ticks. *)
Definition fit (n : Gate.node) : Prop := Gate.hp n = Gate.Healthy \/ Gate.hp n = Gate.Warning.
(** How many of these cycles ticked the node. *)
Definition ticks (l : list bool) : nat := length (filter (fun b => b) l).
