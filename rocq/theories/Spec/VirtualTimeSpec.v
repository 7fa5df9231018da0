(** Vocabulary for statements about deterministic runs; see Model/VirtualTime.v for views and turns. *)
From Verif Require Import Base.Prelude Model.DepGraph Model.FailurePolicy Model.VirtualTime.
Local Open Scope N_scope.

(** The number of times the virtual clock is moved in a run: once per step of each tick's plan. *)
Definition steps_in (p : plan) : N := match p with Some s => N.of_nat (length s) | None => 0 end.
Fixpoint total_steps (ticks : list (plan * wall)) : N :=
  match ticks with [] => 0 | (p, _) :: r => steps_in p + total_steps r end.

(** The ticks of one node in a history of views. *)
Definition of_node (i : nat) (vs : list view) : list view := filter (fun v => v_node v =? i)%nat vs.
(** The sum of what [dt()] returned to a node. *)
Definition dt_sum (i : nat) (vs : list view) : N := fold_right N.add 0 (map v_dt (of_node i vs)).

(** A node whose admission to a tick cannot depend on the wall clock: no deadline with a skip policy, and no failure
    policy that waits. *)
Definition no_waiting (n : vnode) : Prop :=
  vn_deadline n = None /\
  (vn_policy n = None \/ vn_policy n = Some PFatal \/ vn_policy n = Some PIgnore).

(** [n] ticks of [period] are the first to cover a duration [d]. *)
Definition covers (n : nat) (period d : N) : Prop :=
  d <= N.of_nat n * period /\ (n = O \/ N.of_nat (n - 1) * period < d).

(** A tick that panics in a node whose failure policy is the fatal one. *)
Definition fatal_tick (nodes : list vnode) (prog : view -> bool) (v : view) : Prop :=
  prog v = true /\ vn_policy (vnth nodes (v_node v)) = Some PFatal.
