(** What each transfer routine tolerates, and what the participant counters mean. *)
From Verif.Base Require Import Prelude.
From Verif.Model Require Import Topology.
Local Open Scope N_scope.

(** More than one publisher may run the routine at once: the multi-producer ring (C01), the broadcast ring
    (C03, C04) and the fan-out matrix (C07) are built for it; the single-producer ring is not. *)
Definition tolerates_publishers (s : send_routine) (n : N) : Prop :=
  match s with SendUninit => False | SendSp _ => n <= 1 | SendMp _ | SendBroadcast | SendFanout => True end.
(** More than one subscriber may run the routine at once. *)
Definition tolerates_subscribers (r : recv_routine) (n : N) : Prop :=
  match r with RecvUninit => False | RecvMpsc _ => n <= 1 | RecvSpmc _ | RecvBroadcast | RecvFanout => True end.
(** Every subscriber receives every message, not a share of them. *)
Definition delivers_to_all (r : recv_routine) (n : N) : Prop :=
  match r with RecvUninit => False | RecvMpsc _ | RecvSpmc _ => n <= 1 | RecvBroadcast | RecvFanout => True end.
(** The two routines speak the same protocol on the same memory. *)
Definition same_protocol (s : send_routine) (r : recv_routine) : Prop :=
  match s, r with
  | SendMp a, RecvMpsc b => a = b
  | SendSp a, RecvSpmc b => a = b
  | SendBroadcast, RecvBroadcast => True
  | SendFanout, RecvFanout => True
  | _, _ => False
  end.
(** A raw-copy routine is used for plain-data messages only. *)
Definition fits_kind (s : send_routine) (is_pod : bool) : Prop :=
  match s with SendMp a | SendSp a => a = is_pod | SendBroadcast => is_pod = true | SendFanout => True | SendUninit => False end.

(** Number of occupied slots with a role. *)
Definition holders (bit : N) (ps : list part) : N :=
  N.of_nat (length (filter (fun p => p_active p && has_bit (p_role p) bit) ps)).
(** Threads that occupy a slot. *)
Definition occupants (ps : list part) : list (N * N) :=
  map (fun p => (p_pid p, p_tid p)) (filter p_active ps).

(** In the history [h], the thread ([pid], [tid]) keeps the slot [i] whose lease was last renewed at [last] alive: it
    renews before anybody else tries to register later than five seconds after its last renewal. *)
Fixpoint kept (pid tid : N) (i : nat) (last : N) (h : list pop) : Prop :=
  match h with
  | [] => True
  | OReg p t _ now :: r =>
      (p = pid /\ t = tid /\ kept pid tid i now r) \/ ((p, t) <> (pid, tid) /\ now <= last + 5000 /\ kept pid tid i last r)
  | ORefresh j now :: r => (j = i /\ kept pid tid i now r) \/ (j <> i /\ kept pid tid i last r)
  end.
