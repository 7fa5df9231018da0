(** What callers may observe of a work-sharing topic. *)
From Verif.Base Require Import Prelude.
From Verif.Model Require Import RingMem Spmc.
Local Open Scope N_scope.

(** Messages whose send returned Ok; messages any subscriber received, or subscriber [c] received. *)
Fixpoint s_sent (tr : list sevent) : list msg :=
  match tr with [] => [] | SOk m :: r => m :: s_sent r | _ :: r => s_sent r end.
Fixpoint s_received (tr : list sevent) : list msg :=
  match tr with [] => [] | SRecv _ m :: r => m :: s_received r | _ :: r => s_received r end.
Fixpoint s_received_by (c : nat) (tr : list sevent) : list msg :=
  match tr with
  | [] => []
  | SRecv d m :: r => if Nat.eqb d c then m :: s_received_by c r else s_received_by c r
  | _ :: r => s_received_by c r
  end.

(** [r] is [l] with some entries left out. *)
Inductive subseq {A} : list A -> list A -> Prop :=
| ss_nil l : subseq [] l
| ss_take a r l : subseq r l -> subseq (a :: r) (a :: l)
| ss_skip a r l : subseq r l -> subseq r (a :: l).

(** Between two states of a send: the publisher has begun to write and not yet stored the new head. *)
Definition is_writing (pc : spc) : bool :=
  match pc with SWrite _ _ | SReady _ | SHead _ => true | _ => false end.

(** At every moment, no subscriber is still copying out a slot that the publisher is already refilling. *)
Definition not_overtaken (k : N) (W : nat) (sched : list saction) : Prop :=
  forall pre post, sched = pre ++ post ->
  let s := s_final k W pre in
  forall c t acc, c_pc (x_con s c) = CRead t acc ->
    N.of_nat (length (s_sent (s_trace k W pre))) + (if is_writing (s_pc (x_pub s)) then 1 else 0) <= t + cap k.
