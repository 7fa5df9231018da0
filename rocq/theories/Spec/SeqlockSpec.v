(** What callers may observe of one fan-out channel. *)
From Verif.Base Require Import Prelude.
From Verif.Model Require Import RingMem Seqlock.
From Verif.Spec Require Export BroadcastSpec.
Local Open Scope N_scope.

Fixpoint q_sent (tr : list qevent) : list msg :=
  match tr with [] => [] | QSent m :: r => m :: q_sent r | _ :: r => q_sent r end.
Fixpoint q_called (tr : list qevent) : list msg :=
  match tr with [] => [] | QCall m :: r => m :: q_called r | _ :: r => q_called r end.
Fixpoint q_received (tr : list qevent) : list msg :=
  match tr with [] => [] | QRecv m :: r => m :: q_received r | _ :: r => q_received r end.

(** Every "nothing there" answer was given with nothing unread in the channel. *)
Definition none_means_empty (k : N) (W : nat) (sched : list qaction) : Prop :=
  forall pre a suf, sched = pre ++ a :: suf ->
    In QNone (snd (q_step k W (q_final k W pre) a)) ->
    q_tail (q_final k W pre) = q_head (q_final k W pre).

(** The channel as a user thinks of it: the unread messages and a count of the lost ones.  A read
    first drops all but the newest [2^k] unread messages, counting them, then takes the oldest. *)
Record chan := Chan { ch_unread : list msg; ch_lost : N }.
Definition ch_publish (m : msg) (c : chan) : chan := Chan (ch_unread c ++ [m]) (ch_lost c).
Definition ch_consume (k : N) (c : chan) : chan * option msg :=
  let drop := (length (ch_unread c) - N.to_nat (2 ^ k))%nat in
  match skipn drop (ch_unread c) with
  | [] => (c, None)
  | m :: r => (Chan r (ch_lost c + N.of_nat drop), Some m)
  end.

Inductive qop := OPublish (m : msg) | OConsume.
Definition ch_op (k : N) (c : chan) (o : qop) : chan * list qevent :=
  match o with
  | OPublish m => (ch_publish m c, [QCall m; QSent m])
  | OConsume => let '(c', r) := ch_consume k c in (c', [match r with Some m => QRecv m | None => QNone end])
  end.
Fixpoint ch_run (k : N) (c : chan) (ops : list qop) : chan * list qevent :=
  match ops with
  | [] => (c, [])
  | o :: r => let '(c1, e1) := ch_op k c o in let '(c2, e2) := ch_run k c1 r in (c2, e1 ++ e2)
  end.

(** Both ends are between calls. *)
Definition q_idle (s : qsys) : Prop := q_pub s = QIdle /\ q_con s = KIdle.
