(** Specifications for the executor loops (C51-C57). *)
From Verif Require Import Base.Prelude Model.ExecLoop.

Definition lastn {A} (n : nat) (l : list A) : list A := skipn (length l - n) l.

(** ** Load shedding *)
(** The durations of the passes in which at least one node ran. *)
Fixpoint working_durations (ps : list Compute.pass) (os : list Compute.seen) : list N :=
  match ps, os with
  | p :: ps', o :: os' =>
      if existsb (fun b => b) (Compute.ticked o)
      then Compute.elapsed p :: working_durations ps' os'
      else working_durations ps' os'
  | _, _ => []
  end.
(** Some pass among the last three that ran anything took longer than [period]. *)
Definition recent_overload (period : N) (ps : list Compute.pass) (os : list Compute.seen) : bool :=
  existsb (fun e => (period <? e)%N) (lastn 3 (working_durations ps os)).

(** Node [i] ticked / was safed in a pass. *)
Definition node_ticked (o : Compute.seen) (i : nat) : bool := nth i (Compute.ticked o) false.
Definition node_safed (o : Compute.seen) (i : nat) : bool := nth i (Compute.safed o) false.

(** ** Consecutive panics: three in a row somewhere in the history. *)
Definition three_in_a_row (h : list bool) : Prop :=
  exists a b, h = a ++ [true; true; true] ++ b.

(** ** What a tick demands of the runtime *)
(** An emergency stop is demanded by the budget policy, by the miss policy, or
    because a critical node violated either. *)
Definition demands_estop (c : Fault.cfg) (t : Fault.tick) : Prop :=
  (Fault.over_budget c t = true /\ Fault.bp c = Fault.BEstop)
  \/ (Fault.missed c t = true /\ Fault.mp c = Fault.MStop)
  \/ (Fault.crit c = true /\ (Fault.over_budget c t = true \/ Fault.missed c t = true)).
(** The whole scheduler must stop: the tick panicked under a fatal policy. *)
Definition demands_halt (c : Fault.cfg) (t : Fault.tick) : Prop :=
  Fault.panics t = true /\ Fault.fatal c = true.
Definition no_callback_panics (t : Fault.tick) : Prop :=
  Fault.p_shutdown t = false /\ Fault.p_safe t = false /\ Fault.p_error t = false.

(** ** Freshness *)
Definition is_check (e : Fresh.event) : bool :=
  match e with Fresh.Check _ => true | _ => false end.
(** At the check made at time [c] a message had arrived since the check before. *)
Definition arrival_noticed (es : list Fresh.event) (c : N) : Prop :=
  exists a c0 b d, es = a ++ Fresh.Check c0 :: b ++ Fresh.Check c :: d
    /\ forallb (fun e => negb (is_check e)) b = true /\ b <> [].
(** Event times strictly increase from [t0]. *)
Fixpoint increasing (t0 : N) (es : list Fresh.event) : Prop :=
  match es with
  | [] => True
  | e :: r => (t0 < Fresh.time e)%N /\ increasing (Fresh.time e) r
  end.
