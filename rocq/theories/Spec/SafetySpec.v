(** Specifications for the safety monitor. *)
From Verif Require Import Base.Prelude Model.Safety.

(** ** Watchdog: severity is a function of the time since the last feed. *)
Module WdSpec.
Local Open Scope N_scope.
Definition severity_of (elapsed timeout : N) : Wd.severity :=
  if elapsed <=? timeout then Wd.Ok
  else if elapsed <=? 2 * timeout then Wd.Warning
  else if elapsed <=? 3 * timeout then Wd.Expired
  else Wd.Critical.
Definition rank (s : Wd.severity) : nat :=
  match s with Wd.Ok => 0 | Wd.Warning => 1 | Wd.Expired => 2 | Wd.Critical => 3 end.
(** Time of the last feed in [ops], [t0] if none. *)
Fixpoint last_feed (t0 : N) (ops : list Wd.op) : N :=
  match ops with
  | [] => t0
  | Wd.Feed n :: r => last_feed n r
  | _ :: r => last_feed t0 r
  end.
(** The timeout in force: the last value it was scaled to, never less than the
    configured one. *)
Fixpoint window (tmo cur : N) (ops : list Wd.op) : N :=
  match ops with
  | [] => cur
  | Wd.Scale k :: r => window tmo (if k <? tmo then tmo else k) r
  | _ :: r => window tmo cur r
  end.
(** No window in [ops] overflows. *)
Definition windows_fit (tmo : N) (ops : list Wd.op) : Prop :=
  3 * tmo < 18446744073709551616 /\ forall k, In (Wd.Scale k) ops -> 3 * k < 18446744073709551616.
End WdSpec.

(** ** Ladder: counting over the ticks' outcomes. *)
Module LadderSpec.
Import Ladder.
Definition n_missed (os : list outcome) : nat := length (filter missed os).
Definition n_ok (os : list outcome) : nat := length (filter ok os).
(** A tick that kept both its budget and its deadline. *)
Definition good (o : outcome) : bool := negb (over o) && negb (missed o) && ok o.
End LadderSpec.

(** ** Latch: the first step of the schedule that sets the flag. *)
Module LatchSpec.
Import Latch.
Inductive origin := Local (r : nat) | Remote.
Fixpoint winner (w : shared * list pc) (sch : list nat) : option origin :=
  match sch with
  | [] => None
  | i :: rest =>
      match nth_error (snd w) i with
      | Some (LSwap r) => if flag (fst w) then None else Some (Local r)
      | Some RFlag => if flag (fst w) then None else Some Remote
      | _ => winner (sched_step w i) rest
      end
  end.
(** Threads not yet started, and everything that has been or will be handed to
    the network. *)
Definition starting (p : pc) : bool :=
  match p with LSwap _ | RFlag | SState | Drain => true | _ => false end.
Definition is_safe_hook (p : pc) : bool := match p with SState => true | _ => false end.
Definition broadcasts (s : shared) : list nat :=
  sent s ++ match pending s with Some r => [r] | None => [] end.
End LatchSpec.
