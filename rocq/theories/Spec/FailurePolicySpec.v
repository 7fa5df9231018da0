(** What a failure policy promises, stated over the history of executed ticks
    alone.  A history lists the executed ticks, NEWEST first, as (time, ok). *)
From Verif Require Import Base.Prelude Model.FailurePolicy.
Local Open Scope N_scope.

Definition past := list (N * bool).

(** Number of panics so far. *)
Fixpoint failures (h : past) : N :=
  match h with
  | [] => 0
  | (_, ok) :: r => (if ok then 0 else 1) + failures r
  end.
(** Panics since the last successful tick. *)
Fixpoint streak (h : past) : N :=
  match h with
  | (_, false) :: r => 1 + streak r
  | _ => 0
  end.

(** The documented back-off before the [k]-th restart's next tick: the initial
    one doubled for every earlier restart, saturating. *)
Definition backoff_spec (initial k : N) : N :=
  N.min (initial * N.min (2 ^ (k - 1)) 4294967295) dur_max.

(** The response owed to a panic, given the history ending with it. *)
Definition answer_spec (p : policy) (h : past) : action :=
  match p with
  | PFatal => StopScheduler
  | PRestart m _ => if m <? failures h then FatalAfterRestarts else RestartNode
  | PSkip m _ => if streak h mod N.max 1 m =? 0 then SkipNode else Continue
  | PIgnore => Continue
  end.

(** Until when the node must be left alone, given the history ([0] = it may
    run): only the newest tick matters, and only if it panicked. *)
Definition hold_until (p : policy) (h : past) : N :=
  match h with
  | (t, false) :: _ =>
      match p with
      | PRestart m b => t + backoff_spec b (failures h)
      | PSkip m c => if streak h mod N.max 1 m =? 0 then t + c else
                     0
      | _ => 0
      end
  | _ => 0
  end.

(** The whole run of a node under policy [p], iteration by iteration, from
    nothing but the history of its executed ticks. *)
Fixpoint run_spec (p : policy) (h : past) (stopped : bool) (offers : list (N * bool))
  : list step :=
  match offers with
  | [] => []
  | (now, ok) :: rest =>
      if stopped then Stopped :: run_spec p h true rest
      else if now <? hold_until p h then Held :: run_spec p h false rest
      else if ok then Ran :: run_spec p ((now, true) :: h) false rest
      else
        let h' := (now, false) :: h in
        let a := answer_spec p h' in
        Failed a :: run_spec p h' (stops a) rest
  end.

(** Clock readings never go back ([Instant] is monotonic). *)
Fixpoint monotone (from : N) (offers : list (N * bool)) : Prop :=
  match offers with
  | [] => True
  | (t, _) :: r => from <= t /\ monotone t r
  end.

(** The longest pause the policy can ask for. *)
Definition longest_hold (p : policy) : N :=
  match p with
  | PRestart _ b => N.min (b * 4294967295) dur_max
  | PSkip _ c => c
  | _ => 0
  end.

(** The configured counts are [u32]s below the maximum, the run makes fewer
    than 2^32 iterations, and no pause reaches past the clock's range. *)
Definition in_range (lim : N) (p : policy) (offers : list (N * bool)) : Prop :=
  N.of_nat (length offers) < 4294967295 /\
  (forall t ok, In (t, ok) offers -> t + longest_hold p <= lim).

Definition is_restart (s : step) : bool :=
  match s with Failed RestartNode => true | _ => false end.
Definition restarts (ss : list step) : N := N.of_nat (length (filter is_restart ss)).
Definition executed (s : step) : bool :=
  match s with Ran | Failed _ | Crashed => true | _ => false end.
