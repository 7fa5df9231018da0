(** [Rate], horus_core/src/core/timer.rs lines 36-143.  An [Instant] is a number of
    nanoseconds on the monotonic clock, a [Duration] a number of nanoseconds.
    The smoothed period is an exact rational here; the code keeps it as a
    [Duration] computed in [f64].  [Rate::new]'s conversion of a frequency into a
    period is not modelled: a rate starts from its period. *)
From Coq Require Import QArith.
From Verif.Base Require Import Prelude.
Open Scope nat_scope.

(** [Rate], 55-60. *)
Record rate := Rate { period : nat; cycle_start : nat; smoothed : option Q }.

(** A number of nanoseconds as a rational. *)
Definition ns (n : nat) : Q := inject_Z (Z.of_nat n).

(** [Rate::new], 68-75, called at [now]. *)
Definition rate_new (p now : nat) : rate := Rate p now None.

(** The new smoothed period, 85-90. *)
Definition smooth (prev : option Q) (elapsed : nat) : Q :=
  match prev with
  | None => ns elapsed
  | Some q => ((9 # 10) * q + (1 # 10) * ns elapsed)%Q
  end.

(** [sleep], 81-103, called at [now]; [over] is how much longer than asked the
    operating system sleeps, [d1] the time until the clock is read at 100 and [d2]
    the time until it is read at 101.  The result is the new state and the time of
    return.  [Instant::elapsed] of a time in the future is zero, as subtraction of
    [nat]s is. *)
Definition rate_sleep (r : rate) (now over d1 d2 : nat) : rate * nat :=
  let elapsed := now - cycle_start r in
  let sm := Some (smooth (smoothed r) elapsed) in
  let woke := if elapsed <=? period r then now + (period r - elapsed) + over else now in
  let start := cycle_start r + period r in
  let checked := woke + d1 in
  if period r <? checked - start
  then (Rate (period r) (checked + d2) sm, checked + d2)
  else (Rate (period r) start sm, checked).

(** [reset], 133-135, called at [now]. *)
Definition rate_reset (r : rate) (now : nat) : rate := Rate (period r) now (smoothed r).

(** [is_late], 138-141, called at [now]. *)
Definition is_late (r : rate) (now : nat) : bool := period r <=? now - cycle_start r.

(** [actual_hz], 109-116, in cycles per nanosecond; [None] is infinity. *)
Definition actual_hz (r : rate) : option Q :=
  let p := match smoothed r with Some q => q | None => ns (period r) end in
  if Qlt_le_dec 0 p then Some (/ p)%Q else None.

(** [target_hz], 120-122, in cycles per nanosecond. *)
Definition target_hz (r : rate) : Q := (/ ns (period r))%Q.

(** What the thread that owns the rate does between two instants: work for some
    time, call [sleep], or call [reset]. *)
Inductive act := Work (w : nat) | Sleep (over d1 d2 : nat) | Reset.

(** One action of that thread: the state, the clock, and the return times of
    [sleep] so far, oldest first. *)
Definition act_step (st : rate * nat * list nat) (a : act) : rate * nat * list nat :=
  let '(r, now, returns) := st in
  match a with
  | Work w => (r, now + w, returns)
  | Sleep o d1 d2 => let '(r', now') := rate_sleep r now o d1 d2 in (r', now', returns ++ [now'])
  | Reset => (rate_reset r now, now, returns)
  end.

(** The thread's whole run, from the creation of the rate at [t0]. *)
Definition run_rate (p t0 : nat) (l : list act) : rate * nat * list nat :=
  fold_left act_step l (rate_new p t0, t0, []).
