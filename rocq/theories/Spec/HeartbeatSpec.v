(** What a link-loss report should mean, in terms of the history of events alone. *)
From Verif.Base Require Import Prelude.
From Verif.Model Require Import Heartbeat.
Local Open Scope N_scope.

Definition history := list (N * hbop).
(** Times never go backwards (monotonic clock). *)
Fixpoint in_order (t : N) (h : history) : Prop :=
  match h with [] => True | (u, _) :: r => t <= u /\ in_order u r end.
(** [p] was never added, or was removed and not added again. *)
Definition unwatched (p : N) (h : history) : Prop :=
  (forall t a, ~ In (t, HbAdd p a) h) \/
  exists h1 t h2, h = h1 ++ (t, HbRemove p) :: h2 /\ forall t a, ~ In (t, HbAdd p a) h2.
(** [p] came under watch at [t0] and is so still; [rest] is what happened since. *)
Definition watched_since (p : N) (h : history) (t0 : N) (rest : history) : Prop :=
  exists h1 a, h = h1 ++ (t0, HbAdd p a) :: rest /\ unwatched p h1 /\ forall t, ~ In (t, HbRemove p) rest.
(** The last sign of life from [p] was at [ts] ([t0], its arrival, if it has sent none); [quiet] is
    what happened since then. *)
Definition silent_since (p : N) (rest : history) (t0 : N) (heard : bool) (ts : N) (quiet : history) : Prop :=
  (forall t, ~ In (t, HbHeard p) quiet) /\
  if heard then exists r1, rest = r1 ++ (ts, HbHeard p) :: quiet else rest = quiet /\ ts = t0.
(** The link counts as lost at [t]: [p] has been heard before, or has had two seconds to speak up,
    and has now been silent for [threshold] intervals. *)
Definition loss_due (cfg : HbConfig) (t0 : N) (heard : bool) (ts t : N) : Prop :=
  (heard = true \/ t0 + 2 * 10 ^ 9 < t) /\ ts + hc_threshold cfg * hc_interval cfg <= t.
(** The reports of the last event of a history. *)
Definition last_reports (cfg : HbConfig) (h : history) : list N := last (snd (hb_run cfg [] h)) [].
