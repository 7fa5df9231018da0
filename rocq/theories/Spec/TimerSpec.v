(** What a loop paced by a rate should look like from outside. *)
From Verif.Base Require Import Prelude.
From Verif.Model Require Import Timer.
Open Scope nat_scope.

(** When each [sleep] returned, in order. *)
Definition returns (p t0 : nat) (l : list act) : list nat := snd (run_rate p t0 l).

(** The rate as it is after the run. *)
Definition after (p t0 : nat) (l : list act) : rate := fst (fst (run_rate p t0 l)).

(** A loop that works and sleeps; each turn is its work, how much the operating
    system oversleeps and how long the clock read after it takes. *)
Definition turn := (nat * nat * nat)%type.
Definition paced (l : list turn) : list act :=
  flat_map (fun '(w, o, d) => [Work w; Sleep o d 0]) l.

(** Every turn is over before its time: the work of a turn, after what the turn
    before it lost to oversleeping, fits in the period, and so does the loss. *)
Fixpoint on_time (p lost : nat) (l : list turn) : Prop :=
  match l with
  | [] => True
  | (w, o, d) :: r => lost + w <= p /\ o + d <= p /\ on_time p (o + d) r
  end.
