(** What a change of backend is to be. *)
From Verif.Base Require Import Prelude.
From Verif.Model Require Import Migrate.
Open Scope nat_scope.

(** The changes that succeeded, in the order in which they returned: mode and number. *)
Definition changes (s : st) : list (nat * nat) :=
  flat_map (fun x => match x with (_, m, Success e) => [(m, e)] | _ => [] end) (out s).
(** The mode after these changes. *)
Definition final (m0 : nat) (l : list (nat * nat)) : nat := last (map fst l) m0.
(** Holding the lock by the program's text: between taking it and giving it back. *)
Definition inside (p : pc) : Prop := match p with Draining _ | Stored _ | Bumped _ _ => True | _ => False end.
(** No lock is taken away in a schedule. *)
Definition unforced (tr : list act) : Prop := forall t, ~ In (Force t) tr.
(** Nobody is in a call. *)
Definition quiet (s : st) : Prop := forall t, at_ s t = Idle.
(** Every call asks for [m]. *)
Definition all_for (m : nat) (tr : list act) : Prop := forall t m', In (Start t m') tr -> m' = m.
