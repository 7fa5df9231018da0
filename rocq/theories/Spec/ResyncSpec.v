(** What a subscriber may expect of the positions it is handed. *)
From Verif.Base Require Import Prelude.
From Verif.Model Require Import Resync.
Local Open Scope N_scope.

(** Positions handed to subscriber [c], in order. *)
Definition got (c : nat) (s : rsys) : list N := map snd (filter (fun x => Nat.eqb (fst x) c) (rs_got s)).

(** Strictly increasing: nothing twice, nothing out of order. *)
Inductive increasing : list N -> Prop :=
| inc_nil : increasing []
| inc_snoc l p : increasing l -> (forall q, In q l -> q < p) -> increasing (l ++ [p]).
