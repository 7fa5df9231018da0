(** Dependencies between nodes, said without algorithms. *)
From Verif.Base Require Import Prelude.
From Coq Require Import Relations.
From Verif.Model Require Import DepGraph.

(** [i] consumes something [p] produces. *)
Definition depends (nodes : list gnode) (p i : nat) : Prop :=
  p <> i /\ p < length nodes /\ i < length nodes /\
  exists topic, In topic (g_pubs (nth_node nodes p)) /\ In topic (g_subs (nth_node nodes i)).
(** Some node declares a topic; none does. *)
Definition topics_declared (nodes : list gnode) : Prop := exists x, In x nodes /\ (g_pubs x <> [] \/ g_subs x <> []).
Definition no_topics (nodes : list gnode) : Prop := forall x, In x nodes -> g_pubs x = [] /\ g_subs x = [].
Definition edge (e : nat -> list nat) (n : nat) (p i : nat) : Prop := p < n /\ In i (e p).
Definition on_cycle (r : nat -> nat -> Prop) (i : nat) : Prop := clos_trans nat r i i.
Definition acyclic (r : nat -> nat -> Prop) : Prop := forall i, ~ on_cycle r i.

(** Node [x] runs in step number [a]. *)
Definition in_step (steps : list (list nat)) (a x : nat) : Prop := exists l, nth_error steps a = Some l /\ In x l.

(** [a] happened before [b]. *)
Definition precedes {A} (a b : A) (log : list A) : Prop := exists l1 l2 l3, log = l1 ++ a :: l2 ++ b :: l3.
