(** Vocabulary for launches. *)
From Coq Require Import String.
From Verif.Base Require Import Prelude Bytes AMap Str.
From Verif.Model Require Import Launch.
From Coq Require Import Relations.
Local Open Scope N_scope.
Local Open Scope list_scope.

(** Every name once. *)
Definition distinct_names (nodes : list LNode) : Prop := NoDup (map l_name nodes).
(** In the file, the node named [a] depends on the node named [b]. *)
Definition needs (nodes : list LNode) (a b : bytes) : Prop := exists n, In n nodes /\ l_name n = a /\ In b (l_deps n) /\ In b (map l_name nodes).
(** A circle of dependencies. *)
Definition circular (nodes : list LNode) : Prop := exists a, clos_trans bytes (needs nodes) a a.
(** In this order every node comes after those of its dependencies that the file has. *)
Definition respects (nodes order : list LNode) : Prop :=
  forall before n after, order = before ++ n :: after -> forall d, In d (l_deps n) -> In d (map l_name nodes) -> In d (map l_name before).
(** Every dependency is in the file. *)
Definition complete (nodes : list LNode) : Prop := forall n d, In n nodes -> In d (l_deps n) -> In d (map l_name nodes).
(** Every process that exists is one the launcher watches. *)
Definition sound (l : Launcher) : Prop := (forall x, In x (lc_alive l) -> In x (map p_pid (lc_procs l))).
(** The waits before the restarts: 100 ms, doubled each time, at most 10 s. *)
Definition wait_before (k : N) : N := N.min (100 * 2 ^ k) 10000.
(** The session entry of each process is the one at its place. *)
Definition aligned (l : Launcher) : Prop := map s_name (lc_session l) = map p_name (lc_procs l) /\ map s_pid (lc_session l) = map p_pid (lc_procs l).
(** A round in which nothing happens but what the processes do. *)
Definition quiet (os : list obs) : Round := mkRound [] false os (fun _ => None) [].
