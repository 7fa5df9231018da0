(** Vocabulary for dependencies. *)
From Coq Require Import String.
From Verif.Base Require Import Prelude Bytes AMap Str.
From Verif.Model Require Import Resolver.
Local Open Scope N_scope.
Local Open Scope list_scope.

(** Someone asks for this: the caller, or some version of some package. *)
Definition asked (pv : Provider) (roots : list Dep) (name : bytes) (req : N) : Prop :=
  exists d, d_name d = name /\ d_req d = req /\ (In d roots \/ exists n v ds, pv_deps pv n v = Some ds /\ In d ds).
(** Among these versions this dependency is met. *)
Definition met (pv : Provider) (l : list (bytes * N)) (d : Dep) : Prop := exists v, In (d_name d, v) l /\ pv_match pv (d_req d) v = true.
(** A solution: one available version for each package, meeting what the caller asks and what the chosen versions ask. *)
Definition solution (pv : Provider) (roots : list Dep) (l : list (bytes * N)) : Prop :=
  NoDup (map fst l) /\ (forall n v, In (n, v) l -> exists vs, pv_versions pv n = Some vs /\ In v vs) /\
  (forall d, In d roots -> met pv l d) /\ (forall n v ds d, In (n, v) l -> pv_deps pv n v = Some ds -> In d ds -> met pv l d).
(** A registry with finitely many requirements, at most [width] in one version. *)
Definition finite_registry (pv : Provider) (all : list (bytes * N)) (width : nat) : Prop :=
  forall n v ds, pv_deps pv n v = Some ds -> (length ds <= width)%nat /\ forall d, In d ds -> In (d_name d, d_req d) all.
(** The same dependency from wherever. *)
Definition same_but_source (a b : Dep) : Prop := d_name a = d_name b /\ d_req a = d_req b.
(** A registry that answers "no dependencies" where this one fails. *)
Definition always_answers (pv : Provider) : Provider :=
  mkProvider (pv_versions pv) (fun n v => Some (match pv_deps pv n v with Some ds => ds | None => [] end)) (pv_match pv) (pv_fetch pv).
