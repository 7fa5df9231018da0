(** What the lock file of a project is to promise, without its code. *)
From Verif.Base Require Import Prelude Bytes.
From Verif.Model Require Import Lockfile.
Open Scope nat_scope.

(** The same package: same name from the same source. *)
Definition same_package (p q : Locked) : Prop :=
  lk_name p = lk_name q /\ lk_source p = lk_source q.

(** [p] is the last pin of its package in a history of pins. *)
Definition latest (h : list Locked) (p : Locked) : Prop :=
  exists h1 h2, h = h1 ++ p :: h2 /\ forall q, In q h2 -> ~ same_package q p.

(** The order of a dictionary. *)
Definition dict_lt (a b : bytes) : Prop :=
  (exists y r, b = a ++ y :: r) \/
  (exists c x r y r', a = c ++ x :: r /\ b = c ++ y :: r' /\ (x < y)%N).

(** By source, then by name. *)
Definition listed_before (p q : Locked) : Prop :=
  dict_lt (lk_source p) (lk_source q) \/
  (lk_source p = lk_source q /\ dict_lt (lk_name p) (lk_name q)).

(** The numbers the directory leads to are of existing files, and the two names lead to two files. *)
Definition disk_ok (d : Disk) : Prop :=
  (forall i, d_target d = Some i -> i < d_next d) /\
  (forall i, d_tmp d = Some i -> i < d_next d) /\
  (forall i, d_target d = Some i -> d_tmp d <> Some i).
