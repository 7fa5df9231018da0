(** What a glob pattern means: '*' stands for any string, every other byte for itself. *)
From Coq Require Import String.
From Verif.Base Require Import Prelude Bytes AMap Str.
From Verif.Model Require Import Registry Guard.
Local Open Scope N_scope.

Inductive glob : bytes -> bytes -> Prop :=
| glob_end : glob [] []
| glob_char c p s : c <> 42 -> glob p s -> glob (c :: p) (c :: s)
| glob_star p s1 s2 : glob p s2 -> glob (42 :: p) (s1 ++ s2).

Definition reserved (name : bytes) : Prop :=
  name = bs "_horus.presence" \/ name = bs "_horus.logs" \/ name = bs "_horus.estop".
Definition matches_any (name : bytes) (ps : list bytes) : Prop := exists p, In p ps /\ glob p name.

(** Remote data may enter: always on the reserved topics; otherwise by mode. *)
Definition import_allowed (g : Guard) (name : bytes) : Prop :=
  reserved name \/
  match g_import g with
  | IDeny => False
  | IAuto => exists reg, g_registry g = Some reg /\
             has_subscribers reg name = true /\ has_publishers reg name = false
  | IAllowList ps => matches_any name ps
  end.
Definition export_allowed (g : Guard) (name : bytes) : Prop :=
  match g_export g with
  | EAll => True
  | EAllowList ps => matches_any name ps
  | EDenyList ps => ~ matches_any name ps
  end.
