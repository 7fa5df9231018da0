(** What the action server promises, in terms of goals sent and messages seen. *)
From Coq Require Import Sorting.Permutation.
From Verif Require Import Base.Prelude Base.AMap Model.Action.

(** Ids of the goals received, in order of arrival. *)
Definition goal_ids (ops : list op) : list N :=
  flat_map (fun o => match o with Goal r => [r_id r] | _ => [] end) ops.
(** Ids whose execution was announced, in order. *)
Definition started (l : list msg) : list N :=
  flat_map (fun m => match m with MStatus id Active => [id] | _ => [] end) l.
(** How often a terminal status, a result, was published for a goal. *)
Definition terminals (id : N) (l : list msg) : nat :=
  length (filter (fun m => match m with MStatus i s => (i =? id)%N && terminal s | _ => false end) l).
Definition results (id : N) (l : list msg) : nat :=
  length (filter (fun m => match m with MResult i _ => (i =? id)%N | _ => false end) l).

(** [l] appears in [m], in order. *)
Inductive sublist {A} : list A -> list A -> Prop :=
| sub_nil m : sublist [] m
| sub_take x l m : sublist l m -> sublist (x :: l) (x :: m)
| sub_skip x l m : sublist l m -> sublist l (x :: m).

Definition running (s : srv) (id : N) : Prop := In id (map fst (active s)).
Definition waiting (s : srv) (id : N) : Prop := In id (map r_id (queue s)).
Definition no_shutdown (ops : list op) : Prop := ~ In Shutdown ops.
(** The hash map shows its entries in some order. *)
Definition hash_order (order : list (N * goal) -> list (N * goal)) : Prop :=
  forall l, Permutation (order l) l.

(** How often a goal's start was announced; which goal a message is about. *)
Definition starts (id : N) (l : list msg) : nat := count_occ N.eq_dec (started l) id.
Definition about (m : msg) : N := match m with MFeedback i _ | MResult i _ | MStatus i _ => i end.

(** Everything a server is built from: its configuration, the user's callbacks,
    whether threads start, and how its hash map iterates. *)
Record world := {
  w_cfg : config; w_wants : req -> bool; w_cancel : N -> bool;
  w_exec : bool; w_spawns : req -> bool; w_order : list (N * goal) -> list (N * goal) }.
Definition from (w : world) (s : srv) (ops : list op) : option srv :=
  run (w_cfg w) (w_wants w) (w_cancel w) (w_exec w) (w_spawns w) (w_order w) s ops.
Definition after (w : world) (ops : list op) : option srv := from w start ops.
