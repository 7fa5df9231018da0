(** What a caller may observe of a queue topic.  Traces only: no ring, no positions. *)
From Verif.Base Require Import Prelude.
From Verif.Model Require Import RingMem Ring.

(** The messages publisher [p] was told were accepted, in order. *)
Fixpoint accepted (p : nat) (tr : list event) : list msg :=
  match tr with
  | [] => []
  | EOk q m :: r => if Nat.eqb q p then m :: accepted p r else accepted p r
  | _ :: r => accepted p r
  end.

(** The messages the subscriber was given, in order. *)
Fixpoint received (tr : list event) : list msg :=
  match tr with
  | [] => []
  | ERecv m :: r => m :: received r
  | _ :: r => received r
  end.

(** The call publisher [p] has made and that has not returned yet. *)
Fixpoint pending_from (o : option msg) (p : nat) (tr : list event) : option msg :=
  match tr with
  | [] => o
  | ECall q m :: r => pending_from (if Nat.eqb q p then Some m else o) p r
  | EOk q _ :: r => pending_from (if Nat.eqb q p then None else o) p r
  | EErr q _ :: r => pending_from (if Nat.eqb q p then None else o) p r
  | _ :: r => pending_from o p r
  end.
Definition pending := pending_from None.

(** The part of a common order that came from [p]. *)
Definition by_publisher (p : nat) (l : list (nat * msg)) : list msg :=
  map snd (filter (fun e => Nat.eqb (fst e) p) l).

Definition prefix {A} (a b : list A) : Prop := exists c, b = a ++ c.

(** [order] is a queue history for the trace: one total order on messages such that
    - for each publisher it holds exactly the accepted messages in the order accepted, plus at most
      the message of the call that publisher is still in;
    - what the subscriber was given is the first part of it, and that part holds, for each
      publisher, only accepted messages. *)
Definition queue_history (tr : list event) (order : list (nat * msg)) : Prop :=
  (forall p, by_publisher p order = accepted p tr \/
             exists m, pending p tr = Some m /\ by_publisher p order = accepted p tr ++ [m]) /\
  exists given rest, order = given ++ rest /\ received tr = map snd given /\
    forall p, prefix (by_publisher p given) (accepted p tr).

(** The number of accepted messages, over all publishers. *)
Fixpoint n_accepted (tr : list event) : nat :=
  match tr with
  | [] => 0
  | EOk _ _ :: r => S (n_accepted r)
  | _ :: r => n_accepted r
  end.

(** Only publisher [p] ever moves in this schedule (with the subscriber). *)
Definition only_publisher (p : nat) (sched : list action) : Prop :=
  Forall (fun a => match a with AProd q _ _ => q = p | ACons => True end) sched.
(** Publisher [p] does not move in this schedule. *)
Definition without_publisher (p : nat) (sched : list action) : Prop :=
  Forall (fun a => match a with AProd q _ _ => q <> p | ACons => True end) sched.
Definition only_subscriber (sched : list action) : Prop := Forall (fun a => a = ACons) sched.
