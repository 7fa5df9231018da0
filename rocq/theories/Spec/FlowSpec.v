From Verif.Base Require Import Prelude.
From Verif.Model Require Import Wire FlowControl.
Local Open Scope N_scope.

(** How much of the traffic a rate lets through: one message in [divisor]. *)
Definition divisor (r : SendRate) : N :=
  match r with Full => 1 | Half => 2 | Quarter => 4 | KeyframeOnly => 100 end.

(** Receptions from one peer and topic with these sequence numbers, at these times. *)
Definition receptions (peer topic : N) (l : list (N * N)) : list fop :=
  map (fun ts => FRecv (fst ts) peer topic (snd ts)) l.
(** In-order reception: increasing sequence numbers, each jump under half the range. *)
Fixpoint increasing_from (s : N) (l : list N) : Prop :=
  match l with [] => True | x :: r => s < x /\ x - s < 2 ^ 31 - 1 /\ increasing_from x r end.
Definition count_true (l : list bool) : nat := length (filter (fun b => b) l).
(** One reception, then one send of a normal message, for each (time, sequence). *)
Definition paired (peer topic : N) (l : list (N * N)) : list fop :=
  flat_map (fun ts => [FRecv (fst ts) peer topic (snd ts); FSend Normal peer topic]) l.
(** The rate is [r] after each of these receptions. *)
Fixpoint rate_stays (r : SendRate) (st : FlowState) (peer topic : N) (l : list (N * N)) : Prop :=
  match l with
  | [] => True
  | ts :: rest => exists st1, on_received (fst ts) st peer topic (snd ts) = Some st1 /\
                  rate_for st1 peer topic = r /\ rate_stays r st1 peer topic rest
  end.
