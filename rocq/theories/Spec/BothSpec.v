(** A topic that loops back: a first-in first-out queue. *)
From Verif.Base Require Import Prelude.
From Verif.Model Require Import Both.
Local Open Scope N_scope.

(** The replies of an ideal queue to handle 0's calls. *)
Fixpoint fifo (q : list N) (ops : list bop) : list (nat * option N) :=
  match ops with
  | [] => []
  | BSend c m :: r => fifo (q ++ [m]) r
  | BRecv c :: r => match q with [] => (c, None) :: fifo [] r | m :: q' => (c, Some m) :: fifo q' r end
  end.
(** At no time more than [n] messages wait. *)
Fixpoint at_most (n : N) (q : N) (ops : list bop) : Prop :=
  match ops with
  | [] => True
  | BSend _ _ :: r => q < n /\ at_most n (q + 1) r
  | BRecv _ :: r => at_most n (q - 1) r
  end.
Definition only (c : nat) (ops : list bop) : Prop := Forall (fun o => match o with BSend d _ | BRecv d => d = c end) ops.
(** Handle 0 only sends and handle 1 only receives. *)
Definition one_way (ops : list bop) : Prop := Forall (fun o => match o with BSend c _ => c = 0%nat | BRecv c => c = 1%nat end) ops.
