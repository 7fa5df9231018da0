(** What callers may observe of a fan-out topic.  For the specification every message carries the
    handle that sent it. *)
From Verif.Base Require Import Prelude.
From Verif.Model Require Import Fanout.

Definition lmsg : Type := nat * list N.
Definition labelled (ops : list (fop lmsg)) : Prop := forall h a, In (OSend h a) ops -> fst a = h.

(** Messages handle [h] sent successfully; messages handle [h] received; those it received from [g]. *)
Fixpoint f_sent {A} (h : nat) (tr : list (fevent A)) : list A :=
  match tr with
  | [] => []
  | FSent g a :: r => if Nat.eqb g h then a :: f_sent h r else f_sent h r
  | _ :: r => f_sent h r
  end.
Fixpoint f_got {A} (h : nat) (tr : list (fevent A)) : list A :=
  match tr with
  | [] => []
  | FGot g a :: r => if Nat.eqb g h then a :: f_got h r else f_got h r
  | _ :: r => f_got h r
  end.
Definition got_from (g h : nat) (tr : list (fevent lmsg)) : list lmsg :=
  filter (fun a => Nat.eqb (fst a) g) (f_got h tr).

(** [passed l n r]: going through [l] once, [n] entries were skipped and the others, in order and once
    each, are [r]. *)
Inductive passed {A} : list A -> nat -> list A -> Prop :=
| pa_nil : passed [] 0 []
| pa_take a l n r : passed l n r -> passed (a :: l) n (a :: r)
| pa_skip a l n r : passed l n r -> passed (a :: l) (S n) r.

(** The operation ends handle [h]: it is dropped or its process dies. *)
Definition ends (pid_of : nat -> nat) (h : nat) {A} (o : fop A) : Prop :=
  match o with ODrop g => g = h | OCrash p => p = pid_of h | _ => False end.
(** Handle [h] is there throughout. *)
Definition stays (pid_of : nat -> nat) (h : nat) {A} (ops : list (fop A)) : Prop :=
  Forall (fun o => ~ ends pid_of h o) ops.

(** Handle [h'] has become a subscriber in exactly this call. *)
Definition joins_at (M cap : nat) (pid_of : nat -> nat) (h' : nat) (pre : list (fop lmsg)) : Prop :=
  fs_hsub (f_final M cap pid_of pre) h' = None /\
  fs_hsub (f_final M cap pid_of (pre ++ [ORecv h'])) h' <> None.
