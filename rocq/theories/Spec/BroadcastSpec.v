(** What callers may observe of a broadcast topic. *)
From Verif.Base Require Import Prelude.
From Verif.Model Require Import RingMem Broadcast.

Fixpoint b_sent (p : nat) (tr : list bevent) : list msg :=
  match tr with
  | [] => []
  | BOk q m :: r => if Nat.eqb q p then m :: b_sent p r else b_sent p r
  | _ :: r => b_sent p r
  end.
Fixpoint b_received (c : nat) (tr : list bevent) : list msg :=
  match tr with
  | [] => []
  | BRecv d m :: r => if Nat.eqb d c then m :: b_received c r else b_received c r
  | _ :: r => b_received c r
  end.
Fixpoint b_pending_from (o : option msg) (p : nat) (tr : list bevent) : option msg :=
  match tr with
  | [] => o
  | BCall q m :: r => b_pending_from (if Nat.eqb q p then Some m else o) p r
  | BOk q _ :: r => b_pending_from (if Nat.eqb q p then None else o) p r
  | _ :: r => b_pending_from o p r
  end.
Definition b_pending := b_pending_from None.
(** Where subscriber [c] joined. *)
Fixpoint b_joined (c : nat) (tr : list bevent) : option N :=
  match tr with
  | [] => None
  | BJoin d pos :: r => if Nat.eqb d c then Some pos else b_joined c r
  | _ :: r => b_joined c r
  end.

Definition b_by_publisher (p : nat) (l : list (nat * msg)) : list msg :=
  map snd (filter (fun e => Nat.eqb (fst e) p) l).

(** One order of the messages sent: each publisher's own messages in the order sent, plus at most
    the message it is still sending. *)
Definition sent_order (tr : list bevent) (order : list (nat * msg)) : Prop :=
  forall p, b_by_publisher p order = b_sent p tr \/
            exists m, b_pending p tr = Some m /\ b_by_publisher p order = b_sent p tr ++ [m].

(** [skips l n r]: going through [l] once from the front, [n] entries were skipped and the others,
    in order and each once, are [r]. *)
Inductive skips : list msg -> N -> list msg -> Prop :=
| sk_nil : skips [] 0%N []
| sk_take m l n r : skips l n r -> skips (m :: l) n (m :: r)
| sk_skip m l n r : skips l n r -> skips (m :: l) (n + 1)%N r.

(** Subscriber [c] has gone through a stretch of [order] from where it joined, [missed] entries of it
    skipped and the rest received. *)
Definition followed (order : list (nat * msg)) (pos : N) (missed : N) (got : list msg) : Prop :=
  exists seen ahead, skipn (N.to_nat pos) (map snd order) = seen ++ ahead /\ skips seen missed got.

Definition one_publisher (p : nat) (sched : list baction) : Prop :=
  Forall (fun a => match a with APub q _ => q = p | ASub _ => True end) sched.

(** No publisher is being overtaken by a whole ring: every message that has taken its place in the
    order but is not completely written is among the last [capacity] places. *)
Definition place (pc : bpc) : option N :=
  match pc with BMark _ q | BWrite _ q _ | BStamp _ q => Some q | _ => None end.
Definition not_lapped (k : N) (s : bsys) : Prop :=
  forall p q, place (b_pub s p) = Some q -> (sm_head (b_mem s) <= q + 2 ^ k)%N.
Definition never_lapped (k : N) (W : nat) (sched : list baction) : Prop :=
  forall pre suf, sched = pre ++ suf -> not_lapped k (b_final k W pre).

(** Subscriber states between the two loads of registration and its end. *)
Definition mid_join (t : rst) : bool :=
  match r_pc t with RJoinTail _ | RJoinMax _ _ => true | _ => false end.
(** At no moment are two subscribers registering. *)
Definition joins_apart (k : N) (W : nat) (sched : list baction) : Prop :=
  forall pre suf c d, sched = pre ++ suf ->
    mid_join (b_sub (b_final k W pre) c) = true -> mid_join (b_sub (b_final k W pre) d) = true -> c = d.
