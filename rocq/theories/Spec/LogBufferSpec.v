(** What the log buffer promises, in words of its own: no reference to slots,
    sequence fields or byte layouts. *)
From Verif Require Import Base.Prelude Base.Bytes Model.LogEntry.
Open Scope nat_scope.

(** An entry a Rust program can hold: strings are UTF-8, integers fit in 64 bits. *)
Definition u64 (n : N) : Prop := (n < 2 ^ 64)%N.
Definition text (s : bytes) : Prop := utf8 s = true /\ bytes_ok s.
Definition entry_ok (e : entry) : Prop :=
  text (le_timestamp e) /\ text (le_node e) /\ text (le_message e)
  /\ (forall t, le_topic e = Some t -> text t)
  /\ u64 (le_tick e) /\ u64 (le_tick_us e) /\ u64 (le_ipc_ns e).

(** [s'] is [s] cut to at most [max] bytes: unchanged if it fits; otherwise the
    longest well-formed prefix that leaves room for "...", then "...". *)
Definition cut (max : nat) (s s' : bytes) : Prop :=
  text s'
  /\ (length s <= max -> s' = s)
  /\ (max < length s ->
      exists p r, s = p ++ r /\ s' = p ++ [46; 46; 46]%N /\ length s' <= max
      /\ forall q r', s = q ++ r' -> utf8 q = true -> length q + 3 <= max -> length q <= length p).

(** [e'] is [e] with the text fields cut to the documented sizes. *)
Definition cut_entry (e e' : entry) : Prop :=
  cut 32 (le_timestamp e) (le_timestamp e') /\ cut 64 (le_node e) (le_node e')
  /\ cut 280 (le_message e) (le_message e')
  /\ match le_topic e, le_topic e' with
     | None, None => True | Some t, Some t' => cut 64 t t' | _, _ => False end
  /\ le_tick e' = le_tick e /\ le_type e' = le_type e
  /\ le_tick_us e' = le_tick_us e /\ le_ipc_ns e' = le_ipc_ns e.

(** Of a log (oldest first), what a ring of [cap] entries still holds from
    position [after] on. *)
Definition kept {A} (cap after : nat) (log : list A) : list A :=
  skipn (Nat.max after (length log - cap)) log.

(** * Interleaved executions *)
From Verif Require Import Model.LogBuffer.

(** The entries pushed, in the order their positions were claimed. *)
Fixpoint claimed (h : list ev) : list entry :=
  match h with
  | [] => []
  | EClaim _ _ e :: h => e :: claimed h
  | _ :: h => claimed h
  end.
(** The push of position [i] returned. *)
Definition returned (h : list ev) (i : nat) : Prop := exists p, In (EPushed p i) h.
(** Process [p] is inside the push of position [i]. *)
Definition pushing (s : st) (p i : nat) : Prop :=
  exists d, procs s p = WClaimed i d \/ exists k, procs s p = WCopy i d k.
(** Nobody is inside a push that began [cap] or more positions ago. *)
Definition no_straggler (cap : nat) (s : st) : Prop :=
  forall p i, pushing s p i -> widx (shm s) <= i + cap.
(** [P] holds after every prefix of the schedule. *)
Definition throughout (cap : nat -> nat) (P : st -> Prop) (s : st) (l : list act) : Prop :=
  forall l1 l2, l = l1 ++ l2 -> P (fst (run cap s l1)).
(** No reader gave up waiting for a push. *)
Definition patient (l : list act) : Prop := forall p, ~ In (ATimeout p) l.
Definition pushes_ok (l : list act) : Prop := forall p e, In (APush p e) l -> entry_ok e.
(** The elements of a list whose positions, counted from [i], satisfy [f]. *)
Fixpoint chosen {A} (f : nat -> bool) (i : nat) (l : list A) : list A :=
  match l with
  | [] => []
  | x :: l => if f i then x :: chosen f (S i) l else chosen f (S i) l
  end.

(** [a] is a subsequence of [b]. *)
Inductive subseq {A} : list A -> list A -> Prop :=
| sub_nil b : subseq [] b
| sub_take x a b : subseq a b -> subseq (x :: a) (x :: b)
| sub_skip x a b : subseq a b -> subseq a (x :: b).

(** * The drain thread *)
Fixpoint pushed_by (l : list dop) : list entry :=
  match l with [] => [] | DPush e :: l => e :: pushed_by l | _ :: l => pushed_by l end.
(** Whenever the thread reads the ring, no more than [cap] entries are waiting. *)
Definition keeps_up (cap : nat) (d : drain) (l : list dop) : Prop :=
  forall l1 l2, l = l1 ++ DRead :: l2 ->
  widx (d_mem (drained cap d l1)) <= d_last (drained cap d l1) + cap.
