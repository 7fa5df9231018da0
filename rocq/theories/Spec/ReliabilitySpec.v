(** What de-duplication and latched retries mean, without the tables that implement them. *)
From Verif.Base Require Import Prelude Bytes.
From Verif.Model Require Import Wire Reliability.
Local Open Scope N_scope.

(** One arrival: which sender hash it came from, and the message. *)
Definition arrival := (N * InMessage)%type.
(** A packet history seen as the flat list of message arrivals. *)
Definition arrivals (h : list (N * list InMessage)) : list arrival :=
  flat_map (fun p => map (pair (fst p)) (snd p)) h.
Definition delivered (h : list (N * list InMessage)) : list arrival :=
  arrivals (snd (dedup_run [] h)).

Definition stream_of (a : arrival) : N * N := (fst a, om_topic (snd a)).
Definition seq_of (a : arrival) : N := om_seq (snd a).
Definition system (a : arrival) : bool := is_system_topic_hash (om_topic (snd a)).
Definition same_stream (a b : arrival) : bool :=
  (fst a =? fst b) && (om_topic (snd a) =? om_topic (snd b)).

(** The arrivals that are newer than everything that came before on the same stream. *)
Fixpoint keep_newest (seen l : list arrival) : list arrival :=
  match l with
  | [] => []
  | a :: r =>
      if system a || forallb (fun b => negb (same_stream b a) || (seq_of b <? seq_of a)) seen
      then a :: keep_newest (a :: seen) r
      else keep_newest (a :: seen) r
  end.

(** Fewer than 4096 (sender, topic) streams are in play. *)
Definition few_streams (l : list arrival) : Prop :=
  exists ks, N.of_nat (length ks) < 4096 /\ forall a, In a l -> In (stream_of a) ks.
(** On each stream, all sequence numbers lie within half the 32-bit range. *)
Definition half_window (l : list arrival) : Prop :=
  forall a b, In a l -> In b l -> stream_of a = stream_of b -> seq_of a < seq_of b + (2 ^ 31 - 1).
Definition u32_seqs (l : list arrival) : Prop := forall a, In a l -> seq_of a < 2 ^ 32.
Definition on_stream (k : N * N) (l : list arrival) : list arrival :=
  filter (fun a => (fst k =? fst a) && (snd k =? om_topic (snd a))) l.

(** Consecutive sequence numbers, wrapping at 2^32, starting at [s]. *)
Fixpoint consecutive (s : N) (l : list InMessage) : Prop :=
  match l with
  | [] => True
  | m :: r => om_seq m = s mod 2 ^ 32 /\ consecutive (s + 1) r
  end.

(** ** Latched messages *)
(** The times at which a run re-sends the message with this key, and with which payload. *)
Definition op_time (o : lop) : N := match o with LStart t _ _ _ => t | LTick t => t | LAck _ _ => 0 end.
Definition resends (k : N * N) (outs : list (lop * list ((N * N) * bytes))) : list (N * bytes) :=
  flat_map (fun p => map (fun x => (op_time (fst p), snd x))
                         (filter (fun x => (fst (fst x) =? fst k) && (snd (fst x) =? snd k)) (snd p))) outs.
Definition starts (k : N * N) (o : lop) : bool :=
  match o with LStart _ t s _ => (t =? fst k) && (s =? snd k) | _ => false end.
Definition acks (k : N * N) (o : lop) : bool :=
  match o with LAck t s => (t =? fst k) && (s =? snd k) | _ => false end.
(** Re-sends begin at least [gap] after [t0] and are at least [gap] apart. *)
Fixpoint spaced (gap t0 : N) (ts : list N) : Prop :=
  match ts with [] => True | t :: r => t0 + gap <= t /\ spaced gap t r end.
(** The re-sends a latched message [p] should get from the operations that follow its start:
    one at each timer tick at least 10 ms after the previous transmission, until the 100th or
    until the acknowledgement. *)
Fixpoint expected_resends (k : N * N) (p : bytes) (last sent : N) (ops : list lop) : list (N * bytes) :=
  match ops with
  | [] => []
  | LTick t :: r =>
      if (sent <? 100) && (last + 10 <=? t) then (t, p) :: expected_resends k p t (sent + 1) r
      else expected_resends k p last sent r
  | o :: r => if acks k o then [] else expected_resends k p last sent r
  end.
