(** Reliability layer: horus_net/src/reliability.rs, and the key cap of netfilter.rs. *)
From Coq Require Import String.
From Verif.Base Require Import Prelude Bytes AMap Str.
From Verif.Model Require Import Wire.
Local Open Scope N_scope.

(** [u32::wrapping_sub], [u32::wrapping_add] *)
Definition u32_wrapping_sub (a b : N) : N := (a + 2 ^ 32 - b) mod 2 ^ 32.
(** [u32::wrapping_add] *)
Definition u32_wrapping_add (a b : N) : N := (a + b) mod 2 ^ 32.
(** [u32::MAX / 2] *)
Definition U32_HALF : N := 2147483647.

(** netfilter.rs:301 *)
Definition MAX_TRACKED_KEYS : N := 4096.
(** netfilter.rs:319-336 [enforce_key_cap]: always lets the caller insert, clearing the map
    first when it is full.  The [warned] flag only guards a terminal line and is left out. *)
Definition enforce_key_cap {K V} (m : list (K * V)) : list (K * V) :=
  if N.of_nat (length m) <? MAX_TRACKED_KEYS then m else [].

(** registry.rs:101-103 *)
Definition SYSTEM_TOPIC_PRESENCE : bytes := bs "_horus.presence".
(** registry.rs:102 *)
Definition SYSTEM_TOPIC_LOGS : bytes := bs "_horus.logs".
(** registry.rs:103 *)
Definition SYSTEM_TOPIC_ESTOP : bytes := bs "_horus.estop".
(** registry.rs:110-114 *)
Definition is_system_topic_hash (h : N) : bool :=
  (h =? topic_hash SYSTEM_TOPIC_PRESENCE) || (h =? topic_hash SYSTEM_TOPIC_LOGS)
  || (h =? topic_hash SYSTEM_TOPIC_ESTOP).
(** registry.rs:117-119 *)
Definition is_system_topic (name : bytes) : bool :=
  beqb name SYSTEM_TOPIC_PRESENCE || beqb name SYSTEM_TOPIC_LOGS || beqb name SYSTEM_TOPIC_ESTOP.

(** reliability.rs:39: dedup state, keyed by (sender hash, topic hash) *)
Definition Dedup := list ((N * N) * N).

(** reliability.rs:120-132 [is_new_message] *)
Definition is_new_message (d : Dedup) (sender topic sequence : N) : Dedup * bool :=
  let key := (sender, topic) in
  let dup := match lookup pair_eqb key d with
             | Some last => (sequence <=? last) && (u32_wrapping_sub last sequence <? U32_HALF)
             | None => false
             end in
  if dup then (d, false) else (insert pair_eqb key sequence (enforce_key_cap d), true).

(** reliability.rs:135-162 [dedup_messages]: [Vec::retain] with the predicate above *)
Fixpoint dedup_messages (d : Dedup) (sender : N) (ms : list InMessage) : Dedup * list InMessage :=
  match ms with
  | [] => (d, [])
  | m :: r =>
      if is_system_topic_hash (om_topic m) then
        let '(d1, out) := dedup_messages d sender r in (d1, m :: out)
      else
        let '(d1, keep) := is_new_message d sender (om_topic m) (om_seq m) in
        let '(d2, out) := dedup_messages d1 sender r in
        (d2, if keep then m :: out else out)
  end.

(** The receive path calls [dedup_messages] once per data packet
    (replicator.rs:392): a history is a list of (sender hash, messages). *)
Fixpoint dedup_run (d : Dedup) (h : list (N * list InMessage)) : Dedup * list (N * list InMessage) :=
  match h with
  | [] => (d, [])
  | (s, ms) :: r =>
      let '(d1, out) := dedup_messages d s ms in
      let '(d2, outs) := dedup_run d1 r in (d2, (s, out) :: outs)
  end.

(** reliability.rs:54-60 [copies_for] *)
Definition copies_for (r : Reliability) : N :=
  match r with Latched => 3 | Redundant => 2 | RelNone => 1 end.

(** ** Latched messages.  Times are milliseconds of a monotonic clock. *)
(** reliability.rs:16-19 *)
Definition MAX_LATCH_RESENDS : N := 100.
(** reliability.rs:19, milliseconds *)
Definition LATCH_RESEND_INTERVAL : N := 10.
(** reliability.rs:23-29; topic and sequence are the map key *)
Record LatchedEntry := mkLatch { le_payload : bytes; le_resends : N; le_last_sent : N }.
(** The map of reliability.rs:34. *)
Definition Latches := list ((N * N) * LatchedEntry).

(** reliability.rs:68-80 *)
Definition start_latch (now : N) (st : Latches) (topic seq : N) (payload : bytes) : Latches :=
  insert pair_eqb (topic, seq) (mkLatch payload 0 now) st.
(** reliability.rs:83-86 *)
Definition on_ack (st : Latches) (topic seq : N) : Latches := remove pair_eqb (topic, seq) st.
(** reliability.rs:91-117; the subtraction is [Instant::duration_since], which saturates at
    zero, as [N] subtraction does *)
Definition latch_due (now : N) (e : LatchedEntry) : bool :=
  LATCH_RESEND_INTERVAL <=? now - le_last_sent e.
(** reliability.rs:91-117 [tick_resends] *)
Definition tick_resends (now : N) (st : Latches) : Latches * list ((N * N) * bytes) :=
  (flat_map (fun ke =>
     let '(k, e) := (ke : (N * N) * LatchedEntry) in
     if latch_due now e then
       if MAX_LATCH_RESENDS <=? le_resends e then []
       else [(k, mkLatch (le_payload e) (le_resends e + 1) now)]
     else [(k, e)]) st,
   flat_map (fun ke =>
     let '(k, e) := (ke : (N * N) * LatchedEntry) in
     if latch_due now e && negb (MAX_LATCH_RESENDS <=? le_resends e) then [(k, le_payload e)] else []) st).

(** What happens to the latch table over time. *)
Inductive lop :=
| LStart (now topic seq : N) (payload : bytes)
| LAck (topic seq : N)
| LTick (now : N).
(** One event of a history: applies the function above that the event names; no code of its own. *)
Definition lstep (st : Latches) (o : lop) : Latches * list ((N * N) * bytes) :=
  match o with
  | LStart now t s p => (start_latch now st t s p, [])
  | LAck t s => (on_ack st t s, [])
  | LTick now => tick_resends now st
  end.
(** Returns the final table and every resend with the tick time that caused it. *)
Fixpoint lrun (st : Latches) (h : list lop) : Latches * list (lop * list ((N * N) * bytes)) :=
  match h with
  | [] => (st, [])
  | o :: r => let '(st1, out) := lstep st o in
              let '(st2, outs) := lrun st1 r in (st2, (o, out) :: outs)
  end.
