(** Flow control: horus_net/src/flow_control.rs, and its use in replicator.rs:667-671. *)
From Verif.Base Require Import Prelude Bytes AMap.
From Verif.Model Require Import Wire Reliability.
Local Open Scope N_scope.

(** flow_control.rs:12, in milliseconds *)
Definition WINDOW_DURATION : N := 1000.
(** flow_control.rs:16-25 *)
Inductive SendRate := Full | Half | Quarter | KeyframeOnly.
(** flow_control.rs:44-49 *)
Record RecvState := mkRecv { rs_last : N; rs_gaps : N; rs_total : N; rs_window : N }.
(** The map of flow_control.rs:76, keyed by peer and topic. *)
Definition FlowState := list ((N * N) * RecvState).

(** flow_control.rs:27-39 [from_loss] composed with flow_control.rs:61-67 [loss_rate].
    Simplification: the code divides two [f32] and compares with [f32] constants; here the
    comparison gaps/total < 1/100 (1/20, 1/5) is made exactly, by cross-multiplication. *)
Definition rate_of (gaps total : N) : SendRate :=
  if (total =? 0) || (100 * gaps <? total) then Full
  else if 20 * gaps <? total then Half
  else if 5 * gaps <? total then Quarter
  else KeyframeOnly.

(** u32 addition that reports overflow: a panic in a debug build, a wrap in release. *)
Definition u32_checked_add (a b : N) : option N := if a + b <? 2 ^ 32 then Some (a + b) else None.

(** flow_control.rs:90-119 [on_received]; [None] is an arithmetic overflow of a counter. *)
Definition on_received (now : N) (st : FlowState) (peer topic sequence : N) : option FlowState :=
  let key := (peer, topic) in
  match lookup pair_eqb key st with
  | Some s =>
      let s := if WINDOW_DURATION <=? now - rs_window s then mkRecv (rs_last s) 0 0 now else s in
      match u32_checked_add (rs_total s) 1 with
      | None => None
      | Some total =>
          let expected := u32_wrapping_add (rs_last s) 1 in
          let gap := (expected <? sequence) && (u32_wrapping_sub sequence expected <? U32_HALF) in
          match (if gap then u32_checked_add (rs_gaps s) (u32_wrapping_sub sequence expected)
                 else Some (rs_gaps s)) with
          | None => None
          | Some gaps =>
              let last := if (rs_last s <? sequence) || (U32_HALF <? u32_wrapping_sub (rs_last s) sequence)
                          then sequence else rs_last s in
              Some (insert pair_eqb key (mkRecv last gaps total (rs_window s)) st)
          end
      end
  | None => Some (insert pair_eqb key (mkRecv sequence 0 1 now) (enforce_key_cap st))
  end.

(** flow_control.rs:144-157 [should_send] *)
Definition rate_for (st : FlowState) (peer topic : N) : SendRate :=
  match lookup pair_eqb (peer, topic) st with
  | Some s => rate_of (rs_gaps s) (rs_total s)
  | None => Full
  end.
(** [total] of the entry, 0 if none, flow_control.rs:148-149. *)
Definition total_for (st : FlowState) (peer topic : N) : N :=
  match lookup pair_eqb (peer, topic) st with Some s => rs_total s | None => 0 end.
(** [should_send], flow_control.rs:144-157. *)
Definition should_send (st : FlowState) (peer topic : N) : bool :=
  let total := total_for st peer topic in
  match rate_for st peer topic with
  | Full => true
  | Half => total mod 2 =? 0
  | Quarter => total mod 4 =? 0
  | KeyframeOnly => total mod 100 =? 0
  end.

(** replicator.rs:667-671: the decision to transmit one copy to one subscriber *)
Definition transmit_allowed (st : FlowState) (prio : Priority) (peer topic : N) : bool :=
  match prio with
  | Immediate | RealTime => true
  | _ => should_send st peer topic
  end.

(** The receptions and transmissions one replicator performs. *)
Inductive fop :=
| FRecv (now peer topic sequence : N)
| FSend (prio : Priority) (peer topic : N).
(** [None]: overflow.  The list holds one boolean per [FSend]. *)
Fixpoint frun (st : FlowState) (ops : list fop) : option (FlowState * list bool) :=
  match ops with
  | [] => Some (st, [])
  | FRecv now p t s :: r => match on_received now st p t s with
                            | Some st1 => frun st1 r
                            | None => None
                            end
  | FSend prio p t :: r => match frun st r with
                           | Some (st1, out) => Some (st1, transmit_allowed st prio p t :: out)
                           | None => None
                           end
  end.
