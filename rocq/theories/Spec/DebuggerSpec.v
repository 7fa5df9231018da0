(** Vocabulary for comparing recordings and for the replay debugger. *)
From Coq Require Import String Sorting.Sorted.
From Verif.Base Require Import Prelude Bytes AMap Str.
From Verif.Model Require Import Recording Debugger.
From Verif.Spec Require Import RecordingSpec.
Local Open Scope N_scope.
Local Open Scope list_scope.

(** The ticks of the snapshots increase. *)
Definition increasing (r : Rec) : Prop :=
  forall i j s t, (i < j)%nat -> nth_error (r_snaps r) i = Some s -> nth_error (r_snaps r) j = Some t -> sn_tick s < sn_tick t.
(** A tick has one snapshot, a topic one output. *)
Definition distinct (r : Rec) : Prop := NoDup (map sn_tick (r_snaps r)) /\ forall s, In s (r_snaps r) -> NoDup (map fst (sn_out s)).
(** The recording names its first and last tick. *)
Definition truthful (r : Rec) : Prop := exists s t l m, r_snaps r = s :: l /\ r_snaps r = m ++ [t] /\ r_first r = sn_tick s /\ r_last r = sn_tick t.
(** The snapshot of a tick. *)
Definition has (r : Rec) (t : N) (s : Snap) : Prop := In s (r_snaps r) /\ sn_tick s = t.
(** The ticks that both recordings span. *)
Definition in_overlap (r1 r2 : Rec) (t : N) : Prop := r_first r1 <= t /\ r_first r2 <= t /\ t <= r_last r1 /\ t <= r_last r2.
(** The tick a difference is about. *)
Definition diff_at (d : Diff) : N := match d with OutputDifference t _ _ _ => t | MissingOutput t _ _ => t | MissingTick t _ => t end.
(** The outputs of two snapshots agree. *)
Definition same_outputs (s1 s2 : Snap) : Prop := forall topic data, In (topic, data) (sn_out s1) <-> In (topic, data) (sn_out s2).

(** The meaning of a breakpoint's condition at a snapshot that was reached from tick [prev]. *)
Inductive meets (mentions_error : bytes -> bool) (prev : N) (s : Snap) : Cond -> Prop :=
| m_at t : sn_tick s = t -> meets mentions_error prev s (AtTick t)
| m_equals t : sn_tick s = t -> meets mentions_error prev s (TickEquals t)
| m_data topic : In topic (map fst (sn_in s)) \/ In topic (map fst (sn_out s)) -> meets mentions_error prev s (TopicHasData topic)
| m_output topic pattern : lookup beqb topic (sn_out s) = Some pattern -> meets mentions_error prev s (OutputMatches topic pattern)
| m_error topic : In topic (map fst (sn_in s)) \/ In topic (map fst (sn_out s)) -> mentions_error topic = true -> meets mentions_error prev s OnError
| m_after n : prev + n <= sn_tick s -> meets mentions_error prev s (AfterTicks n)
| m_expr w v : evaluate w s = Some v -> meets mentions_error prev s (Expression w).
(** The position of a debugger, and its recording. *)
Definition pos (d : Dbg) : nat := rp_idx (d_rp d).
Definition snaps (d : Dbg) : list Snap := r_snaps (rp_rec (d_rp d)).
(** The debugger shows the tick of its position. *)
Definition synced (d : Dbg) : Prop := exists s, nth_error (snaps d) (pos d) = Some s /\ rp_tick (d_rp d) = sn_tick s.
(** A debugger that has not moved. *)
Definition fresh (d : Dbg) : Prop := d_rp d = replayer_new (rp_rec (d_rp d)).
(** Breakpoint [b] is enabled and met at position [j], later than that of [d], when the replay gets there. *)
Definition breaks (mentions_error : bytes -> bool) (d : Dbg) (j : nat) (b : Bp) : Prop :=
  (pos d < j)%nat /\ In b (d_bps d) /\ b_on b = true /\
  exists s prev, nth_error (snaps d) j = Some s /\
    (if (j =? S (pos d))%nat then prev = rp_tick (d_rp d) else exists s', nth_error (snaps d) (j - 1) = Some s' /\ prev = sn_tick s') /\
    meets mentions_error prev s (b_cond b).
(** The last thing told. *)
Definition told (d : Dbg) (e : event) : Prop := exists l, d_events d = l ++ [e].
