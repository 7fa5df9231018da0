(** Specification vocabulary for a topic that several programs share as a file.  It says nothing about bytes or slots. *)
From Verif.Base Require Import Prelude Bytes.
From Verif.Model Require Import TopicFile.

(** What a queue of at most [cap] pending messages delivers; [None] when a message arrives while [cap] are pending. *)
Fixpoint queue (cap : nat) (pending : list bytes) (h : list iev) : option (list bytes) :=
  match h with
  | [] => Some []
  | Import m :: r => if (length pending <? cap)%nat then queue cap (pending ++ [m]) r else None
  | Recv :: r =>
      match pending with
      | [] => queue cap [] r
      | m :: q => match queue cap q r with Some out => Some (m :: out) | None => None end
      end
  end.
Definition imported (h : list iev) : list bytes := flat_map (fun e => match e with Import m => [m] | Recv => [] end) h.
(** The messages published on a topic by [send] and by [try_send]. *)
Definition sent (h : list lev) : list bytes := flat_map (fun e => match e with LSend m | LTry m => [m] | LRecv => [] end) h.
Definition uses_send (h : list lev) : Prop := forall m, ~ In (LTry m) h.
(** No call was refused for want of room. *)
Definition none_dropped (h : list lev) (oks : list bool) : Prop :=
  forall k m, nth_error h k = Some (LSend m) -> nth_error oks k = Some true.
(** Messages number [a]+1 to [b] of [l]. *)
Definition messages (l : list bytes) (a b : nat) : list bytes := firstn (b - a) (skipn a l).

(** The contents of a topic at successive moments: it only ever gets new messages, at most [n] from one moment to the next. *)
Fixpoint paced (n : nat) (l : list bytes) (ls : list (list bytes)) : Prop :=
  match ls with
  | [] => True
  | l' :: r => (exists new, l' = l ++ new /\ (length new <= n)%nat) /\ paced n l' r
  end.

Open Scope N_scope.
(** The header describes a ring of plain messages with this writer's geometry, inside the file. *)
Record geom (w : RingWriter) (f : TF) : Prop := mkGeom {
  g_pod : w_pod w = true; g_cap : is_power_of_two (w_cap w) = true; g_mask : w_mask w = w_cap w - 1; g_type : w_type w <> 0;
  g_len : required_region_len (w_cap w) (w_type w) <= t_len f;
  g_magic : word 0 8 f = TOPIC_MAGIC; g_wtype : word OFF_TYPE_SIZE 4 f = w_type w; g_wpod : word OFF_IS_POD 1 f = POD_YES;
  g_wcap : word OFF_CAP 4 f = w_cap w; g_wmask : word OFF_MASK 4 f = w_mask w }.
(** The file holds the messages [l], the newest last: as far as the ring goes, each in its slot with its stamp. *)
Record holds (w : RingWriter) (f : TF) (l : list bytes) : Prop := mkHolds {
  h_geom : geom w f; h_small : N.of_nat (length l) < 2 ^ 63; h_head : word OFF_HEAD 8 f = N.of_nat (length l);
  h_slots : forall k, (k < length l)%nat -> N.of_nat (length l) <= N.of_nat k + w_cap w ->
    peek (data_slot_offset (w_cap w) (N.of_nat k mod w_cap w) (w_type w)) (N.to_nat (w_type w)) f = nth k l [] /\
    word (seq_slot_offset (N.of_nat k mod w_cap w)) 8 f = N.of_nat k + 1 }.
(** ... and says how many messages there were. *)
Definition current (w : RingWriter) (f : TF) (l : list bytes) : Prop := holds w f l /\ word OFF_TOTAL 8 f = N.of_nat (length l).
(** The bytes an import may change: the counters, and the slot that is next with its stamp. *)
Definition import_area (w : RingWriter) (f : TF) (i : N) : Prop :=
  let k := word OFF_HEAD 8 f mod w_cap w in let stride := if w_pod w then w_type w else w_slot w in
  (OFF_TOTAL <= i < OFF_CAP) \/ (w_pod w = true /\ seq_slot_offset k <= i < seq_slot_offset (k + 1)) \/
  (data_slot_offset (w_cap w) k stride <= i < data_slot_offset (w_cap w) (k + 1) stride).
