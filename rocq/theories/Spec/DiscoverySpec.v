(** Vocabulary for discovery: what a host declares, what an announcement must convey, who replicates
    what to whom, and the history of a peer. *)
From Coq Require Import Permutation.
From Verif.Base Require Import Prelude Bytes AMap Str.
From Verif.Model Require Import Wire Registry NetFilter LogEntry Discovery.
From Verif.Spec Require Import WireSpec.
Local Open Scope N_scope.

(** A topic that fits in an announcement entry. *)
Definition entry_wf (ne : bytes * TopicEntry) : Prop :=
  (length (fst ne) <= 63)%nat /\ bytes_ok (fst ne) /\ utf8 (fst ne) = true
  /\ u32 (te_type_hash (snd ne)) /\ u32 (te_type_size (snd ne)).
(** The local topics of a host: one entry per name. *)
Definition topics_wf (reg : Registry) : Prop := NoDup (keys reg) /\ Forall entry_wf reg.
Definition identity_wf (peer secret : bytes) (port : N) : Prop :=
  length peer = 16%nat /\ bytes_ok peer /\ length secret = 4%nat /\ bytes_ok secret /\ u16 port.

(** What the receiver must learn about a local topic. *)
Definition conveys (ne : bytes * TopicEntry) (w : WireTopic) : Prop :=
  wt_name w = fst ne /\ wt_hash w = te_type_hash (snd ne) /\ wt_size w = te_type_size (snd ne)
  /\ wt_role w = match te_role (snd ne) with Publisher => 1 | Subscriber => 2 | Both => 3 end
  /\ wt_pod w = (if te_pod (snd ne) then 1 else 0).

(** The host publishes (subscribes to) topic [t] carrying messages of the type with hash [h]. *)
Definition publishes (reg : Registry) (t : bytes) (h : N) : Prop :=
  exists e, In (t, e) reg /\ te_type_hash e = h /\ te_role e <> Subscriber.
Definition subscribes (reg : Registry) (t : bytes) (h : N) : Prop :=
  exists e, In (t, e) reg /\ te_type_hash e = h /\ te_role e <> Publisher.
Definition will_export (ms : list Match) (t : bytes) : Prop :=
  exists m, In m ms /\ ma_topic m = t /\ ma_export m = true.
Definition will_import (ms : list Match) (t : bytes) : Prop :=
  exists m, In m ms /\ ma_topic m = t /\ ma_import m = true.

(** ** The peer table *)
(** [p] was last heard of in [h] through [a] at time [t], and every liveness check since came within
    [timeout] of it. *)
Definition current (timeout : N) (p : bytes) (t : N) (a : Announcement) (h : list (N * pev)) : Prop :=
  exists h1 h2, h = h1 ++ (t, PAnnounce a) :: h2 /\ an_peer a = p
    /\ (forall t' a', In (t', PAnnounce a') h2 -> an_peer a' <> p)
    /\ (forall t', In (t', PLiveness) h2 -> t' - t <= timeout).
(** The peers ever heard of. *)
Definition few_peers (h : list (N * pev)) : Prop :=
  exists ids : list bytes, (length ids <= 256)%nat /\ forall t a, In (t, PAnnounce a) h -> In (an_peer a) ids.

(** A hash map may be walked in any order. *)
Definition some_order (order : Peers -> Peers) : Prop := forall s, Permutation (order s) s.

(** ** A replicator driven by discovery, over a fixed set of local topics *)
Inductive dev :=
| DAnnounce (a : Announcement)
| DLiveness.
Definition dstep (order : Peers -> Peers) (can_open : bytes -> bool) (timeout now : N) (reg : Registry) (e : dev) (d : Disc) : Disc :=
  match e with
  | DAnnounce a => on_announcement order can_open now reg a d
  | DLiveness => fst (on_liveness order can_open timeout now reg d)
  end.
Fixpoint drun (order : Peers -> Peers) (can_open : bytes -> bool) (timeout : N) (reg : Registry) (d : Disc) (h : list (N * dev)) : Disc :=
  match h with
  | [] => d
  | (t, e) :: r => drun order can_open timeout reg (dstep order can_open timeout t reg e d) r
  end.
Definition disc_start (me secret : bytes) : Disc := mkDisc me secret [] [] [].

(** A listed peer declares the topic with the given type in the given direction. *)
Definition peer_subscribes (s : Peers) (t : bytes) (h : N) : Prop :=
  exists id p w, In (id, p) s /\ pi_alive p = true /\ In w (pi_topics p)
    /\ wt_name w = t /\ wt_hash w = h /\ (wt_role w = 2 \/ wt_role w = 3).
Definition peer_publishes (s : Peers) (t : bytes) (h : N) : Prop :=
  exists id p w, In (id, p) s /\ pi_alive p = true /\ In w (pi_topics p)
    /\ wt_name w = t /\ wt_hash w = h /\ (wt_role w = 1 \/ wt_role w = 3).
