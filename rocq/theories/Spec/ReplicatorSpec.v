(** What is visible of a replicator from outside, and what a datagram carries. *)
From Verif.Base Require Import Prelude Bytes AMap Str.
From Verif.Model Require Import Wire Registry NetFilter Guard Estop Discovery Replicator.
From Verif.Spec Require Import WireSpec EstopSpec.
Open Scope N_scope.

(** Messages written into local topics. *)
Definition writes (out : list reff) : list (bytes * bytes) :=
  flat_map (fun e => match e with RWrite t p => [(t, p)] | _ => [] end) out.
(** Datagrams sent, and those sent to one address. *)
Definition sends (out : list reff) : list (Addr * bytes) :=
  flat_map (fun e => match e with RSend a p => [(a, p)] | _ => [] end) out.
Definition addr_eqb (a b : Addr) : bool := ip_eqb (fst a) (fst b) && (snd a =? snd b).
Definition sent_to (a : Addr) (out : list reff) : list bytes :=
  map snd (filter (fun x => addr_eqb (fst x) a) (sends out)).
(** Messages taken out of datagrams. *)
Definition taken (out : list reff) : list InMessage :=
  flat_map (fun e => match e with RTaken m => [m] | _ => [] end) out.
(** Calls of the scheduler's emergency stop. *)
Definition halts (out : list reff) : list (N * bytes) :=
  flat_map (fun e => match e with RHalt h r => [(h, r)] | _ => [] end) out.

(** The datagram [buf] has message [m] in its message area. *)
Definition carries (buf : bytes) (m : InMessage) : Prop := exists ms, message_area (skipn 12 buf) ms /\ In m ms.
(** The event is a datagram from an address that the filter does not admit. *)
Definition from_outside (f : PeerFilter) (e : rev) : bool :=
  match e with EvPacket from _ => negb (admits f (fst from)) | _ => false end.
(** What a run leaves behind: the state and all effects in order. *)
Definition outcome (x : option (Repl * list (list reff))) : option (Repl * list reff) :=
  option_map (fun y => (fst y, concat (snd y))) x.

(** No other writer of the host is reached by this topic's hash. *)
Definition only_writer (writers : list bytes) (t : bytes) : Prop :=
  In t writers /\ forall u, In u writers -> topic_hash u = topic_hash t -> u = t.
(** The first peer listed under the IP address of [from] announced the topic with type [h]. *)
Definition announced_type (peers : Peers) (from : Addr) (t : bytes) (h : N) : Prop :=
  exists before k p after tops w tops',
    peers = before ++ (k, p) :: after /\ fst (pi_addr p) = fst from /\ (forall kp, In kp before -> fst (pi_addr (snd kp)) <> fst from) /\
    pi_topics p = tops ++ w :: tops' /\ wt_name w = t /\ wt_hash w = h /\ (forall w', In w' tops -> wt_name w' <> t).
(** That type is another than the one in use here (0 stands for an unknown type). *)
Definition types_differ (reg : Registry) (peers : Peers) (from : Addr) (t : bytes) : Prop :=
  exists e h, lookup beqb t reg = Some e /\ announced_type peers from t h /\
              te_type_hash e <> 0 /\ h <> 0 /\ te_type_hash e <> h.
(** A message on a reserved topic. *)
Definition on_reserved (m : InMessage) : Prop :=
  om_topic m = 805275802 \/ om_topic m = 2991736696 \/ om_topic m = 3040766866.

(** The message is an emergency stop made by a holder of the key. *)
Definition genuine_stop (key : option bytes) (m : InMessage) : bool :=
  (om_topic m =? 3040766866) && estop_packet_is_authentic key (om_payload m).
(** How many genuine stops were taken out of datagrams. *)
Definition stops_taken (key : option bytes) (out : list reff) : nat := length (filter (genuine_stop key) (taken out)).

(** Everything that came in over a socket so far. *)
Definition arrived (evs : list sev) : list bytes :=
  flat_map (fun e => match e with SArrive d => [d] | SStep => [] end) evs.
(** At no moment were more than 256 datagrams waiting. *)
Definition never_crowded (evs : list sev) : Prop :=
  forall k, (length (so_queue (sock_run (firstn k evs))) <= 256)%nat.

(** The receiver has taken nothing from this sender on this topic, or only smaller sequence numbers. *)
Definition unseen (r : Repl) (sender topic sequence : N) : Prop :=
  match lookup pair_eqb (sender, topic) (r_dedup r) with Some last => last < sequence | None => True end.
(** The local topic has a message that this replicator has not exported yet: its index, bytes and encoding. *)
Definition new_message (r : Repl) (tap : bytes -> option (N * bytes * Encoding)) (t : bytes) (idx : N) (p : bytes) (e : Encoding) : Prop :=
  tap t = Some (idx, p, e) /\ idx <> 0 /\ lookup beqb t (r_last r) <> Some idx.
(** A peer that is up and announced that it subscribes to the topic. *)
Definition subscriber (peers : Peers) (t : bytes) (key : bytes) (p : PeerInfo) : Prop :=
  In (key, p) peers /\ pi_alive p = true /\ exists w, In w (pi_topics p) /\ wt_name w = t /\ (wt_role w = 2 \/ wt_role w = 3).
(** The message as it is put on the wire: urgent (sent three times until acknowledged) when the topic's name says so. *)
Definition urgent_name (t : bytes) : bool := match infer_from_topic t with Immediate => true | _ => false end.
Definition wire_message (t p : bytes) (idx : N) (e : Encoding) : OutMessage :=
  if urgent_name t then mkOut (topic_hash t) p 0 (idx mod 2 ^ 32) Immediate Latched e
  else mkOut (topic_hash t) p 0 (idx mod 2 ^ 32) (if 65536 <? N.of_nat (length p) then Bulk else Normal) RelNone e.
Definition times_to_send (t : bytes) : nat := if urgent_name t then 3 else 1.
(** Datagrams that all come from one address at the given times. *)
Definition all_from (from : Addr) (reg : Registry) (l : list (Clock * bytes)) : list (Clock * Registry * rev) :=
  map (fun x => (fst x, reg, EvPacket from (snd x))) l.
