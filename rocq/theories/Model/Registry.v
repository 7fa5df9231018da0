(** Topic registry: horus_net/src/registry.rs, fed by the topic lifecycle of
    horus_core/src/communication/topic/mod.rs through the hook in horus_net/src/lib.rs. *)
From Verif.Base Require Import Prelude Bytes AMap Str.
From Verif.Model Require Import Wire Reliability.
Local Open Scope N_scope.

(** registry.rs:24-29 *)
Inductive TopicRole := Publisher | Subscriber | Both.

(** registry.rs:33-41 *)
Definition role_merge (a b : TopicRole) : TopicRole :=
  match a, b with
  | Both, _ | _, Both => Both
  | Publisher, Subscriber | Subscriber, Publisher => Both
  | Publisher, Publisher => Publisher
  | Subscriber, Subscriber => Subscriber
  end.
(** registry.rs:44-62 *)
Definition role_remove (a r : TopicRole) : option TopicRole :=
  match a, r with
  | Both, Publisher => Some Subscriber
  | Both, Subscriber => Some Publisher
  | Both, Both => None
  | Publisher, Publisher => None
  | Subscriber, Subscriber => None
  | _, Both => None
  | e, _ => Some e
  end.
(** registry.rs:65-80 *)
Definition role_to_wire (r : TopicRole) : N := match r with Publisher => 1 | Subscriber => 2 | Both => 3 end.
(** registry.rs:72-79 *)
Definition role_from_wire (v : N) : option TopicRole :=
  if v =? 1 then Some Publisher else if v =? 2 then Some Subscriber else if v =? 3 then Some Both else None.

(** registry.rs:84-98; the name is the map key *)
Record TopicEntry := mkEntry {
  te_type_hash : N; te_type_size : N; te_role : TopicRole; te_pod : bool; te_system : bool }.
(** The map of registry.rs:130. *)
Definition Registry := list (bytes * TopicEntry).

(** registry.rs:145-171 [register] (the change callback is not modelled) *)
Definition register (reg : Registry) (name : bytes) (type_hash type_size : N) (role : TopicRole) (pod : bool) : Registry :=
  match lookup beqb name reg with
  | Some e => insert beqb name (mkEntry (te_type_hash e) (te_type_size e) (role_merge (te_role e) role)
                                        (te_pod e) (te_system e)) reg
  | None => insert beqb name (mkEntry type_hash type_size role pod (is_system_topic name)) reg
  end.
(** registry.rs:174-192 [unregister] *)
Definition unregister (reg : Registry) (name : bytes) (role : TopicRole) : Registry :=
  match lookup beqb name reg with
  | Some e =>
      match role_remove (te_role e) role with
      | Some r => insert beqb name (mkEntry (te_type_hash e) (te_type_size e) r (te_pod e) (te_system e)) reg
      | None => remove beqb name reg
      end
  | None => reg
  end.
(** registry.rs:207-223 *)
Definition has_subscribers (reg : Registry) (name : bytes) : bool :=
  match lookup beqb name reg with
  | Some e => match te_role e with Subscriber | Both => true | _ => false end
  | None => false
  end.
(** registry.rs:216-223 *)
Definition has_publishers (reg : Registry) (name : bytes) : bool :=
  match lookup beqb name reg with
  | Some e => match te_role e with Publisher | Both => true | _ => false end
  | None => false
  end.

(** The calls on the registry, as events. *)
Inductive gop :=
| GRegister (name : bytes) (type_hash type_size : N) (role : TopicRole) (pod : bool)
| GUnregister (name : bytes) (role : TopicRole).
(** One event of a history: applies the function above that the event names; no code of its own. *)
Definition gstep (reg : Registry) (o : gop) : Registry :=
  match o with
  | GRegister n th ts r p => register reg n th ts r p
  | GUnregister n r => unregister reg n r
  end.
(** A whole history, event by event; no code of its own. *)
Definition grun (h : list gop) : Registry := fold_left gstep h [].

(** topic/mod.rs:160-188: what a topic handle reports. *)
Inductive lifecycle :=
| Created (name : bytes) (type_hash type_size : N) (pod : bool)
| RoleObserved (name : bytes) (publisher : bool) (type_hash type_size : N) (pod : bool)
| Dropped (name : bytes).
(** lib.rs:61-110: the hook the network layer installs; topic/mod.rs:300-302 calls it for
    every event, whatever the live-handle count of topic/mod.rs:286-293 says. *)
Definition hook (reg : Registry) (e : lifecycle) : Registry :=
  match e with
  | Created n th ts p => register reg n th ts Subscriber p
  | RoleObserved n pub th ts p => register reg n th ts (if pub then Publisher else Subscriber) p
  | Dropped n => unregister reg n Both
  end.

(** Handles of one process, by number: topic/mod.rs:979 (open), 1299-1356 ([ensure_role]: the
    first send or receive of a handle reports its direction), 2587 (drop). *)
Record HandleState := mkHandle { hs_name : bytes; hs_th : N; hs_ts : N; hs_pod : bool; hs_sent : bool; hs_rcvd : bool }.
(** What happens to handles. *)
Inductive hev :=
| HOpen (h : N) (name : bytes) (type_hash type_size : N) (pod : bool)
| HSend (h : N)
| HRecv (h : N)
| HDrop (h : N).
(** topic/mod.rs:979, 1299-1356 and [Drop]: what a handle reports to the registry. *)
Definition hstep (hs : list (N * HandleState)) (e : hev) : list (N * HandleState) * list lifecycle :=
  match e with
  | HOpen h n th ts p => (insert N.eqb h (mkHandle n th ts p false false) hs, [Created n th ts p])
  | HSend h =>
      match lookup N.eqb h hs with
      | Some x => if hs_sent x then (hs, [])
                  else (insert N.eqb h (mkHandle (hs_name x) (hs_th x) (hs_ts x) (hs_pod x) true (hs_rcvd x)) hs,
                        [RoleObserved (hs_name x) true (hs_th x) (hs_ts x) (hs_pod x)])
      | None => (hs, [])
      end
  | HRecv h =>
      match lookup N.eqb h hs with
      | Some x => if hs_rcvd x then (hs, [])
                  else (insert N.eqb h (mkHandle (hs_name x) (hs_th x) (hs_ts x) (hs_pod x) (hs_sent x) true) hs,
                        [RoleObserved (hs_name x) false (hs_th x) (hs_ts x) (hs_pod x)])
      | None => (hs, [])
      end
  | HDrop h =>
      match lookup N.eqb h hs with
      | Some x => (remove N.eqb h hs, [Dropped (hs_name x)])
      | None => (hs, [])
      end
  end.
(** A whole history, event by event; no code of its own. *)
Fixpoint hrun (hs : list (N * HandleState)) (reg : Registry) (evs : list hev) : list (N * HandleState) * Registry :=
  match evs with
  | [] => (hs, reg)
  | e :: r => let '(hs1, out) := hstep hs e in hrun hs1 (fold_left hook out reg) r
  end.
