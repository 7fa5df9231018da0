(** Safety heartbeat: horus_net/src/heartbeat.rs.  Times are nanoseconds on a monotonic clock;
    the round-trip estimate and the sent packets' bytes are not modelled. *)
From Verif.Base Require Import Prelude Bytes AMap.
Local Open Scope N_scope.

(** heartbeat.rs:16-24 *)
Inductive LinkLostAction := LLWarn | LLSafeState | LLStop.
(** heartbeat.rs:39-63 (without missed_count and rtt_us, which nothing decides on) *)
Record PeerHb := mkPeerHb {
  hb_addr : N; hb_last_sent : N; hb_last_received : N; hb_first_seen : N;
  hb_ever : bool; hb_alive : bool; hb_fired : bool }.
(** heartbeat.rs:66-79 *)
Record HbConfig := mkHbConfig { hc_interval : N; hc_threshold : N; hc_action : LinkLostAction }.
(** heartbeat.rs:92 *)
Definition DISCOVERY_GRACE : N := 2000000000.
(** The map of heartbeat.rs:75. *)
Definition Hb := list (N * PeerHb).

(** heartbeat.rs:123-136 [add_peer]: [entry().or_insert] *)
Definition hb_add (cfg : HbConfig) (now : N) (peer addr : N) (s : Hb) : Hb :=
  match lookup N.eqb peer s with
  | Some _ => s
  | None => insert N.eqb peer (mkPeerHb addr (now - hc_interval cfg) now now false true false) s
  end.
(** heartbeat.rs:139-141 *)
Definition hb_remove (peer : N) (s : Hb) : Hb := remove N.eqb peer s.
(** heartbeat.rs:144-148 *)
Definition hb_update_addr (peer addr : N) (s : Hb) : Hb :=
  match lookup N.eqb peer s with
  | Some p => insert N.eqb peer (mkPeerHb addr (hb_last_sent p) (hb_last_received p) (hb_first_seen p)
                                          (hb_ever p) (hb_alive p) (hb_fired p)) s
  | None => s
  end.
(** heartbeat.rs:151-178 [on_received] *)
Definition hb_received (now : N) (peer : N) (s : Hb) : Hb :=
  match lookup N.eqb peer s with
  | Some p => insert N.eqb peer (mkPeerHb (hb_addr p) (hb_last_sent p) now (hb_first_seen p) true true
                                          (if hb_alive p then hb_fired p else false)) s
  | None => s
  end.
(** heartbeat.rs:199-259: one peer in [tick]; the result says whether a heartbeat goes out and
    whether the loss is reported.  [as u32] truncates. *)
Definition hb_tick_peer (cfg : HbConfig) (now : N) (p : PeerHb) : PeerHb * bool * bool :=
  let send := hc_interval cfg <=? now - hb_last_sent p in
  let last_sent := if send then now else hb_last_sent p in
  let since_last := now - hb_last_received p in
  let interval_ns := N.max (hc_interval cfg) 1 in
  let expected_count := N.max (since_last / interval_ns) 1 mod 2 ^ 32 in
  let introduced := hb_ever p || (DISCOVERY_GRACE <? now - hb_first_seen p) in
  if introduced && (hc_threshold cfg <=? expected_count) && hb_alive p then
    (mkPeerHb (hb_addr p) last_sent (hb_last_received p) (hb_first_seen p) (hb_ever p) false true,
     send, negb (hb_fired p))
  else
    (mkPeerHb (hb_addr p) last_sent (hb_last_received p) (hb_first_seen p) (hb_ever p) (hb_alive p) (hb_fired p),
     send, false).
(** heartbeat.rs:184-262 [tick]: the new state and the peers whose loss is reported *)
Definition hb_tick (cfg : HbConfig) (now : N) (s : Hb) : Hb * list N :=
  (map (fun kp => (fst kp, fst (fst (hb_tick_peer cfg now (snd kp))))) s,
   flat_map (fun kp => if snd (hb_tick_peer cfg now (snd kp)) then [fst kp] else []) s).

(** A history: each event carries the monotonic time at which it happens. *)
Inductive hbop :=
| HbAdd (peer addr : N)
| HbRemove (peer : N)
| HbHeard (peer : N)
| HbTick.
(** One event of a history: applies the function above that the event names; no code of its own. *)
Definition hb_step (cfg : HbConfig) (now : N) (o : hbop) (s : Hb) : Hb * list N :=
  match o with
  | HbAdd p a => (hb_add cfg now p a s, [])
  | HbRemove p => (hb_remove p s, [])
  | HbHeard p => (hb_received now p s, [])
  | HbTick => hb_tick cfg now s
  end.
(** The reports of each step of a history. *)
Fixpoint hb_run (cfg : HbConfig) (s : Hb) (h : list (N * hbop)) : Hb * list (list N) :=
  match h with
  | [] => (s, [])
  | (t, o) :: r => let '(s1, out) := hb_step cfg t o s in
                   let '(s2, outs) := hb_run cfg s1 r in (s2, out :: outs)
  end.
