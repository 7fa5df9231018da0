(** A node of the main loop and its watchdog: which cycles tick it, when the
    watchdog is fed, what a late watchdog does to the node.
    Models horus_core/src/scheduling/scheduler/mod.rs:2835-2850 (the loop),
    4260-4275 (feeding before a tick), 4543-4568 (after a tick) and 3212-3330
    (the check after every cycle), for nodes without budget or deadline, which
    have no degradation ladder (its states are in Model/Safety.v).  The gate is
    [Gate.main] of Model/ExecLoop.v and the watchdog [Wd] of Model/Safety.v.
    Not modelled here: the other nodes, and what ends the loop after an
    emergency stop. *)
From Verif Require Import Base.Prelude Model.Safety Model.ExecLoop.
Local Open Scope N_scope.

(** One cycle as the node sees it: what the gate finds; when the watchdog is fed
    before the tick; how the tick ended; when it is fed on recovery; when the
    watchdogs are checked. *)
Record cycle := { c_env : Gate.env; c_feed : N; c_ok : bool; c_again : N; c_check : N }.

(** The node with its watchdog; whether the emergency stop was set off for it;
    how often it was put into its safe state. *)
Record st := { nd : Gate.node; wd : Wd.t; estop : bool; safed : nat }.

(** [health_state.store], mod.rs:3257, 3268, 3277, 4561. *)
Definition set_hp (n : Gate.node) (h : Gate.health) : Gate.node :=
  {| Gate.init := Gate.init n; Gate.stopped := Gate.stopped n; Gate.skip := Gate.skip n;
     Gate.hp := h; Gate.probe := Gate.probe n |}.

(** After a successful tick, mod.rs:4555-4568. *)
Definition recover (n : Gate.node) (w : Wd.t) (again : N) : Gate.node * Wd.t :=
  match Gate.hp n with
  | Gate.Warning => (set_hp n Gate.Healthy, Wd.feed w again)
  | _ => (n, w)
  end.

(** The transition for a late watchdog, mod.rs:3249-3303 (safing does not panic
    here), and the emergency stop of safety_monitor.rs:911-926: a node with a
    watchdog is registered as critical (mod.rs:1344-1354). *)
Definition react (s : st) (v : Wd.severity) : st :=
  match v with
  | Wd.Ok => s
  | Wd.Warning =>
      match Gate.hp (nd s) with
      | Gate.Healthy => {| nd := set_hp (nd s) Gate.Warning; wd := wd s; estop := estop s; safed := safed s |}
      | _ => s
      end
  | Wd.Expired =>
      match Gate.hp (nd s) with
      | Gate.Unhealthy | Gate.Isolated => s
      | _ => {| nd := set_hp (nd s) Gate.Unhealthy; wd := wd s; estop := estop s; safed := safed s |}
      end
  | Wd.Critical =>
      match Gate.hp (nd s) with
      | Gate.Isolated => {| nd := nd s; wd := wd s; estop := true; safed := safed s |}
      | _ => {| nd := set_hp (nd s) Gate.Isolated; wd := wd s; estop := true; safed := S (safed s) |}
      end
  end.

(** One cycle, mod.rs:2840-2844; also says whether the node was ticked. *)
Definition one (s : st) (c : cycle) : bool * st :=
  let '(b, n1) := Gate.main (nd s) (c_env c) in
  let w1 := if b then Wd.feed (wd s) (c_feed c) else wd s in
  let '(n2, w2) := if b && c_ok c then recover n1 w1 (c_again c) else (n1, w1) in
  let '(w3, v) := Wd.check w2 (c_check c) in
  (b, react {| nd := n2; wd := w3; estop := estop s; safed := safed s |} v).

(** Cycles one after the other, with the ticks (the loop of mod.rs:2835-2850). *)
Fixpoint cycles (s : st) (cs : list cycle) : list bool * st :=
  match cs with
  | [] => ([], s)
  | c :: r => let '(b, s1) := one s c in let '(l, s2) := cycles s1 r in (b :: l, s2)
  end.
