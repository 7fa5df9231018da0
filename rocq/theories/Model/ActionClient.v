(** The action client beside an action server.  Models
    horus_core/src/actions/client.rs on top of Model/Action.v. *)
From Verif Require Import Base.Prelude Model.Action.

(** [GoalStatus] as a handle shows it; [Pending] is the value before any news
    (client.rs:74-86). *)
Inductive cstatus := Pending | Told (s : gstatus).
(** Is a shown status final: [is_terminal], types.rs:102-111. *)
Definition over_ (c : cstatus) : bool := match c with Pending => false | Told s => terminal s end.

(** [ClientGoalState], client.rs:60-72.  A result's payload is left out, its
    status stands for it; [fbs] are the feedback messages taken, oldest first
    ([last_feedback] and [feedback_count]). *)
Record gst := { st : cstatus; res : option gstatus; fbs : list N; upd : N; counted : bool }.
(** [ClientGoalState::new], client.rs:74-86. *)
Definition fresh_gst (t : N) : gst := {| st := Pending; res := None; fbs := []; upd := t; counted := false |}.

(** The loop of [process_messages] (387-413) a pumping thread is in. *)
Inductive phase := PStatus | PFeedback | PResult.
(** [ActionClientInner] (271-296) with its five topics, taken as lossless FIFO
    queues.  [goals] are the shared states the handles point at, [mapped] the keys
    of the [goals] map; [pumping] is the holder of [pump_lock], where it is and
    when it began.  [m_ok], [m_failed]: the node's counters (612-621). *)
Record client := {
  goals : N -> option gst; mapped : list N;
  q_s : list (N * gstatus); q_f : list (N * N); q_r : list (N * gstatus);
  pumping : option (nat * phase * N); m_ok : nat; m_failed : nat }.
(** A client just created: no goals, empty topics. *)
Definition c_start : client :=
  {| goals := fun _ => None; mapped := []; q_s := []; q_f := []; q_r := []; pumping := None;
     m_ok := 0; m_failed := 0 |}.

(** Auxiliary: [HashMap::insert]. *)
Definition put (f : N -> option gst) (id : N) (g : gst) : N -> option gst :=
  fun i => if (i =? id)%N then Some g else f i.
(** Auxiliary: [HashMap::contains_key]. *)
Definition is_mapped (c : client) (id : N) : bool := existsb (N.eqb id) (mapped c).
(** Auxiliary: [HashMap::remove]. *)
Definition unmap (id : N) (l : list N) : list N := filter (fun i => negb (i =? id)%N) l.
(** Auxiliary: assignment to one field, where the code assigns to it in place. *)
Definition with_goals (c : client) (f : N -> option gst) (m : list N) : client :=
  {| goals := f; mapped := m; q_s := q_s c; q_f := q_f c; q_r := q_r c; pumping := pumping c;
     m_ok := m_ok c; m_failed := m_failed c |}.
(** Auxiliary: assignment to one field, where the code assigns to it in place. *)
Definition with_queues (c : client) (a : list (N * gstatus)) (b : list (N * N)) (r : list (N * gstatus)) : client :=
  {| goals := goals c; mapped := mapped c; q_s := a; q_f := b; q_r := r; pumping := pumping c;
     m_ok := m_ok c; m_failed := m_failed c |}.
(** Auxiliary: assignment to one field, where the code assigns to it in place. *)
Definition with_pump (c : client) (p : option (nat * phase * N)) : client :=
  {| goals := goals c; mapped := mapped c; q_s := q_s c; q_f := q_f c; q_r := q_r c; pumping := p;
     m_ok := m_ok c; m_failed := m_failed c |}.

(** [register_goal], 513-517. *)
Definition register (c : client) (t : N) (id : N) : client :=
  with_goals c (put (goals c) id (fresh_gst t)) (id :: unmap id (mapped c)).

(** [TERMINAL_GRACE], 504, in milliseconds. *)
Definition grace : N := 30000.
(** [sweep_stale_terminal_goals], 503-510. *)
Definition stale (c : client) (t : N) (id : N) : bool :=
  match goals c id with Some g => over_ (st g) && (grace <? t - upd g)%N | None => false end.
(** [sweep_stale_terminal_goals], 503-510, over every goal. *)
Definition sweep (c : client) (t : N) : client :=
  with_goals c (goals c) (filter (fun id => negb (stale c t id)) (mapped c)).
(** [handle_status_update], 417-453; the user's callback is left out. *)
Definition on_status (c : client) (t : N) (id : N) (s : gstatus) : client :=
  let c :=
    if is_mapped c id then
      match goals c id with
      | Some g => with_goals c (put (goals c) id {| st := Told s; res := res g; fbs := fbs g; upd := t;
                                                    counted := counted g |}) (mapped c)
      | None => c
      end
    else c in
  let c := match s with Rejected => with_goals c (goals c) (unmap id (mapped c)) | _ => c end in
  sweep c t.
(** [handle_feedback], 456-469. *)
Definition on_feedback (c : client) (t : N) (id x : N) : client :=
  if is_mapped c id then
    match goals c id with
    | Some g => with_goals c (put (goals c) id {| st := st g; res := res g; fbs := fbs g ++ [x]; upd := t;
                                                  counted := counted g |}) (mapped c)
    | None => c
    end
  else c.
(** [handle_result], 472-494. *)
Definition on_result (c : client) (t : N) (id : N) (s : gstatus) : client :=
  let c :=
    if is_mapped c id then
      match goals c id with
      | Some g => with_goals c (put (goals c) id {| st := Told s; res := Some s; fbs := fbs g; upd := t;
                                                    counted := counted g |}) (mapped c)
      | None => c
      end
    else c in
  if terminal s then with_goals c (goals c) (unmap id (mapped c)) else c.

(** One step of [process_messages], 388-414, by thread [u]: take the lock, handle
    one message, or go on to the next topic.  A thread that finds the lock held
    waits. *)
Definition pump (c : client) (t : N) (u : nat) : client :=
  match pumping c with
  | None => with_pump c (Some (u, PStatus, t))
  | Some (v, p, t0) =>
      if u =? v then
        match p with
        | PStatus =>
            match q_s c with
            | (id, s) :: r => on_status (with_queues c r (q_f c) (q_r c)) t id s
            | [] => with_pump c (Some (u, PFeedback, t0))
            end
        | PFeedback =>
            match q_f c with
            | (id, x) :: r => on_feedback (with_queues c (q_s c) r (q_r c)) t id x
            | [] => with_pump c (Some (u, PResult, t0))
            end
        | PResult =>
            match q_r c with
            | (id, s) :: r => on_result (with_queues c (q_s c) (q_f c) r) t id s
            | [] => with_pump c None
            end
        end
      else c
  end.

(** The counting loop of [tick], 768-780; it comes after the thread's own pump. *)
Definition uncounted (c : client) (ok : bool) (id : N) : bool :=
  match goals c id with
  | Some g => over_ (st g) && negb (counted g)
              && Bool.eqb ok (match st g with Told Succeeded => true | _ => false end)
  | None => false
  end.
(** The counting loop of [tick], 768-780, over every goal. *)
Definition count_all (c : client) : client :=
  {| goals := fun id => match goals c id with
                        | Some g => if existsb (N.eqb id) (mapped c) && over_ (st g)
                                    then Some {| st := st g; res := res g; fbs := fbs g; upd := upd g; counted := true |}
                                    else Some g
                        | None => None
                        end;
     mapped := mapped c; q_s := q_s c; q_f := q_f c; q_r := q_r c; pumping := pumping c;
     m_ok := m_ok c + length (filter (uncounted c true) (mapped c));
     m_failed := m_failed c + length (filter (uncounted c false) (mapped c)) |}.
(** [tick]'s counting, by one user thread. *)
Definition tick_count (c : client) (u : nat) : client :=
  match pumping c with
  | Some (v, _, _) => if u =? v then c else count_all c
  | None => count_all c
  end.

(** The test of [await_result], 176-178, after the thread's own pump: [None] is
    "not done, keep waiting", [Some r] is "return [r]". *)
Definition poll (c : client) (id : N) : option (option gstatus) :=
  match goals c id with
  | Some g => if over_ (st g) then Some (res g) else None
  | None => None
  end.
(** The feedback test of [await_result_with_feedback], 204-212: what the caller's
    closure is called with, when [seen] messages were counted last time. *)
Definition poll_feedback (c : client) (id : N) (seen : nat) : list N :=
  match goals c id with
  | Some g => if seen <? length (fbs g) then [last (fbs g) 0%N] else []
  | None => []
  end.

(** ** Client, server and the topics between them *)
Record sys := { srvr : srv; cl : client; reqs : list req }.
(** Client and server just started. *)
Definition s_start : sys := {| srvr := start; cl := c_start; reqs := [] |}.

(** What a server step published, by topic. *)
Definition stats (l : list msg) : list (N * gstatus) :=
  flat_map (fun m => match m with MStatus i s => [(i, s)] | _ => [] end) l.
(** The feedback a server step published. *)
Definition feeds (l : list msg) : list (N * N) :=
  flat_map (fun m => match m with MFeedback i x => [(i, x)] | _ => [] end) l.
(** The results a server step published. *)
Definition ress (l : list msg) : list (N * gstatus) :=
  flat_map (fun m => match m with MResult i s => [(i, s)] | _ => [] end) l.

(** What can happen in the composed system. *)
Inductive cop :=
| Send (r : req)        (* [send_goal_with_priority], 662-679: request, then registration *)
| Submit (r : req)      (* its first half (663), or another client's request *)
| Register (id : N)     (* its second half (664) *)
| Take                  (* the server receives the next request *)
| Srv (o : op)          (* anything else the server does *)
| Pump (u : nat) | Count (u : nat).

Section Sys.
(** The server's step, [Action.step] for some configuration. *)
Variable srv_step : srv -> op -> option srv.

(** A server step and the messages it puts on the topics. *)
Definition by_server (w : sys) (o : op) (q : list req) : option sys :=
  match srv_step (srvr w) o with
  | None => None
  | Some s' =>
      let l := skipn (length (out (srvr w))) (out s') in
      Some {| srvr := s';
              cl := with_queues (cl w) (q_s (cl w) ++ stats l) (q_f (cl w) ++ feeds l) (q_r (cl w) ++ ress l);
              reqs := q |}
  end.
(** One event of a history: applies the function above that the event names; no code of its own. *)
Definition cstep (w : sys) (o : cop) : option sys :=
  let t := now (srvr w) in
  let client c := Some {| srvr := srvr w; cl := c; reqs := reqs w |} in
  match o with
  | Send r => Some {| srvr := srvr w; cl := register (cl w) t (r_id r); reqs := reqs w ++ [r] |}
  | Submit r => Some {| srvr := srvr w; cl := cl w; reqs := reqs w ++ [r] |}
  | Register id => client (register (cl w) t id)
  | Take => match reqs w with
            | [] => Some w
            | r :: q => by_server w (Goal r) q
            end
  | Srv (Goal _) => Some w
  | Srv o => by_server w o (reqs w)
  | Pump u => client (pump (cl w) t u)
  | Count u => client (tick_count (cl w) u)
  end.
(** A whole history, event by event; no code of its own. *)
Fixpoint crun (w : sys) (ops : list cop) : option sys :=
  match ops with
  | [] => Some w
  | o :: ops => match cstep w o with Some w => crun w ops | None => None end
  end.
End Sys.
