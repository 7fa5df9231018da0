(** What the action client promises, in terms of handles and server messages. *)
From Verif Require Import Base.Prelude Model.Action Spec.ActionSpec Model.ActionClient.

(** The system of one client beside the server [w]. *)
Definition serve (w : world) : srv -> op -> option srv :=
  step (w_cfg w) (w_wants w) (w_cancel w) (w_exec w) (w_spawns w) (w_order w).
Definition between (w : world) (a : sys) (ops : list cop) : option sys := crun (serve w) a ops.
Definition reached (w : world) (ops : list cop) : option sys := between w s_start ops.

(** Ids of all requests put on the goal topic. *)
Definition submitted (ops : list cop) : list N :=
  flat_map (fun o => match o with Send r | Submit r => [r_id r] | _ => [] end) ops.
(** Nobody pumps between a request and its registration. *)
Definition unsplit (ops : list cop) : Prop := forall id, ~ In (Register id) ops.
Definition stays_up (ops : list cop) : Prop := ~ In (Srv Shutdown) ops.
(** All pumping and counting is done by one thread. *)
Definition one_thread (u : nat) (ops : list cop) : Prop :=
  forall v, In (Pump v) ops \/ In (Count v) ops -> v = u.

(** The states passed through. *)
Fixpoint visits (w : world) (a : sys) (ops : list cop) : list sys :=
  a :: match ops with
       | [] => []
       | o :: ops => match cstep (serve w) a o with Some a => visits w a ops | None => [] end
       end.
(** No pump takes longer than the grace period of 30 s. *)
Definition prompt1 (a : sys) : Prop :=
  match pumping (cl a) with
  | Some (_, _, t0) => (now (srvr a) - t0 <= 30000)%N
  | None => True
  end.
Definition prompt (w : world) (ops : list cop) : Prop := Forall prompt1 (visits w s_start ops).

(** The last status the server published for a goal. *)
Definition last_word (id : N) (l : list (N * gstatus)) : cstatus :=
  fold_left (fun c p => if (fst p =? id)%N then Told (snd p) else c) l Pending.
(** Nothing is under way between server and client. *)
Definition settled (c : client) : Prop := q_s c = [] /\ q_r c = [] /\ pumping c = None.
(** The feedback published for a goal. *)
Definition feedback_of (id : N) (l : list msg) : list N :=
  flat_map (fun m => match m with MFeedback i x => if (i =? id)%N then [x] else [] | _ => [] end) l.
(** How many handles were given out. *)
Definition handles_given (ops : list cop) : nat :=
  length (filter (fun o => match o with Send _ | Register _ => true | _ => false end) ops).
