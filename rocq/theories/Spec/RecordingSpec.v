(** Vocabulary for recordings and replays. *)
From Coq Require Import String.
From Verif.Base Require Import Prelude Bytes AMap Str.
From Verif.Model Require Import Recording.
Local Open Scope N_scope.
Local Open Scope list_scope.

(** Each topic once. *)
Definition tidy (t : Tick) : Prop := NoDup (map fst (t_in t)) /\ NoDup (map fst (t_out t)).
(** The ticks the interval asks for. *)
Definition wanted (cfg : RecCfg) (ts : list Tick) : list Tick := filter (fun t => t_tick t mod N.max 1 (cf_interval cfg) =? 0) ts.
(** What a tick looks like in the recording (the order of a map means nothing), and what it is charged with. *)
Definition seen (cfg : RecCfg) (t : Tick) (s : Snap) : Prop :=
  sn_tick s = t_tick t /\ sn_time s = t_now t /\ sn_state s = None /\ sn_dur s = (if cf_timing cfg then t_dur t else 0) /\
  (forall topic data, In (topic, data) (sn_in s) <-> cf_in cfg = true /\ In (topic, data) (t_in t)) /\
  (forall topic data, In (topic, data) (sn_out s) <-> cf_out cfg = true /\ In (topic, data) (t_out t)).
Definition payload (l : list (bytes * bytes)) : N := fold_right (fun p n => N.of_nat (length (snd p)) + n) 0 l.
Definition charged (cfg : RecCfg) (t : Tick) : N := 64 + (if cf_in cfg then payload (t_in t) else 0) + (if cf_out cfg then payload (t_out t) else 0).
Definition total (cfg : RecCfg) (ts : list Tick) : N := fold_right (fun t n => charged cfg t + n) 0 ts.
(** Within the size limit. *)
Definition fits (cfg : RecCfg) (ts : list Tick) : Prop := cf_max_size cfg = 0 \/ total cfg ts <= cf_max_size cfg.
(** The last [n], or all if [n] is 0. *)
Definition newest {A} (n : nat) (l : list A) : list A := match n with O => l | _ => skipn (length l - n) l end.
(** The recording of these ticks. *)
Definition recording_of (name id session : bytes) (cfg : RecCfg) (ts : list Tick) : Rec :=
  rc_rec (fold_left record_tick ts (recorder_new name id session cfg)).
(** No limit, outputs recorded. *)
Definition unlimited (cfg : RecCfg) : Prop := cf_max_size cfg = 0 /\ cf_max_snaps cfg = 0%nat /\ cf_out cfg = true.
(** The ticks of a list follow each other from [t0]. *)
Definition consecutive (t0 : N) (ts : list N) : Prop := forall i t, nth_error ts i = Some t -> t = t0 + N.of_nat i.
(** The messages of a replay, in order. *)
Definition messages (l : list (list (bytes * bytes))) : list bytes := map snd (concat l).
(** A name of one level: what a path below a directory may consist of. *)
Definition plain_name (c : bytes) : Prop := c <> [] /\ c <> bs "." /\ c <> bs ".." /\ ~ In 47 c.
(** A hexadecimal number. *)
Definition hex_id (id : bytes) : Prop := id <> [] /\ forall c, In c id -> (48 <= c <= 57) \/ (97 <= c <= 102).
(** The last level of a path. *)
Definition base_name (s : bytes) : bytes := last (split_slash [] s) [].
(** The names and the ids of a scheduler's recording have nothing in common. *)
Definition ids_apart (sr : SchedRec) : Prop := forall id o, In id (map fst (sr_nodes sr)) -> In o (sr_order sr) -> ~ In id o.
(** What a scheduler does with its own recording. *)
Inductive srop := SrAdd (name id : bytes) | SrTick (order : list bytes) | SrFinish (now : N).
Definition srop_do (sr : SchedRec) (o : srop) : SchedRec :=
  match o with SrAdd n i => sched_add n i sr | SrTick l => sched_tick l sr | SrFinish t => sched_finish t sr end.
