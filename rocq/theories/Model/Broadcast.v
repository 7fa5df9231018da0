(** Broadcast ring (PodShm backend): any number of publishers and subscribers, no backpressure.
    mod.rs:1669-1728 installs [send_shm_pod_broadcast] and [recv_shm_pod_broadcast]. *)
From Verif.Base Require Import Prelude.
From Verif.Model Require Import RingMem.
Local Open Scope N_scope.

(** What callers see. *)
Inductive bevent :=
| BCall (p : nat) (m : msg)     (* publisher p calls send(m) *)
| BOk (p : nat) (m : msg)       (* ... which returned *)
| BJoin (c : nat) (pos : N)     (* subscriber c registered; its first recv will look at position pos *)
| BRecv (c : nat) (m : msg)     (* recv() of subscriber c returned Some(m) *)
| BNone (c : nat).              (* recv() of subscriber c returned None *)

(** Where a publisher is inside [send_shm_pod_broadcast] (dispatch.rs:823-873). *)
Inductive bpc :=
| BIdle
| BFetch (m : msg)                       (* about to fetch_add head, :837 *)
| BMark (m : msg) (seq : N)              (* about to store the writing mark, :864 *)
| BWrite (m : msg) (seq : N) (j : nat)   (* about to write word j, :866 *)
| BStamp (m : msg) (seq : N).            (* about to store the ready stamp, :867 *)

(** Where a subscriber is: registering ([ensure_role], mod.rs:1299-1370) or inside
    [recv_shm_pod_broadcast] (dispatch.rs:1349-1539). *)
Inductive rpc :=
| RNew                                   (* about to load head, mod.rs:1204 *)
| RJoinTail (h : N)                      (* about to load the shared tail, mod.rs:1205 *)
| RJoinMax (h : N) (t : N)               (* about to raise the shared tail, mod.rs:1369 *)
| RIdle
| RHead                                  (* about to reload head, dispatch.rs:1364 *)
| RResume                                (* lapped: about to reload head, :1399 and :1482 *)
| RReady                                 (* about to load the stamp, :1436 *)
| RRead (acc : msg)                      (* about to read word [length acc], :1519 *)
| RCheck (acc : msg).                    (* about to re-load the stamp, :1529 *)
Record rst := RSt { r_pc : rpc; r_head : N; r_tail : N; r_missed : N }.

(** Shared memory, the publishers and the subscribers. *)
Record bsys := BSys { b_mem : smem; b_pub : nat -> bpc; b_sub : nat -> rst }.

Section Steps.
  Variables (k : N) (W : nat).

  (** Where a publisher is after claiming [seq]: before its first word, or its stamp if there are none. *)
  Definition b_start_write (m : msg) (seq : N) : bpc :=
    if Nat.eqb W 0 then BStamp m seq else BWrite m seq 0.

  (** One step of a publisher.  dispatch.rs:823-873. *)
  Definition pub_step (p : nat) (arg : msg) (mem : smem) (pc : bpc) : smem * bpc * list bevent :=
    match pc with
    | BIdle => if Nat.eqb (length arg) W then (mem, BFetch arg, [BCall p arg]) else (mem, pc, [])
    | BFetch m => (set_head mem (sm_head mem + 1), BMark m (sm_head mem), [])
    | BMark m seq => (set_ready mem (slot k seq) (Stamp true (seq + 1)), b_start_write m seq, [])
    | BWrite m seq j =>
        (set_data mem (slot k seq) j (nth j m 0),
         if Nat.eqb (S j) W then BStamp m seq else BWrite m seq (S j), [])
    | BStamp m seq => (set_ready mem (slot k seq) (Stamp false (seq + 1)), BIdle, [BOk p m])
    end.

  (** dispatch.rs:1372: more than a ring behind? *)
  Definition after_head (lh tail : N) : rpc :=
    if cap k <? wsub lh tail then RResume else RReady.

  (** One step of a subscriber.  Registration: mod.rs:1193-1245 and 1355-1369 (same_data_plane holds
      from a fresh handle, and [local_tail] starts at 0).  Receive: dispatch.rs:1349-1539. *)
  Definition sub_step (c : nat) (mem : smem) (t : rst) : smem * rst * list bevent :=
    let tail := r_tail t in
    let set pc := RSt pc (r_head t) tail (r_missed t) in
    match r_pc t with
    | RNew => (mem, set (RJoinTail (sm_head mem)), [])
    | RJoinTail h =>
        let tl := sm_tail mem in
        if cap k <? wsub h tl then (mem, set (RJoinMax h (wsub h (cap k))), [])
        else (mem, RSt RIdle h tl (r_missed t), [BJoin c tl])
    | RJoinMax h tl =>
        (set_tail mem (N.max (sm_tail mem) tl), RSt RIdle h tl (r_missed t), [BJoin c tl])
    | RIdle =>
        if wsub (r_head t) tail =? 0 then (mem, set RHead, [])
        else (mem, set (after_head (r_head t) tail), [])
    | RHead =>
        let h := sm_head mem in
        if wsub h tail =? 0 then (mem, RSt RIdle h tail (r_missed t), [BNone c])
        else (mem, RSt (after_head h tail) h tail (r_missed t), [])
    | RResume =>
        let h := sm_head mem in
        let resume := h - cap k + cap k / 2 in
        if (cap k <? h) && (tail <? resume)
        then (mem, RSt RIdle h resume (r_missed t + (resume - tail)), [BNone c])
        else (mem, set RIdle, [BNone c])
    | RReady =>
        let v1 := sm_ready mem (slot k tail) in
        if st_writing v1 then (mem, set RIdle, [BNone c])
        else if st_num v1 <? tail + 1 then (mem, set RIdle, [BNone c])
        else if tail + 1 <? st_num v1 then (mem, set RResume, [])
        else (mem, set (if Nat.eqb W 0 then RCheck [] else RRead []), [])
    | RRead acc =>
        let acc' := acc ++ [nth (length acc) (sm_data mem (slot k tail)) 0] in
        (mem, set (if Nat.eqb (length acc') W then RCheck acc' else RRead acc'), [])
    | RCheck acc =>
        let v := sm_ready mem (slot k tail) in
        if negb (st_writing v) && (st_num v =? tail + 1)
        then (mem, RSt RIdle (r_head t) (tail + 1) (r_missed t), [BRecv c acc])
        else (mem, set RIdle, [BNone c])
    end.

  (** Who moves next. *)
  Inductive baction :=
  | APub (p : nat) (arg : msg)
  | ASub (c : nat).

  (** One event of a history: applies the function above that the event names; no code of its own. *)
  Definition b_step (s : bsys) (a : baction) : bsys * list bevent :=
    match a with
    | APub p arg =>
        let '(mem, pc, ev) := pub_step p arg (b_mem s) (b_pub s p) in
        (BSys mem (updn (b_pub s) p pc) (b_sub s), ev)
    | ASub c =>
        let '(mem, t, ev) := sub_step c (b_mem s) (b_sub s c) in
        (BSys mem (b_pub s) (updn (b_sub s) c t), ev)
    end.

  (** A whole history, event by event; no code of its own. *)
  Fixpoint b_run (s : bsys) (sched : list baction) : bsys * list bevent :=
    match sched with
    | [] => (s, [])
    | a :: r => let '(s1, e1) := b_step s a in let '(s2, e2) := b_run s1 r in (s2, e1 ++ e2)
    end.

  (** A new topic; nobody registered. *)
  Definition b_init : bsys := BSys (smem0 W) (fun _ => BIdle) (fun _ => RSt RNew 0 0 0).
  (** What an outside observer sees of a schedule; no code of its own. *)
  Definition b_trace (sched : list baction) : list bevent := snd (b_run b_init sched).
  (** The state reached by a schedule; no code of its own. *)
  Definition b_final (sched : list baction) : bsys := fst (b_run b_init sched).

  (** [missed_count()] of a subscriber, mod.rs:2013. *)
  Definition missed_count (c : nat) (s : bsys) : N := r_missed (b_sub s c).
End Steps.
