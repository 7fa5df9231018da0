(** Work-sharing ring (SpmcShm backend): one publisher, any number of subscribers that compete for
    messages by advancing the shared tail.  mod.rs:1669-1728 pairs [send_shm_sp_pod] with
    [recv_shm_spmc_pod] for it. *)
From Verif.Base Require Import Prelude.
From Verif.Model Require Import RingMem.
Local Open Scope N_scope.

(** What callers see. *)
Inductive sevent :=
| SCall (m : msg)               (* the publisher calls send(m) *)
| SOk (m : msg)                 (* ... which returned Ok *)
| SErr (m : msg)                (* ... which returned Err: full *)
| SRecv (c : nat) (m : msg)     (* recv() of subscriber c returned Some(m) *)
| SNone (c : nat).              (* recv() of subscriber c returned None *)

(** Where the publisher is inside [send_shm_sp_pod] (dispatch.rs:698-748). *)
Inductive spc :=
| SIdle
| SLoad (m : msg)               (* about to reload the shared tail, :713 *)
| SWrite (m : msg) (j : nat)    (* about to write word j, :727 *)
| SReady (m : msg)              (* about to store the ready flag, :742 *)
| SHead (m : msg).              (* about to store the head, :745 *)
Record spub := SPub { s_pc : spc; s_lhead : N; s_ltail : N }.

(** Where a subscriber is inside [recv_shm_spmc_pod] (dispatch.rs:1279-1345); [n] counts the attempts left. *)
Inductive cpc :=
| CIdle
| CTail (n : nat)                  (* about to load the shared tail, :1305 *)
| CHead (n : nat) (t : N)          (* about to reload the head, :1307 *)
| CCas (n : nat) (t : N)           (* about to advance the tail from t, :1316 *)
| CRead (t : N) (acc : msg).       (* about to read word [length acc] of position t, :1331 *)
Record scon := SCon { c_pc : cpc; c_head : N }.

(** Shared memory, the publisher and the subscribers. *)
Record ssys := SSys { x_mem : smem; x_pub : spub; x_con : nat -> scon }.

Section Steps.
  Variables (k : N) (W : nat).

  (** Where the publisher is before its first word, or its stamp if there are none. *)
  Definition s_start (m : msg) : spc := if Nat.eqb W 0 then SReady m else SWrite m 0.

  (** One step of the publisher; [arg] is the message when it is about to call send. *)
  Definition spub_step (arg : msg) (mem : smem) (t : spub) : smem * spub * list sevent :=
    let seq := s_lhead t in
    let set pc := SPub pc seq (s_ltail t) in
    match s_pc t with
    | SIdle =>
        if Nat.eqb (length arg) W then
          (mem, set (if cap k <=? wsub seq (s_ltail t) then SLoad arg else s_start arg), [SCall arg])
        else (mem, t, [])
    | SLoad m =>
        let tl := sm_tail mem in
        if cap k <=? wsub seq tl then (mem, SPub SIdle seq tl, [SErr m])
        else (mem, SPub (s_start m) seq tl, [])
    | SWrite m j =>
        (set_data mem (slot k seq) j (nth j m 0), set (if Nat.eqb (S j) W then SReady m else SWrite m (S j)), [])
    | SReady m => (set_ready mem (slot k seq) (Stamp false (seq + 1)), set (SHead m), [])
    | SHead m => (set_head mem (seq + 1), SPub SIdle (seq + 1) (s_ltail t), [SOk m])
    end.

  (** dispatch.rs:1300-1303 *)
  Definition drained (head tail : N) : bool :=
    let avail := wsub head tail in (avail =? 0) || (cap k <? avail).

  (** dispatch.rs:1304: eight attempts. *)
  Definition ATTEMPTS : nat := 8.

  (** Give up or try again after a failed compare-and-swap. *)
  Definition retry (c : nat) (n : nat) (mem : smem) (h : N) : smem * scon * list sevent :=
    match n with
    | O => (mem, SCon CIdle h, [SNone c])
    | S n' => (mem, SCon (CTail n') h, [])
    end.

  (** One step of subscriber [c].  [weak]: a compare_exchange_weak fails although the value matches. *)
  Definition scon_step (c : nat) (weak : bool) (mem : smem) (t : scon) : smem * scon * list sevent :=
    let set pc := SCon pc (c_head t) in
    match c_pc t with
    | CIdle => (mem, set (CTail (ATTEMPTS - 1)), [])
    | CTail n =>
        let tl := sm_tail mem in
        if drained (c_head t) tl then (mem, set (CHead n tl), []) else (mem, set (CCas n tl), [])
    | CHead n tl =>
        let h := sm_head mem in
        if drained h tl then (mem, SCon CIdle h, [SNone c]) else (mem, SCon (CCas n tl) h, [])
    | CCas n tl =>
        if negb weak && (sm_tail mem =? tl)
        then if Nat.eqb W 0 then (set_tail mem (tl + 1), set CIdle, [SRecv c []])
             else (set_tail mem (tl + 1), set (CRead tl []), [])
        else retry c n mem (c_head t)
    | CRead tl acc =>
        let acc' := acc ++ [nth (length acc) (sm_data mem (slot k tl)) 0] in
        if Nat.eqb (length acc') W then (mem, set CIdle, [SRecv c acc']) else (mem, set (CRead tl acc'), [])
    end.

  (** Who moves next. *)
  Inductive saction :=
  | DPub (arg : msg)
  | DCon (c : nat) (weak : bool).

  (** One event of a history: applies the function above that the event names; no code of its own. *)
  Definition s_step (s : ssys) (a : saction) : ssys * list sevent :=
    match a with
    | DPub arg => let '(mem, t, ev) := spub_step arg (x_mem s) (x_pub s) in (SSys mem t (x_con s), ev)
    | DCon c w => let '(mem, t, ev) := scon_step c w (x_mem s) (x_con s c) in (SSys mem (x_pub s) (updn (x_con s) c t), ev)
    end.
  (** A whole history, event by event; no code of its own. *)
  Fixpoint s_run (s : ssys) (sched : list saction) : ssys * list sevent :=
    match sched with
    | [] => (s, [])
    | a :: r => let '(s1, e1) := s_step s a in let '(s2, e2) := s_run s1 r in (s2, e1 ++ e2)
    end.
  (** A new topic; nobody has started. *)
  Definition s_init : ssys := SSys (smem0 W) (SPub SIdle 0 0) (fun _ => SCon CIdle 0).
  (** What an outside observer sees of a schedule; no code of its own. *)
  Definition s_trace (sched : list saction) : list sevent := snd (s_run s_init sched).
  (** The state reached by a schedule; no code of its own. *)
  Definition s_final (sched : list saction) : ssys := fst (s_run s_init sched).
End Steps.
