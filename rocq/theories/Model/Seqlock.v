(** One fan-out channel: one publisher, one subscriber, latest wins.
    horus_core/src/communication/topic/seqlock.rs and the wrappers [try_send_pod], [try_recv_pod] of
    shm_fanout.rs:253-301.  Memory as in RingMem.v: sequentially consistent, one word per step. *)
From Verif.Base Require Import Prelude.
From Verif.Model Require Import RingMem.
Local Open Scope N_scope.

(** seqlock.rs:55 *)
Definition SEQLOCK_MAX_ATTEMPTS : nat := 16.

(** What callers see. *)
Inductive qevent :=
| QCall (m : msg)       (* try_send_pod(m) called *)
| QSent (m : msg)       (* ... and returned *)
| QRecv (m : msg)       (* try_recv_pod() returned Some(m) *)
| QNone.                (* try_recv_pod() returned None *)

(** Inside [seqlock_publish] (seqlock.rs:69-96).  The version word of a slot is [(pos << 1) | writing],
    kept as a [stamp] of the bit and the position. *)
Inductive qppc :=
| QIdle
| QPos (m : msg)                        (* about to load head, shm_fanout.rs:255 *)
| QMark (m : msg) (pos : N)             (* about to store the writing version, :82 *)
| QWrite (m : msg) (pos : N) (j : nat)  (* about to write word j, :89 *)
| QStamp (m : msg) (pos : N)            (* about to store the done version, :92 *)
| QHead (m : msg) (pos : N).            (* about to store head, :93 *)

(** Inside [seqlock_consume] (seqlock.rs:111-160); [a] counts the attempts left. *)
Inductive qcpc :=
| KIdle                                       (* not called; the call loads tail, :127 *)
| KHead (a : nat) (next : N)                  (* about to load head, :129 *)
| KVer (a : nat) (next : N)                   (* about to load the version, :146 *)
| KRead (a : nat) (next : N) (acc : msg)      (* about to read word [length acc], :150 *)
| KCheck (a : nat) (next : N) (acc : msg)     (* about to load the version again, :155 *)
| KTail (next : N) (acc : msg).               (* about to store tail and return, :160 *)

(** [q_skipped] is the counter the caller passes by reference. *)
Record qsys := QSys {
  q_head : N; q_tail : N; q_ver : N -> stamp; q_data : N -> msg;
  q_pub : qppc; q_con : qcpc; q_skipped : N
}.

Section Steps.
  Variables (k : N) (W : nat).

  (** Where the publisher is after claiming: before its first word, or its stamp if there are none. *)
  Definition q_start_write (m : msg) (pos : N) : qppc :=
    if Nat.eqb W 0 then QStamp m pos else QWrite m pos 0.

  (** seqlock.rs:69-96 *)
  Definition q_pub_step (arg : msg) (s : qsys) : qsys * list qevent :=
    let upd_pub pc := QSys (q_head s) (q_tail s) (q_ver s) (q_data s) pc (q_con s) (q_skipped s) in
    match q_pub s with
    | QIdle => if Nat.eqb (length arg) W then (upd_pub (QPos arg), [QCall arg]) else (s, [])
    | QPos m => (upd_pub (QMark m (q_head s)), [])
    | QMark m pos =>
        (QSys (q_head s) (q_tail s) (upd (q_ver s) (slot k pos) (Stamp true pos)) (q_data s)
              (q_start_write m pos) (q_con s) (q_skipped s), [])
    | QWrite m pos j =>
        (QSys (q_head s) (q_tail s) (q_ver s)
              (upd (q_data s) (slot k pos) (set_word j (nth j m 0) (q_data s (slot k pos))))
              (if Nat.eqb (S j) W then QStamp m pos else QWrite m pos (S j)) (q_con s) (q_skipped s), [])
    | QStamp m pos =>
        (QSys (q_head s) (q_tail s) (upd (q_ver s) (slot k pos) (Stamp false pos)) (q_data s)
              (QHead m pos) (q_con s) (q_skipped s), [])
    | QHead m pos =>
        (QSys (pos + 1) (q_tail s) (q_ver s) (q_data s) QIdle (q_con s) (q_skipped s), [QSent m])
    end.

  (** The next attempt, or None after the last one (the [for] of seqlock.rs:128). *)
  Definition q_retry (a : nat) (next : N) : qcpc * list qevent :=
    match a with O => (KIdle, [QNone]) | S a' => (KHead a' next, []) end.

  (** seqlock.rs:111-162 *)
  Definition q_con_step (s : qsys) : qsys * list qevent :=
    let set pc := QSys (q_head s) (q_tail s) (q_ver s) (q_data s) (q_pub s) pc (q_skipped s) in
    let done n v := negb (st_writing v) && (st_num v =? n) in
    match q_con s with
    | KIdle => (set (KHead (SEQLOCK_MAX_ATTEMPTS - 1) (q_tail s)), [])
    | KHead a next =>
        let h := q_head s in
        let avail := wsub h next in
        if avail =? 0 then (set KIdle, [QNone])
        else if cap k <? avail then
          let resume := wsub h (cap k) in
          (QSys (q_head s) (q_tail s) (q_ver s) (q_data s) (q_pub s) (KVer a resume)
                (q_skipped s + wsub resume next), [])
        else (set (KVer a next), [])
    | KVer a next =>
        if done next (q_ver s (slot k next))
        then (set (if Nat.eqb W 0 then KCheck a next [] else KRead a next []), [])
        else let '(pc, ev) := q_retry a next in (set pc, ev)
    | KRead a next acc =>
        let acc' := acc ++ [nth (length acc) (q_data s (slot k next)) 0] in
        (set (if Nat.eqb (length acc') W then KCheck a next acc' else KRead a next acc'), [])
    | KCheck a next acc =>
        if done next (q_ver s (slot k next)) then (set (KTail next acc), [])
        else let '(pc, ev) := q_retry a next in (set pc, ev)
    | KTail next acc =>
        (QSys (q_head s) (next + 1) (q_ver s) (q_data s) (q_pub s) KIdle (q_skipped s), [QRecv acc])
    end.

  (** Who moves next. *)
  Inductive qaction := APublish (arg : msg) | AConsume.
  (** One event of a history: applies the function above that the event names; no code of its own. *)
  Definition q_step (s : qsys) (a : qaction) : qsys * list qevent :=
    match a with APublish arg => q_pub_step arg s | AConsume => q_con_step s end.
  (** A whole history, event by event; no code of its own. *)
  Fixpoint q_run (s : qsys) (sched : list qaction) : qsys * list qevent :=
    match sched with
    | [] => (s, [])
    | a :: r => let '(s1, e1) := q_step s a in let '(s2, e2) := q_run s1 r in (s2, e1 ++ e2)
    end.
  (** A fresh channel is zeroed memory (shm_fanout.rs:464-530): version 0 reads as "done, position 0". *)
  Definition q_init : qsys := QSys 0 0 (fun _ => Stamp false 0) (fun _ => repeat 0 W) QIdle KIdle 0.
  (** What an outside observer sees of a schedule; no code of its own. *)
  Definition q_trace (sched : list qaction) : list qevent := snd (q_run q_init sched).
  (** The state reached by a schedule; no code of its own. *)
  Definition q_final (sched : list qaction) : qsys := fst (q_run q_init sched).
End Steps.
