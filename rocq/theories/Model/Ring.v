(** Queue-mode ring (SpscShm and MpscShm backends, POD messages): any number of publishers, one
    subscriber.  mod.rs:1669-1728 installs [send_shm_mp_pod] and [recv_shm_mpsc_pod] for both. *)
From Verif.Base Require Import Prelude.
From Verif.Model Require Import RingMem.
Local Open Scope N_scope.

(** What a caller sees. *)
Inductive event :=
| ECall (p : nat) (m : msg)   (* publisher p calls try_send(m) *)
| EOk (p : nat) (m : msg)     (* ... which returned Ok *)
| EErr (p : nat) (m : msg)    (* ... which handed the message back *)
| ERecv (m : msg)             (* recv() returned Some(m) *)
| ENone.                      (* recv() returned None *)

(** Where a publisher is inside [send_shm_mp_pod] (dispatch.rs:756-815).  [PNew]: the handle has not
    registered yet; registering loads [local_tail] from the header (mod.rs:1193-1275, 1299-1320). *)
Inductive ppc :=
| PNew
| PIdle
| PHead (m : msg)                       (* about to load head, dispatch.rs:780 *)
| PTail (m : msg) (head : N)            (* about to reload tail, :782 *)
| PCas (m : msg) (head : N)             (* about to compare-exchange head, :787-792 *)
| PWrite (m : msg) (seq : N) (j : nat)  (* about to write word j, :807 *)
| PStamp (m : msg) (seq : N).           (* about to store the ready stamp, :810 *)
Record pst := PSt { p_pc : ppc; p_tail : N }.

(** Where the subscriber is inside [recv_shm_mpsc_pod] (dispatch.rs:1217-1272). *)
Inductive cpc :=
| CIdle
| CHead                     (* about to reload head, :1230 *)
| CReady                    (* about to load the ready stamp, :1243 *)
| CRead (acc : msg)         (* about to read word [length acc], :1254 *)
| CDone (acc : msg).        (* about to publish the tail (if due) and return, :1256-1271 *)
Record cst := CSt { c_pc : cpc; c_head : N; c_tail : N }.

(** Shared memory, the publishers and the subscriber. *)
Record sys := Sys { s_mem : smem; s_prod : nat -> pst; s_cons : cst }.

Section Steps.
  (** [k]: capacity is 2^k.  [W]: words per message. *)
  Variables (k : N) (W : nat).

  (** After loading [head] (or reloading [local_tail]): dispatch.rs:781-786. *)
  Definition full_for (head tl : N) : bool := cap k <=? wsub head tl.

  (** dispatch.rs:801-810: the write starts at word 0; a zero-sized message has no word to write. *)
  Definition start_write (m : msg) (seq : N) : ppc :=
    if Nat.eqb W 0 then PStamp m seq else PWrite m seq 0.

  (** One step of a publisher.  [arg]: the message of a new call.  [weak]: whether
      compare_exchange_weak fails spuriously.  dispatch.rs:756-815. *)
  Definition prod_step (p : nat) (arg : msg) (weak : bool) (mem : smem) (t : pst)
    : smem * pst * list event :=
    match p_pc t with
    | PNew => (mem, PSt PIdle (sm_tail mem), [])
    | PIdle =>
        if Nat.eqb (length arg) W then (mem, PSt (PHead arg) (p_tail t), [ECall p arg])
        else (mem, t, [])     (* not a value of the topic's type *)
    | PHead m =>
        let head := sm_head mem in
        if full_for head (p_tail t) then (mem, PSt (PTail m head) (p_tail t), [])
        else (mem, PSt (PCas m head) (p_tail t), [])
    | PTail m head =>
        let tl := sm_tail mem in
        if full_for head tl then (mem, PSt PIdle tl, [EErr p m])
        else (mem, PSt (PCas m head) tl, [])
    | PCas m head =>
        if negb weak && (sm_head mem =? head)
        then (set_head mem (head + 1), PSt (start_write m head) (p_tail t), [])
        else (mem, PSt (PHead m) (p_tail t), [])
    | PWrite m seq j =>
        let mem' := set_data mem (slot k seq) j (nth j m 0) in
        let pc' := if Nat.eqb (S j) W then PStamp m seq else PWrite m seq (S j) in
        (mem', PSt pc' (p_tail t), [])
    | PStamp m seq =>
        (set_ready mem (slot k seq) (Stamp false (seq + 1)), PSt PIdle (p_tail t), [EOk p m])
    end.

  (** dispatch.rs:1260-1268: the tail is published when the new tail is a multiple of the flush
      interval, half the capacity (at least 1). *)
  Definition flush_interval : N := N.max (cap k / 2) 1.
  (** The mask of dispatch.rs:1260-1268. *)
  Definition flush_mask : N := flush_interval - 1.

  (** dispatch.rs:1254: start of the copy. *)
  Definition start_read : cpc := if Nat.eqb W 0 then CDone [] else CRead [].

  (** One step of the subscriber.  dispatch.rs:1217-1272. *)
  Definition cons_step (mem : smem) (c : cst) : smem * cst * list event :=
    let tail := c_tail c in
    match c_pc c with
    | CIdle =>
        if wsub (c_head c) tail =? 0 then (mem, CSt CHead (c_head c) tail, [])
        else (mem, CSt CReady (c_head c) tail, [])
    | CHead =>
        let h := sm_head mem in
        if wsub h tail =? 0 then (mem, CSt CIdle h tail, [ENone])
        else (mem, CSt CReady h tail, [])
    | CReady =>
        let r := sm_ready mem (slot k tail) in
        if negb (st_writing r) && (st_num r =? tail + 1)
        then (mem, CSt start_read (c_head c) tail, [])
        else (mem, CSt CIdle (c_head c) tail, [ENone])
    | CRead acc =>
        let acc' := acc ++ [nth (length acc) (sm_data mem (slot k tail)) 0] in
        (mem, CSt (if Nat.eqb (length acc') W then CDone acc' else CRead acc') (c_head c) tail, [])
    | CDone acc =>
        let nt := tail + 1 in
        let mem' := if N.land nt flush_mask =? 0 then set_tail mem nt else mem in
        (mem', CSt CIdle (c_head c) nt, [ERecv acc])
    end.

  (** Who moves next.  A publisher that is never scheduled again has crashed (or been descheduled). *)
  Inductive action :=
  | AProd (p : nat) (arg : msg) (weak : bool)
  | ACons.

  (** One event of a history: applies the function above that the event names; no code of its own. *)
  Definition step (s : sys) (a : action) : sys * list event :=
    match a with
    | AProd p arg weak =>
        let '(mem, t, ev) := prod_step p arg weak (s_mem s) (s_prod s p) in
        (Sys mem (updn (s_prod s) p t) (s_cons s), ev)
    | ACons =>
        let '(mem, c, ev) := cons_step (s_mem s) (s_cons s) in
        (Sys mem (s_prod s) c, ev)
    end.

  (** A whole schedule; the events it makes visible, in order. *)
  Fixpoint run (s : sys) (sched : list action) : sys * list event :=
    match sched with
    | [] => (s, [])
    | a :: r => let '(s1, e1) := step s a in let '(s2, e2) := run s1 r in (s2, e1 ++ e2)
    end.

  (** A new topic: empty region, nobody registered, subscriber at position 0. *)
  Definition init : sys := Sys (smem0 W) (fun _ => PSt PNew 0) (CSt CIdle 0 0).

  (** What an outside observer sees of a schedule; no code of its own. *)
  Definition trace (sched : list action) : list event := snd (run init sched).
  (** The state reached by a schedule; no code of its own. *)
  Definition final (sched : list action) : sys := fst (run init sched).
End Steps.
