(** A handle that both sends and receives takes a shortcut: mod.rs:2041-2077 ([send]) and 2263-2295 ([recv])
    in horus_core/src/communication/topic.

    Simplifications: each call is one step (everything runs on one thread, the case the shortcut is written
    for); plain-data messages are single values; positions are unbounded but compared with u64 wrapping
    subtraction; the dispatched routines are those of the shared ring, which is what handles of one thread
    resolve to (Topology.v: they count as one publisher and one subscriber).  [send] retries a full ring a few
    times and then drops the message (mod.rs:2132-2200); the retries are identical calls, so one is modelled. *)
From Verif.Base Require Import Prelude.
From Verif.Model Require Import RingMem Topology.
Local Open Scope N_scope.

(** The part of [LocalState] the two paths use: role, cached head and tail. *)
Record bhandle := BHandle { b_role : trole; b_head : N; b_tail : N }.
(** The shared header's head and tail, slot stamps, slot contents, and the handles. *)
Record bsys := BSys { b_hdr_head : N; b_hdr_tail : N; b_ready : N -> N; b_data : N -> N; b_h : nat -> bhandle }.

Section K.
  Variable k : N. (* capacity 2^k *)

  (** mod.rs:1299-1371 [ensure_role]: registering as publisher. *)
  Definition add_send (r : trole) : trole := match r with RConsumer => RBoth | _ => RProducer end.
  (** mod.rs:1299-1371 [ensure_role]: registering as subscriber. *)
  Definition add_recv (r : trole) : trole := match r with RProducer => RBoth | _ => RConsumer end.

  (** mod.rs:1299-1371 [ensure_role]: take over the shared positions (in a shared-memory mode: the later tail),
      and as a new receiver skip what has been overwritten. *)
  Definition ensure (sending : bool) (s : bsys) (x : bhandle) : bsys * bhandle :=
    let r := if sending then add_send (b_role x) else add_recv (b_role x) in
    let h := b_hdr_head s in let t := N.max (b_tail x) (b_hdr_tail s) in
    if negb sending && (cap k <? wsub h t)
    then (BSys h (N.max (b_hdr_tail s) (wsub h (cap k))) (b_ready s) (b_data s) (b_h s), BHandle r h (wsub h (cap k)))
    else (s, BHandle r h t).

  (** dispatch.rs:754-816 [send_shm_mp_pod]; [false]: Err, the message is dropped *)
  Definition mp_send (s : bsys) (x : bhandle) (m : N) : bsys * bhandle * bool :=
    let h := b_hdr_head s in
    let t := if cap k <=? wsub h (b_tail x) then b_hdr_tail s else b_tail x in
    if (cap k <=? wsub h (b_tail x)) && (cap k <=? wsub h t) then (s, BHandle (b_role x) (b_head x) t, false)
    else (BSys (h + 1) (b_hdr_tail s) (upd (b_ready s) (slot k h) (h + 1)) (upd (b_data s) (slot k h) m) (b_h s),
          BHandle (b_role x) (h + 1) t, true).

  (** dispatch.rs:1217-1272 [recv_shm_mpsc_pod]; the tail is published every capacity/2 messages *)
  Definition mpsc_recv (s : bsys) (x : bhandle) : bsys * bhandle * option N :=
    let t := b_tail x in
    let h := if wsub (b_head x) t =? 0 then b_hdr_head s else b_head x in
    if wsub h t =? 0 then (s, BHandle (b_role x) h t, None)
    else if b_ready s (slot k t) =? t + 1 then
      let t' := t + 1 in
      (BSys (b_hdr_head s) (if N.land t' (N.max (cap k / 2) 1 - 1) =? 0 then t' else b_hdr_tail s) (b_ready s) (b_data s) (b_h s),
       BHandle (b_role x) h t', Some (b_data s (slot k t)))
    else (s, BHandle (b_role x) h t, None).

  (** Auxiliary: assignment to one field, where the code assigns to it in place. *)
  Definition seth (s : bsys) (c : nat) (x : bhandle) : bsys :=
    BSys (b_hdr_head s) (b_hdr_tail s) (b_ready s) (b_data s) (updn (b_h s) c x).

  (** mod.rs:2041-2082 [send] *)
  Definition bsend (s : bsys) (c : nat) (m : N) : bsys :=
    let x := b_h s c in
    match b_role x with
    | RBoth =>
        if wsub (b_head x) (b_tail x) <? cap k
        then seth (BSys (b_hdr_head s) (b_hdr_tail s) (b_ready s) (upd (b_data s) (slot k (b_head x)) m) (b_h s)) c
               (BHandle RBoth (b_head x + 1) (b_tail x))
        else let '(s1, x1, _) := mp_send s x m in seth s1 c x1
    | RProducer => let '(s1, x1, _) := mp_send s x m in seth s1 c x1
    | _ => let '(s1, x1) := ensure true s x in let '(s2, x2, _) := mp_send s1 x1 m in seth s2 c x2
    end.

  (** mod.rs:2263-2311 [recv] *)
  Definition brecv (s : bsys) (c : nat) : bsys * option N :=
    let x := b_h s c in
    match b_role x with
    | RBoth =>
        if 0 <? wsub (b_head x) (b_tail x)
        then (seth s c (BHandle RBoth (b_head x) (b_tail x + 1)), Some (b_data s (slot k (b_tail x))))
        else (s, None)
    | RConsumer => let '(s1, x1, r) := mpsc_recv s x in (seth s1 c x1, r)
    | _ => let '(s1, x1) := ensure false s x in let '(s2, x2, r) := mpsc_recv s1 x1 in (seth s2 c x2, r)
    end.

  (** The two calls, as events of a history. *)
  Inductive bop := BSend (c : nat) (m : N) | BRecv (c : nat).
  (** The messages received, with the receiving handle. *)
  Fixpoint b_run (s : bsys) (ops : list bop) : bsys * list (nat * option N) :=
    match ops with
    | [] => (s, [])
    | BSend c m :: r => b_run (bsend s c m) r
    | BRecv c :: r => let '(s1, o) := brecv s c in let '(s2, l) := b_run s1 r in (s2, (c, o) :: l)
    end.
  (** A new topic and handles that have not been used. *)
  Definition b_init : bsys := BSys 0 0 (fun _ => 0) (fun _ => 0) (fun _ => BHandle RNone 0 0).
  (** What an outside observer sees of a schedule; no code of its own. *)
  Definition b_out (ops : list bop) : list (nat * option N) := snd (b_run b_init ops).
End K.
