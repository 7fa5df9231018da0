(** The shared-memory log ring.  Models horus_core/src/core/log_buffer.rs lines
    84-126, 274-465, 491-502 and the drain loop 540-600, twice: as whole calls, and as
    the steps by which several processes interleave.  Simplified: counters do not
    wrap at 2^64, memory is sequentially consistent, and the file's creation, growth
    and rotation are left out. *)
From Verif Require Import Base.Prelude Base.Bytes Model.LogEntry.
Open Scope nat_scope.

(** The mapped file: [write_idx] of the header (81-83) and for each slot its sequence
    field and its 504 data bytes (155-165).  A fresh file is all zeros. *)
Record mem := { widx : nat; sq : nat -> nat; cell : nat -> bytes }.
(** A file just created: zero-filled. *)
Definition blank : mem :=
  {| widx := 0; sq := fun _ => 0; cell := fun _ => repeat 0%N SLOT_DATA_SIZE |}.
(** Auxiliary: update of a total function at one point (a store to one array element). *)
Definition put {A} (f : nat -> A) (i : nat) (x : A) : nat -> A := fun j => if j =? i then x else f j.
(** [store_slot_seq], 113-117. *)
Definition set_sq (m : mem) (s v : nat) : mem :=
  {| widx := widx m; sq := put (sq m) s v; cell := cell m |}.
(** The copy of the entry into its slot, 342-353. *)
Definition set_cell (m : mem) (s : nat) (d : bytes) : mem :=
  {| widx := widx m; sq := sq m; cell := put (cell m) s d |}.
(** [claim_slot], 100-103. *)
Definition claim (m : mem) : mem := {| widx := S (widx m); sq := sq m; cell := cell m |}.

(** * Whole calls *)
(** [push], 278-363, with [cap] the handle's [capacity]. *)
Definition push (cap : nat) (m : mem) (e : entry) : mem :=
  match stored e with
  | None => m
  | Some d =>
      let i := widx m in let s := i mod cap in
      let m := set_sq (claim m) s (i * 2 + 1) in
      let m := set_cell m s d in
      set_sq m s (i * 2 + 2)
  end.

(** The arithmetic at the head of [get_since], 401-416: number of entries, first
    slot and how many to skip, for a write index [n]. *)
Definition num_entries (cap n : nat) : nat := Nat.min n cap.
(** First slot to read, 403-407. *)
Definition start_idx (cap n : nat) : nat := if cap <? n then n mod cap else 0.
(** How many of them the caller has seen, 409-413. *)
Definition skip (cap n after : nat) : nat := Nat.min (after - (n - num_entries cap n)) (num_entries cap n).

(** One turn of the loop of [get_since], 418-462, when no other process runs: an odd
    sequence field does not change while it is watched, so it is reset (450). *)
Definition read_slot (m : mem) (s : nat) : mem * list entry :=
  let q := sq m s in
  if q =? 0 then (m, [])
  else if Nat.odd q then (set_sq m s (q + 1), [])
  else (m, match deserialize (cell m s) with Some e => [e] | None => [] end).
(** The loop of [get_since], 415-458. *)
Fixpoint read_slots (m : mem) (l : list nat) : mem * list entry :=
  match l with
  | [] => (m, [])
  | s :: l => let (m, a) := read_slot m s in let (m, b) := read_slots m l in (m, a ++ b)
  end.
(** The slots visited: [(start_idx + i) % capacity] for [i in skip..num_entries]. *)
Definition visited (cap n after : nat) : list nat :=
  map (fun i => (start_idx cap n + i) mod cap)
    (seq (skip cap n after) (num_entries cap n - skip cap n after)).
(** [get_since], 394-465; [get_all] (373-375) is [get_since 0]. *)
Definition get_since (cap : nat) (m : mem) (after : nat) : mem * list entry :=
  read_slots m (visited cap (widx m) after).

(** [publish_log], 496-501: the main and the error buffer with their capacities. *)
Definition is_error (e : entry) : bool :=
  match le_type e with Error | Warning => true | _ => false end.
(** [publish_log], 511-516. *)
Definition publish_log (cap ecap : nat) (b : mem * mem) (e : entry) : mem * mem :=
  let (m, er) := b in (push cap m e, if is_error e then push ecap er e else er).

(** * The drain thread, 540-600 *)
(** What happens to the buffer as the drain thread sees it: somebody pushes; the
    thread reads [write_idx] (562); the thread calls [get_since(last_idx)] (569),
    appends the entries to the file and sets [last_idx] to the index read before
    (588).  [d_cur] is that index, if it was read and differed. *)
Inductive dop := DPush (e : entry) | DPeek | DRead.
(** The drain thread's position, the pass it is in, and the file it writes. *)
Record drain := { d_mem : mem; d_last : nat; d_cur : option nat; d_file : list entry }.
(** The drain thread when it starts: from now on. *)
Definition drain_start (m : mem) : drain := {| d_mem := m; d_last := widx m; d_cur := None; d_file := [] |}.
(** One event of a history: applies the function above that the event names; no code of its own. *)
Definition dstep (cap : nat) (d : drain) (o : dop) : drain :=
  match o with
  | DPush e => {| d_mem := push cap (d_mem d) e; d_last := d_last d; d_cur := d_cur d; d_file := d_file d |}
  | DPeek =>
      match d_cur d with
      | Some _ => d
      | None => {| d_mem := d_mem d; d_last := d_last d;
                   d_cur := if widx (d_mem d) =? d_last d then None else Some (widx (d_mem d));
                   d_file := d_file d |}
      end
  | DRead =>
      match d_cur d with
      | None => d
      | Some c =>
          let (m, l) := get_since cap (d_mem d) (d_last d) in
          {| d_mem := m; d_last := c; d_cur := None; d_file := d_file d ++ l |}
      end
  end.
(** A whole history, event by event; no code of its own. *)
Definition drained (cap : nat) (d : drain) (l : list dop) : drain := fold_left (dstep cap) l d.

(** * Interleaved processes *)
(** Where a process is.  Its mutex is held from the first to the last access of a
    push (279-363) and of a read (395-465), so a process is one thread of control.
    [WClaimed]: the slot is claimed, its sequence field not yet stored (330-338);
    [WCopy i d k]: marked odd, [k] bytes copied (341-353);
    [RNext]: about to load the sequence field for the [todo] list of slots;
    [RSpin]: waiting for an odd field to become even (436-445);
    [RBytes]: copying the data of a slot it believes complete (454-458; the decoder
    reads the mapped bytes in place, here they are read one by one and decoded at the
    end). *)
Inductive pstate :=
| Idle
| WClaimed (i : nat) (d : bytes)
| WCopy (i : nat) (d : bytes) (k : nat)
| RNext (todo : list nat) (acc : list entry)
| RSpin (s q : nat) (todo : list nat) (acc : list entry)
| RBytes (s : nat) (buf : bytes) (todo : list nat) (acc : list entry).
(** The shared file and where each process is. *)
Record st := { shm : mem; procs : nat -> pstate }.
(** A new file, nobody in a call. *)
Definition boot : st := {| shm := blank; procs := fun _ => Idle |}.

(** What the scheduler may do: let process [p] start a push or a read if it is idle;
    let it take its next step; let its 5 ms spin time out (437).  A process that is
    never scheduled again has crashed. *)
Inductive act := APush (p : nat) (e : entry) | ARead (p after : nat) | AStep (p : nat) | ATimeout (p : nat).
(** What is observed: position [i] was claimed for [e]; the push of [i] returned; a
    read returned these entries. *)
Inductive ev := EClaim (p i : nat) (e : entry) | EPushed (p i : nat) | ERead (p : nat) (l : list entry).

(** One byte of the [copy_nonoverlapping] at 349. *)
Definition set_byte (l : bytes) (k : nat) (b : N) : bytes := firstn k l ++ b :: skipn (S k) l.
(** Auxiliary: assignment to one field, where the code assigns to it in place. *)
Definition at_ (s : st) (m : mem) (p : nat) (x : pstate) : st := {| shm := m; procs := put (procs s) p x |}.

(** One step; [cap] gives each process's capacity (its handle may have been opened
    with another one, 31-42). *)
Definition step (cap : nat -> nat) (s : st) (a : act) : st * list ev :=
  let m := shm s in
  match a with
  | APush p e =>
      match procs s p, stored e with
      | Idle, Some d => (at_ s (claim m) p (WClaimed (widx m) d), [EClaim p (widx m) e])
      | _, _ => (s, [])
      end
  | ARead p after =>
      match procs s p with
      | Idle => (at_ s m p (RNext (visited (cap p) (widx m) after) []), [])
      | _ => (s, [])
      end
  | AStep p =>
      match procs s p with
      | Idle => (s, [])
      | WClaimed i d => (at_ s (set_sq m (i mod cap p) (i * 2 + 1)) p (WCopy i d 0), [])
      | WCopy i d k =>
          let c := i mod cap p in
          match nth_error d k with
          | Some b => (at_ s (set_cell m c (set_byte (cell m c) k b)) p (WCopy i d (S k)), [])
          | None => (at_ s (set_sq m c (i * 2 + 2)) p Idle, [EPushed p i])
          end
      | RNext [] acc => (at_ s m p Idle, [ERead p acc])
      | RNext (c :: todo) acc =>
          let q := sq m c in
          if q =? 0 then (at_ s m p (RNext todo acc), [])
          else if Nat.odd q then (at_ s m p (RSpin c q todo acc), [])
          else (at_ s m p (RBytes c [] todo acc), [])
      | RSpin c q todo acc =>
          let q2 := sq m c in
          if negb (q2 =? 0) && negb (Nat.odd q2) then (at_ s m p (RBytes c [] todo acc), [])
          else (s, [])
      | RBytes c buf todo acc =>
          match nth_error (cell m c) (length buf) with
          | Some b => (at_ s m p (RBytes c (buf ++ [b]) todo acc), [])
          | None => (at_ s m p (RNext todo (acc ++ match deserialize buf with Some e => [e] | None => [] end)), [])
          end
      end
  | ATimeout p =>
      match procs s p with
      | RSpin c q todo acc => (at_ s (set_sq m c (q + 1)) p (RNext todo acc), [])
      | _ => (s, [])
      end
  end.
(** A whole history, event by event; no code of its own. *)
Fixpoint run (cap : nat -> nat) (s : st) (l : list act) : st * list ev :=
  match l with
  | [] => (s, [])
  | a :: l => let (s, x) := step cap s a in let (s, y) := run cap s l in (s, x ++ y)
  end.
