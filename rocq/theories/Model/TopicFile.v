(** Model of a topic's backing file as bytes, and of the code that reads and writes it from outside the typed API:
    horus_core/src/communication/topic/header.rs:712-925 and 2269-2323 ([horus topic echo], the network exporter),
    horus_net/src/shm_writer.rs (the network importer), with the layout of topic/shm_layout.rs; and of the local
    endpoints such a file is shared with: dispatch.rs [send_shm_sp_pod], [recv_shm_spsc_pod], [recv_shm_mpsc_pod].

    A file is a length and a byte at every offset.  Simplified: each call is one step (the interleavings inside a ring
    operation are the subject of RingMem.v and Seqlock.v); the epoch checks and lease housekeeping of the local
    endpoints are left out (Topology.v, Registry.v); offsets are exact numbers, and an access outside the
    mapping or a slice with a bad range is [Fault]. *)
From Verif.Base Require Import Prelude Bytes.
Open Scope N_scope.

(** The mapped file: its length and its bytes. *)
Record TF := mkTF { t_len : N; t_at : N -> N }.
(** The bytes of [mmap[off..off+n]]. *)
Definition peek (off : N) (n : nat) (f : TF) : bytes := map (fun k => t_at f (off + N.of_nat k)) (seq 0 n).
(** The little-endian integer of those bytes. *)
Definition word (off : N) (n : nat) (f : TF) : N := le_dec (peek off n f).
(** A store of [d] at [off]. *)
Definition poke (off : N) (d : bytes) (f : TF) : TF :=
  mkTF (t_len f) (fun i => if (off <=? i) && (i <? off + N.of_nat (length d)) then nth (N.to_nat (i - off)) d 0 else t_at f i).
(** A call that faults (panic or access outside the mapping) or returns. *)
Inductive tres (A : Type) := Fault | Ret (x : A).
Arguments Fault {A}. Arguments Ret {A}.

(** header.rs:21, 33, 670; shm_layout.rs:56-90 *)
Definition TOPIC_MAGIC : N := 4702955724148921925.
(** header.rs:33 *)
Definition POD_YES : N := 2.
(** shm_layout.rs:60 *)
Definition HEADER_SIZE : N := 640.
(** shm_layout.rs:70-76 *)
Definition OFF_TYPE_SIZE : N := 12.  Definition OFF_IS_POD : N := 20.  Definition OFF_TOTAL : N := 56.
(** shm_layout.rs:78-84 *)
Definition OFF_HEAD : N := 64.  Definition OFF_CAP : N := 72.  Definition OFF_MASK : N := 76.  Definition OFF_SLOT : N := 80.
(** header.rs:219-223: the third cache line *) Definition OFF_TAIL : N := 128.
(** shm_layout.rs:123-150 *)
Definition seq_slot_offset (index : N) : N := HEADER_SIZE + index * 8.
(** shm_layout.rs:138-143 *)
Definition data_region_offset (capacity : N) : N := HEADER_SIZE + capacity * 8.
(** shm_layout.rs:146-149 *)
Definition data_slot_offset (capacity index stride : N) : N := data_region_offset capacity + index * stride.
(** shm_layout.rs:152-155 *)
Definition required_region_len (capacity stride : N) : N := data_region_offset capacity + capacity * stride.
(** 2^64. *)
Definition U64 : N := 2 ^ 64.
(** [u32::is_power_of_two] *)
Definition is_power_of_two (c : N) : bool := negb (c =? 0) && (2 ^ N.log2 c =? c).

(** ** Reading: header.rs:673-690, 724-925 *)
Record SlotRead := mkSlot { sr_payload : bytes; sr_idx : N; sr_pod : bool }.
(** [mmap[a..a+n].to_vec()] *)
Definition get_slice (a n : N) (f : TF) : tres bytes :=
  if a + n <=? t_len f then Ret (peek a (N.to_nat n) f) else Fault.
(** header.rs:724-925 [read_slot_inner] *)
Definition read_slot_inner (f : TF) (last : N) (ordinal : option N) : tres (option SlotRead) :=
  if t_len f <? HEADER_SIZE then Ret None
  else if negb (word 0 8 f =? TOPIC_MAGIC) then Ret None
  else
    let type_size := word OFF_TYPE_SIZE 4 f in
    let is_pod := word OFF_IS_POD 1 f =? POD_YES in
    let write_idx := word OFF_TOTAL 8 f in
    let capacity := word OFF_CAP 4 f in
    let cap_mask := word OFF_MASK 4 f in
    let slot_size := word OFF_SLOT 4 f in
    if (capacity =? 0) || negb (is_power_of_two capacity) || negb (cap_mask =? capacity - 1) then Ret None
    else if (write_idx =? 0) || (write_idx =? last) then Ret None
    else
      let target := match ordinal with Some n => n | None => write_idx end in
      if (target =? 0) || (write_idx <? target) then Ret None
      else if capacity <=? write_idx - target then Ret None
      else
        let last_written := N.land (target - 1) cap_mask in
        if is_pod then
          if type_size =? 0 then Ret None
          else if t_len f <? required_region_len capacity type_size then Ret None
          else match get_slice (data_slot_offset capacity last_written type_size) type_size f with
               | Fault => Fault
               | Ret p => Ret (Some (mkSlot p write_idx true))
               end
        else
          if slot_size <? 16 then Ret None
          else if t_len f <? required_region_len capacity slot_size then Ret None
          else
            let slot_start := data_slot_offset capacity last_written slot_size in
            let data_offset := slot_start + 16 in
            if t_len f <? slot_start + 8 + 8 then Fault
            else
              let data_len := word (slot_start + 8) 8 f in
              if data_len =? 0 then Ret None
              (* [data_offset + data_len] overflows: a panic with overflow checks; without them the wrapped sum passes
                 the test and the slice, whose start is past its end, panics *)
              else if U64 <=? data_offset + data_len then Fault
              else if t_len f <? data_offset + data_len then Ret None
              else match get_slice data_offset data_len f with
                   | Fault => Fault
                   | Ret p => Ret (Some (mkSlot p write_idx false))
                   end.
(** header.rs:712-717 *)
Definition read_latest_slot_bytes (f : TF) (last : N) : tres (option SlotRead) := read_slot_inner f last None.

(** header.rs:2321-2323 *)
Definition read_one_slot (f : TF) (ordinal : N) : tres (option SlotRead) := read_slot_inner f 0 (Some ordinal).
(** header.rs:2302-2312: ordinals [n], [n]+1, ... ([want] of them); [fs k] is the file when the [k]-th slot is opened *)
Fixpoint read_range (fs : nat -> TF) (k : nat) (head : SlotRead) (n : N) (want : nat) : tres (list SlotRead * N) :=
  match want with
  | O => Ret ([], 0)
  | S w =>
      let this := if n =? sr_idx head then Ret (Some head) else read_one_slot (fs k) n in
      match this, read_range fs (S k) head (n + 1) w with
      | Ret (Some s), Ret (out, lapped) => Ret (s :: out, lapped)
      | Ret None, Ret (out, lapped) => Ret (out, lapped + 1)
      | _, _ => Fault
      end
  end.
(** header.rs:2269-2314 *)
Definition read_slots_since (f : TF) (fs : nat -> TF) (last : N) (max : N) : tres (list SlotRead * N) :=
  match read_latest_slot_bytes f last with
  | Fault => Fault
  | Ret None => Ret ([], 0)
  | Ret (Some head) =>
      if last =? 0 then Ret ([head], 0)
      else
        let available := sr_idx head - last in
        if available =? 0 then Ret ([], 0)
        else read_range fs 0 head (last + 1) (N.to_nat (N.min available max))
  end.
(** horus_manager/src/commands/topic.rs:283-284: the position after printing these slots *)
Definition echo_position (last : N) (slots : list SlotRead) : N := fold_left (fun l s => N.max l (sr_idx s)) slots last.

(** horus_manager/src/commands/topic.rs:241-293: the payloads [topic echo] prints over its polls; at each poll the file
    does not change while it is read, and [max] is the budget (4096 without [--count]). *)
Fixpoint echo_run (max : N) (last : N) (polls : list TF) : list bytes :=
  match polls with
  | [] => []
  | f :: r =>
      match read_slots_since f (fun _ => f) last max with
      | Fault => []
      | Ret (slots, _) => map sr_payload slots ++ echo_run max (echo_position last slots) r
      end
  end.

(** ** Importing: shm_writer.rs *)
(** shm_writer.rs:44-56 *)
Record RingWriter := mkWriter { w_type : N; w_cap : N; w_mask : N; w_slot : N; w_pod : bool }.
(** shm_writer.rs:68-116 *)
Definition open_path (f : TF) : option RingWriter :=
  if t_len f <? HEADER_SIZE then None
  else if negb (word 0 8 f =? TOPIC_MAGIC) then None
  else
    let type_size := word OFF_TYPE_SIZE 4 f in
    let is_pod := word OFF_IS_POD 1 f =? POD_YES in
    let capacity := word OFF_CAP 4 f in
    let cap_mask := word OFF_MASK 4 f in
    let slot_size := word OFF_SLOT 4 f in
    if capacity =? 0 then None
    else if negb (is_power_of_two capacity) || negb (cap_mask =? capacity - 1) then None
    else
      let stride := if is_pod then type_size else slot_size in
      if (stride =? 0) || (t_len f <? required_region_len capacity stride) then None
      else Some (mkWriter type_size capacity cap_mask slot_size is_pod).
(** A store of [d] at [off]; outside the mapping it is a fault. *)
Definition store (off : N) (d : bytes) (r : tres TF) : tres TF :=
  match r with
  | Fault => Fault
  | Ret f => if off + N.of_nat (length d) <=? t_len f then Ret (poke off d f) else Fault
  end.
(** [u64::wrapping_add] *)
Definition add64 (a b : N) : N := (a + b) mod U64.
(** [u64::wrapping_sub] *)
Definition sub64 (a b : N) : N := (a + U64 - b) mod U64.
(** shm_writer.rs:174-182 *)
Definition bump_total (r : tres TF) : tres TF :=
  match r with Fault => Fault | Ret f => store OFF_TOTAL (le_enc 8 (add64 (word OFF_TOTAL 8 f) 1)) (Ret f) end.
(** shm_writer.rs:185-231; the in-progress mark is overwritten before the call returns *)
Definition write_pod (w : RingWriter) (payload : bytes) (f : TF) : tres (TF * bool) :=
  if negb (N.of_nat (length payload) =? w_type w) then Ret (f, false)
  else
    let head := word OFF_HEAD 8 f in
    let index := N.land head (w_mask w) in
    let slot_start := data_slot_offset (w_cap w) index (w_type w) in
    if t_len f <? slot_start + w_type w then Ret (f, false)
    else
      let new_head := add64 head 1 in
      match bump_total (store OFF_HEAD (le_enc 8 new_head)
              (store (seq_slot_offset index) (le_enc 8 new_head) (store slot_start payload (Ret f)))) with
      | Fault => Fault
      | Ret f' => Ret (f', true)
      end.
(** shm_writer.rs:234-275 *)
Definition write_serialized (w : RingWriter) (payload : bytes) (f : TF) : tres (TF * bool) :=
  if w_slot w <? 16 then Ret (f, false)
  else if w_slot w - 16 <? N.of_nat (length payload) then Ret (f, false)
  else
    let head := word OFF_HEAD 8 f in
    let index := N.land head (w_mask w) in
    let slot_start := data_slot_offset (w_cap w) index (w_slot w) in
    if t_len f <? slot_start + w_slot w then Ret (f, false)
    else
      let new_head := add64 head 1 in
      match bump_total (store OFF_HEAD (le_enc 8 new_head)
              (store slot_start (le_enc 8 new_head)
                 (store (slot_start + 16) payload
                    (store (slot_start + 8) (le_enc 8 (N.of_nat (length payload))) (Ret f))))) with
      | Fault => Fault
      | Ret f' => Ret (f', true)
      end.
(** shm_writer.rs:124-130 *)
Definition ring_write (w : RingWriter) (payload : bytes) (f : TF) : tres (TF * bool) :=
  if w_pod w then write_pod w payload f else write_serialized w payload f.

(** ** The local endpoints of a POD topic in a process of their own *)
(** local_state.rs: the cached positions *)
Record Local := mkLocal { lo_head : N; lo_tail : N }.
(** dispatch.rs:699-746 *)
Definition try_send_pod (w : RingWriter) (p : Local) (payload : bytes) (f : TF) : Local * TF * bool :=
  let sq := lo_head p in
  let full := fun t => w_cap w <=? sub64 sq t in
  let tail := if full (lo_tail p) then word OFF_TAIL 8 f else lo_tail p in
  if full tail then (mkLocal sq tail, f, false)
  else
    let index := N.land sq (w_mask w) in
    let f := poke (data_slot_offset (w_cap w) index (w_type w)) payload f in
    let f := poke (seq_slot_offset index) (le_enc 8 (add64 sq 1)) f in
    (mkLocal (add64 sq 1) tail, poke OFF_HEAD (le_enc 8 (add64 sq 1)) f, true).
(** mod.rs:2041-2043 *)
Definition count_send (f : TF) : TF := poke OFF_TOTAL (le_enc 8 (add64 (word OFF_TOTAL 8 f) 1)) f.
(** mod.rs:2041-2080 [send], with the ring not drained while it retries *)
Definition send_pod (w : RingWriter) (p : Local) (payload : bytes) (f : TF) : Local * TF * bool :=
  try_send_pod w p payload (count_send f).
(** dispatch.rs:1190-1201: how often the tail is published *)
Definition flush_mask (c : N) : N := N.max (c / 2) 1 - 1.
(** dispatch.rs:1162-1209; [mpsc]: :1217-1270, which also waits for the slot's stamp *)
Definition recv_pod (mpsc : bool) (w : RingWriter) (c : Local) (f : TF) : Local * TF * option bytes :=
  let tail := lo_tail c in
  let head := if lo_head c =? tail then word OFF_HEAD 8 f else lo_head c in
  if head =? tail then (mkLocal head tail, f, None)
  else
    let index := N.land tail (w_mask w) in
    if mpsc && negb (word (seq_slot_offset index) 8 f =? add64 tail 1) then (mkLocal head tail, f, None)
    else
      let msg := peek (data_slot_offset (w_cap w) index (w_type w)) (N.to_nat (w_type w)) f in
      let f := if N.land (add64 tail 1) (flush_mask (w_cap w)) =? 0 then poke OFF_TAIL (le_enc 8 (add64 tail 1)) f else f in
      (mkLocal head (add64 tail 1), f, Some msg).

(** header.rs:330-391 [init]: a new POD topic of [c] slots of [ts] bytes, in a file of exactly the size needed *)
Definition new_pod_topic (c ts : N) : TF :=
  poke OFF_SLOT (le_enc 4 ts) (poke OFF_MASK (le_enc 4 (c - 1)) (poke OFF_CAP (le_enc 4 c)
    (poke OFF_IS_POD [POD_YES] (poke OFF_TYPE_SIZE (le_enc 4 ts) (poke 0 (le_enc 8 TOPIC_MAGIC)
      (mkTF (required_region_len c ts) (fun _ => 0))))))).

(** A history of a topic that the importer feeds and one local subscriber reads. *)
Inductive iev := Import (payload : bytes) | Recv.
(** A whole history, event by event; no code of its own. *)
Fixpoint irun (mpsc : bool) (w : RingWriter) (f : TF) (c : Local) (h : list iev) : tres (TF * Local * list bytes) :=
  match h with
  | [] => Ret (f, c, [])
  | Import p :: r => match ring_write w p f with Fault => Fault | Ret (f, _) => irun mpsc w f c r end
  | Recv :: r =>
      let '(c, f, o) := recv_pod mpsc w c f in
      match irun mpsc w f c r with
      | Fault => Fault
      | Ret (f, c, out) => Ret (f, c, match o with Some m => m :: out | None => out end)
      end
  end.
(** A history of a topic that one local publisher feeds and one local subscriber reads. *)
Inductive lev := LSend (payload : bytes) | LTry (payload : bytes) | LRecv.
(** One event of a history: applies the function above that the event names; no code of its own. *)
Definition lstep (w : RingWriter) (s : TF * Local * Local) (e : lev) : TF * Local * Local * bool :=
  let '(f, p, c) := s in
  match e with
  | LSend m => let '(p, f, ok) := send_pod w p m f in (f, p, c, ok)
  | LTry m => let '(p, f, ok) := try_send_pod w p m f in (f, p, c, ok)
  | LRecv => let '(c, f, o) := recv_pod false w c f in (f, p, c, match o with Some _ => true | None => false end)
  end.
(** A whole history, event by event; no code of its own. *)
Fixpoint lrun (w : RingWriter) (s : TF * Local * Local) (h : list lev) : TF * Local * Local * list bool :=
  match h with
  | [] => (s, [])
  | e :: r => let '(s1, ok) := lstep w s e in let '(s2, oks) := lrun w s1 r in (s2, ok :: oks)
  end.
