(** The tensor pool: horus_core/src/memory/tensor_pool.rs with the mmap backend of
    horus_core/src/memory/backend.rs.  Several threads of several processes work on one pool.  A step is one
    phase of an operation: a pop or push of the free list (atomic by C13, Props/TreiberProps.v), the
    initialisation of a slot by the thread that owns it, one reference-count update, one slot visited by the
    reclaimer.  Simplified: one pool, so no pool-id check; one backend; reference counts and generations are
    unbounded (u64 in the code); thread [t] is process [t + 1]. *)
From Verif.Base Require Import Prelude.
Local Open Scope N_scope.

(** 2^64, for [checked_mul] and wrap-around. *)
Definition U64 : N := 2 ^ 64.

(** backend.rs:235-237 and tensor_pool.rs [align_up]: wrapping add, then clear the low bits. *)
Definition align_up (value alignment : N) : N :=
  N.ldiff ((value + (alignment - 1)) mod U64) (alignment - 1).

(** tensor_pool.rs:731-745: element count and byte size, with overflow checks. *)
Fixpoint checked_product (acc : N) (shape : list N) : option N :=
  match shape with
  | [] => Some acc
  | x :: r => if acc * x <? U64 then checked_product (acc * x) r else None
  end.
(** tensor_pool.rs:731-743 *)
Definition tensor_bytes (shape : list N) (element_size : N) : option N :=
  match checked_product 1 shape with
  | Some n => if n * element_size <? U64 then Some (n * element_size) else None
  | None => None
  end.

(** tensor_pool.rs:150-183 [SlotHeader] (next_free belongs to the free list) *)
Record slot := Slot { sl_ref : N; sl_flag : bool; sl_gen : N; sl_off : N; sl_size : N; sl_cap : N; sl_pid : N }.
(** types/tensor.rs:45-76, the fields the pool looks at *)
Record desc := Desc { d_slot : N; d_gen : N; d_off : N; d_size : N }.

(** Where a thread is inside [alloc] or [release]. *)
Inductive ppc :=
| PIdle
| PReclaim (bytes : N) (i n : N)      (* the stack was empty; about to look at slot i; n reclaimed so far *)
| PRetry (bytes : N)                  (* about to pop a second time *)
| PGot (bytes : N) (s : N)            (* owns slot s, about to find memory for it *)
| PReturn (s : N).                    (* took the last reference to slot s, about to return it *)

(** What a call returned. *)
Inductive outcome :=
| OAlloc (t : nat) (d : desc)         (* alloc returned Ok *)
| OTooBig (t : nat)                   (* alloc: the size overflows *)
| ONoSlot (t : nat)                   (* alloc: no free tensor slots *)
| ONoMemory (t : nat)                 (* alloc: the data region is exhausted *)
| ORetain (t : nat) (d : desc) (ok : bool)   (* try_retain *)
| ORelease (t : nat) (d : desc) (ok : bool). (* release / try_release took a reference *)

(** [p_handles] are the descriptors clients hold a reference through, with repetitions; the rest is shared
    memory, except [p_pcs], the threads, and [p_alive], which the operating system answers. *)
Record pool := Pool {
  p_next : N;                (* next_alloc_offset *)
  p_free : list N;           (* the free stack, top first *)
  p_slots : N -> slot;
  p_data : N -> N;           (* bytes of the data region *)
  p_pcs : list ppc;
  p_handles : list desc;
  p_alive : N -> bool }.

(** The process id of thread [t]. *)
Definition pid_of (t : nat) : N := N.of_nat t + 1.
(** Auxiliary: update of a total function at one point (a store to one array element). *)
Definition with_slot (f : N -> slot) (s : N) (x : slot) : N -> slot := fun i => if i =? s then x else f i.
(** Auxiliary: update of a total function at one point (a store to one array element). *)
Fixpoint put {A} (i : nat) (x : A) (l : list A) : list A :=
  match l, i with [], _ => [] | _ :: r, O => x :: r | y :: r, S j => y :: put j x r end.
(** Derived equality of descriptors. *)
Definition desc_eqb (a b : desc) : bool :=
  (d_slot a =? d_slot b) && (d_gen a =? d_gen b) && (d_off a =? d_off b) && (d_size a =? d_size b).
(** Ghost: the caller gives up one copy of the descriptor. *)
Fixpoint drop_one (d : desc) (l : list desc) : list desc :=
  match l with [] => [] | x :: r => if desc_eqb x d then r else x :: drop_one d r end.

(** A file just created: zero-filled, all slots on the stack, the last one on top (tensor_pool.rs:557-635). *)
Fixpoint all_slots (n : nat) : list N := match n with O => [] | S m => N.of_nat m :: all_slots m end.
(** tensor_pool.rs:557-622 [initialize] *)
Definition pool_init (max_slots threads : nat) : pool :=
  Pool 0 (all_slots max_slots) (fun _ => Slot 0 false 0 0 0 0 0) (fun _ => 0) (repeat PIdle threads) [] (fun _ => true).

Section Pool.
  Variables (max_slots : nat) (pool_size alignment : N).

  (** backend.rs:243-280 [MmapBackend::alloc]: the offset and the new bump pointer. *)
  Definition backend_alloc (next size : N) : option (N * N) :=
    let aligned_current := align_up next alignment in
    let new_offset := aligned_current + size in
    if U64 <=? new_offset then None
    else if pool_size <? new_offset then None
    else Some (aligned_current, new_offset).

  (** tensor_pool.rs:1640-1646: the pop succeeded; record the owner and mark the slot. *)
  Definition claim (x : slot) (pid : N) : slot :=
    Slot (sl_ref x) true (sl_gen x) (sl_off x) (sl_size x) (sl_cap x) pid.

  (** Auxiliary: assignment to one field, where the code assigns to it in place. *)
  Definition set_pc (st : pool) (t : nat) (pc : ppc) : pool :=
    Pool (p_next st) (p_free st) (p_slots st) (p_data st) (put t pc (p_pcs st)) (p_handles st) (p_alive st).

  (** [pop_and_claim] (tensor_pool.rs:1625-1649) *)
  Definition pop (st : pool) (t : nat) (bytes : N) (empty : pool * list outcome) : pool * list outcome :=
    match p_free st with
    | [] => empty
    | s :: r => (Pool (p_next st) r (with_slot (p_slots st) s (claim (p_slots st s) (pid_of t))) (p_data st)
                      (put t (PGot bytes s) (p_pcs st)) (p_handles st) (p_alive st), [])
    end.

  (** tensor_pool.rs:705-760: size checks, then [find_free_slot] (:1585-1607). *)
  Definition alloc_begin (st : pool) (t : nat) (shape : list N) (element_size : N) : pool * list outcome :=
    match tensor_bytes shape element_size with
    | None => (st, [OTooBig t])
    | Some size =>
        if align_up size alignment <? size then (st, [OTooBig t])
        else pop st t size (set_pc st t (PReclaim size 0 0), [])
    end.

  (** tensor_pool.rs:785-812 (reuse of the slot's old region) and :815-880 (a fresh region); on failure
      [push_free_slot] (:818-821), which leaves the flag and the owner as the claim set them. *)
  Definition alloc_finish (st : pool) (t : nat) (size s : N) : pool * list outcome :=
    let aligned := align_up size alignment in
    let x := p_slots st s in
    if (0 <? sl_cap x) && (aligned <=? sl_cap x) then
      let d := Desc s (sl_gen x + 1) (sl_off x) size in
      (Pool (p_next st) (p_free st)
            (with_slot (p_slots st) s (Slot 1 true (sl_gen x + 1) (sl_off x) size (sl_cap x) (pid_of t)))
            (p_data st) (put t PIdle (p_pcs st)) (d :: p_handles st) (p_alive st), [OAlloc t d])
    else
      match backend_alloc (p_next st) aligned with
      | None => (Pool (p_next st) (s :: p_free st) (p_slots st) (p_data st) (put t PIdle (p_pcs st)) (p_handles st)
                      (p_alive st), [ONoMemory t])
      | Some (off, next') =>
          let d := Desc s (sl_gen x + 1) off size in
          (Pool next' (p_free st)
                (with_slot (p_slots st) s (Slot 1 true (sl_gen x + 1) off size aligned (pid_of t)))
                (p_data st) (put t PIdle (p_pcs st)) (d :: p_handles st) (p_alive st), [OAlloc t d])
      end.

  (** One iteration of [reclaim_dead_slots] (tensor_pool.rs:1661-1715). *)
  Definition reclaim_one (st : pool) (i : N) : pool * N :=
    let x := p_slots st i in
    if negb (sl_flag x) then (st, 0)
    else if sl_pid x =? 0 then (st, 0)
    else if p_alive st (sl_pid x) then (st, 0)
    else (Pool (p_next st) (i :: p_free st)
               (with_slot (p_slots st) i (Slot 0 false (sl_gen x + 1) (sl_off x) (sl_size x) (sl_cap x) 0))
               (p_data st) (p_pcs st) (p_handles st) (p_alive st), 1).

  (** [return_slot] (tensor_pool.rs:1723-1795): scrub, mark free, push. *)
  Definition return_slot (st : pool) (t : nat) (s : N) : pool * list outcome :=
    let x := p_slots st s in
    (Pool (p_next st) (s :: p_free st)
          (with_slot (p_slots st) s (Slot (sl_ref x) false (sl_gen x) (sl_off x) (sl_size x) (sl_cap x) 0))
          (fun i => if (sl_off x <=? i) && (i <? sl_off x + sl_size x) then 0 else p_data st i)
          (put t PIdle (p_pcs st)) (p_handles st) (p_alive st), []).

  (** One phase of the call thread [t] is in. *)
  Definition step (st : pool) (t : nat) (pc : ppc) : pool * list outcome :=
    match pc with
    | PIdle => (st, [])
    | PReclaim bytes i n =>
        if i <? N.of_nat max_slots then
          let '(st', k) := reclaim_one st i in (set_pc st' t (PReclaim bytes (i + 1) (n + k)), [])
        else if 0 <? n then (set_pc st t (PRetry bytes), [])
        else (set_pc st t PIdle, [ONoSlot t])
    | PRetry bytes => pop st t bytes (set_pc st t PIdle, [ONoSlot t])
    | PGot bytes s => alloc_finish st t bytes s
    | PReturn s => return_slot st t s
    end.

  (** The [slot_id < max_slots] test of every call. *)
  Definition slot_in_range (d : desc) : bool := d_slot d <? N.of_nat max_slots.

  (** The checks [retain] (tensor_pool.rs:978-1010), [try_retain] (:1013-1084), [release] (:1093-1126) and
      [try_release] (:1134-1185) share, and the reference count if they pass. *)
  Definition ref_of (st : pool) (d : desc) : option N :=
    if slot_in_range d && (sl_gen (p_slots st (d_slot d)) =? d_gen d) then
      let r := sl_ref (p_slots st (d_slot d)) in if r =? 0 then None else Some r
    else None.
  (** The refcount after a compare-exchange. *)
  Definition set_ref (x : slot) (r : N) : slot :=
    Slot r (sl_flag x) (sl_gen x) (sl_off x) (sl_size x) (sl_cap x) (sl_pid x).

  (** tensor_pool.rs:1007-1084 [try_retain] *)
  Definition try_retain (st : pool) (t : nat) (d : desc) : pool * list outcome :=
    match ref_of st d with
    | None => (st, [ORetain t d false])
    | Some r => (Pool (p_next st) (p_free st) (with_slot (p_slots st) (d_slot d) (set_ref (p_slots st (d_slot d)) (r + 1)))
                      (p_data st) (p_pcs st) (d :: p_handles st) (p_alive st), [ORetain t d true])
    end.

  (** tensor_pool.rs:1133-1190 [try_release] *)
  Definition try_release (st : pool) (t : nat) (d : desc) : pool * list outcome :=
    match ref_of st d with
    | None => (st, [ORelease t d false])
    | Some r =>
        (Pool (p_next st) (p_free st) (with_slot (p_slots st) (d_slot d) (set_ref (p_slots st (d_slot d)) (r - 1)))
              (p_data st) (if r =? 1 then put t (PReturn (d_slot d)) (p_pcs st) else p_pcs st)
              (drop_one d (p_handles st)) (p_alive st), [ORelease t d true])
    end.

  (** [data_ptr], [data_slice], [data_slice_mut] (tensor_pool.rs:1201-1345): may these bytes be touched through
      this descriptor? *)
  Definition data_slice_ok (st : pool) (d : desc) : bool :=
    slot_in_range d && (sl_gen (p_slots st (d_slot d)) =? d_gen d) && (d_off d + d_size d <? U64) && (d_off d + d_size d <=? pool_size).

  (** [validate_descriptor] (tensor_pool.rs:1365-1461); the data region is the rest of the mapping. *)
  Definition validate_descriptor (st : pool) (d : desc) : bool :=
    let x := p_slots st (d_slot d) in
    slot_in_range d && sl_flag x && (sl_gen x =? d_gen d) && (d_off d =? sl_off x) && (d_size d =? sl_size x)
    && (d_off d + d_size d <? U64) && (d_off d + d_size d <=? pool_size).

  (** Writing byte [i] of the slice [data_slice_mut] returned. *)
  Definition write_byte (st : pool) (d : desc) (i b : N) : pool :=
    if data_slice_ok st d && (i <? d_size d) then
      Pool (p_next st) (p_free st) (p_slots st) (fun j => if j =? d_off d + i then b else p_data st j) (p_pcs st)
           (p_handles st) (p_alive st)
    else st.

  (** Who does what. *)
  Inductive pact :=
  | AAlloc (t : nat) (shape : list N) (element_size : N)
  | AStep (t : nat)
  | ATryRetain (t : nat) (d : desc)
  | ARelease (t : nat) (d : desc)
  | AWrite (t : nat) (d : desc) (i b : N)
  | ADie (t : nat).                       (* process t + 1 is gone: it takes no further step *)

  (** Is the thread outside any call. *)
  Definition idle (st : pool) (t : nat) : bool :=
    match nth_error (p_pcs st) t with Some PIdle => p_alive st (pid_of t) | _ => false end.

  (** One event of a history: applies the function above that the event names; no code of its own. *)
  Definition act (st : pool) (a : pact) : pool * list outcome :=
    match a with
    | AAlloc t shape esz => if idle st t then alloc_begin st t shape esz else (st, [])
    | AStep t => match nth_error (p_pcs st) t with
                 | Some pc => if p_alive st (pid_of t) then step st t pc else (st, [])
                 | None => (st, []) end
    | ATryRetain t d => if idle st t then try_retain st t d else (st, [])
    | ARelease t d => if idle st t then try_release st t d else (st, [])
    | AWrite t d i b => if idle st t then (write_byte st d i b, []) else (st, [])
    | ADie t => (Pool (p_next st) (p_free st) (p_slots st) (p_data st) (p_pcs st) (p_handles st)
                      (fun p => if p =? pid_of t then false else p_alive st p), [])
    end.

  (** A whole history, event by event; no code of its own. *)
  Fixpoint run (st : pool) (l : list pact) : pool * list outcome :=
    match l with
    | [] => (st, [])
    | a :: r => let '(st1, o) := act st a in let '(st2, o2) := run st1 r in (st2, o ++ o2)
    end.
End Pool.

(** ** Creating a pool file and attaching to it *)
(** tensor_pool.rs:130-140 [PoolHeader], the fields [validate] and [open] look at; the magic number is present,
    that is, [initialize] has finished. *)
Record header := Header { h_version : N; h_pool_id : N; h_pool_size : N; h_max_slots : N; h_alignment : N }.
(** tensor_pool.rs:196-205 [TensorPoolConfig] *)
Record config := Config { c_pool_size : N; c_max_slots : N; c_alignment : N }.
(** How a process that attached finds things in the file: tensor_pool.rs:231-232, :342-345. *)
Record view := View { w_slots_offset : N; w_data_offset : N; w_config : config }.

(** tensor_pool.rs:103 *)
Definition POOL_VERSION : N := 4.
(** tensor_pool.rs:277-282; the header is 64 bytes, a slot 56 (:127-183).  In the code the products and sums are
    unchecked in [new]. *)
Definition data_offset_of (c : config) : N := align_up (64 + c_max_slots c * 56) (c_alignment c).
(** Where an attached process looks. *)
Definition view_of (c : config) : view := View 64 (data_offset_of c) c.

(** [new] by the process that creates the file (:286-291, :557-620): the header it leaves, the file size, its view. *)
Definition pool_create (pool_id : N) (c : config) : header * N * view :=
  (Header POOL_VERSION pool_id (c_pool_size c) (c_max_slots c mod 2 ^ 32) (c_alignment c mod 2 ^ 32),
   data_offset_of c + c_pool_size c, view_of c).
(** [new] by a process that finds the file (:292-304, :348-350, [validate_fields] :655-675). *)
Definition pool_attach (h : header) (pool_id : N) (c : config) : option view :=
  if negb (h_version h =? POOL_VERSION) then None
  else if negb (h_pool_id h =? pool_id) then None
  else Some (view_of c).
(** [open] (:355-466) *)
Definition power_of_two (n : N) : bool := (0 <? n) && (N.land n (n - 1) =? 0).
(** tensor_pool.rs:355-466 [open] *)
Definition pool_open (h : header) (file_size : N) : option view :=
  let c := Config (h_pool_size h) (h_max_slots h) (h_alignment h) in
  if negb (h_version h =? POOL_VERSION) then None
  else if (c_alignment c =? 0) || negb (power_of_two (c_alignment c)) then None
  else if U64 <=? c_max_slots c * 56 then None
  else if U64 <=? 64 + c_max_slots c * 56 then None
  else if U64 <=? data_offset_of c + c_pool_size c then None
  else if file_size <? data_offset_of c + c_pool_size c then None
  else Some (view_of c).
(** The byte of the file that byte [i] of a tensor is (:1193-1245). *)
Definition file_byte (w : view) (d : desc) (i : N) : N := w_data_offset w + d_off d + i.
