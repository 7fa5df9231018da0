(** Where the parts of a topic's shared memory lie, how large the mapping of each handle is, and how it grows.
    horus_core/src/communication/topic/{shm_layout.rs, mod.rs}, horus_sys/src/shm/linux.rs. *)
From Verif.Base Require Import Prelude.
Local Open Scope N_scope.

(** shm_layout.rs:60 *)
Definition HEADER_SIZE : N := 640.
(** shm_layout.rs:128-131 [seq_slot_offset] *)
Definition seq_slot_offset (index : N) : N := HEADER_SIZE + index * 8.
(** shm_layout.rs:138-141 [data_region_offset] *)
Definition data_region_offset (capacity : N) : N := HEADER_SIZE + capacity * 8.
(** shm_layout.rs:146-149 [data_slot_offset] *)
Definition data_slot_offset (capacity index stride : N) : N := data_region_offset capacity + index * stride.
(** shm_layout.rs:152-155 [required_region_len]; the same sum is written out in mod.rs:953-956 *)
Definition required_region_len (capacity stride : N) : N := data_region_offset capacity + capacity * stride.

(** u32::next_power_of_two, for arguments up to 2^31 *)
Definition next_power_of_two (n : N) : N := 2 ^ N.log2_up n.

(** local_state.rs:10 and mod.rs:917 *)
Definition DEFAULT_SLOT_SIZE : N := 8192.
(** mod.rs:917 *)
Definition MAX_SLOT_SIZE : N := 1048576.

(** mod.rs:908-931: what the constructor accepts *)
Definition accepted (capacity : N) (slot_size : option N) : bool :=
  negb (capacity =? 0) &&
  match slot_size with None => true | Some s => negb (s =? 0) && (s <=? MAX_SLOT_SIZE) end.
(** mod.rs:936-951 *)
Definition actual_slot_size (is_pod : bool) (type_size : N) (slot_size : option N) : N :=
  if is_pod then if type_size + 8 <=? 64 then 64 else type_size
  else match slot_size with Some s => s | None => DEFAULT_SLOT_SIZE end.
(** Bytes between two data slots: POD routines index by the type (e.g. dispatch.rs:727), serialised ones by
    the slot size (e.g. dispatch.rs:1103). *)
Definition stride (is_pod : bool) (type_size slot : N) : N := if is_pod then type_size else slot.
(** Bytes a send of [len] payload bytes touches from the start of its slot: raw copy, or ready word, length
    word and payload (dispatch.rs:1117-1128, shm_layout.rs:92-99).  A serialised message is stored inline
    only if [len <= slot - 16] (saturating, dispatch.rs:1040, 1062). *)
Definition touched (is_pod : bool) (type_size len : N) : N := if is_pod then type_size else 16 + len.
(** Is a payload stored in its slot rather than spilled: dispatch.rs:1040-1062. *)
Definition stored_inline (slot len : N) : bool := len <=? slot - 16.

(** ** Mappings *)

(** A handle: how much it has mapped, and the capacity and slot size it has cached (LocalState, the capacity
    being 0 until the first send or recv, local_state.rs:10-60). *)
Record mhandle := MHandle { h_map : N; h_cap : N; h_slot : N }.
(** Simplifications: a joiner that arrives before the header is written waits for it (mod.rs:1051-1120) and is
    modelled as not using the topic until then; the checks of type size, alignment and plainness
    (mod.rs:1053-1110) are not modelled, nor is unlinking the file; a capacity here is already rounded up to a
    power of two (mod.rs:953, header.rs init).
    The backing file's length ([None]: no file), the header's capacity and slot size once initialised, and the
    handles. [m_wait] holds the size an owner has asked for before it set the file's length. *)
Record msys := MSys { m_file : option N; m_hdr : option (N * N); m_wait : nat -> option (N * N); m_h : nat -> option mhandle }.
(** No file yet. *)
Definition m_init : msys := MSys None None (fun _ => None) (fun _ => None).
(** Auxiliary: update of a total function at one point (a store to one array element). *)
Definition updh {B} (f : nat -> B) (i : nat) (b : B) : nat -> B := fun j => if Nat.eqb j i then b else f j.

(** What processes do to the file. *)
Inductive mop :=
| MOpen (h : nat) (cap slot : N)   (* linux.rs:86-127: create the file, or open and map an existing one *)
| MSetLen (h : nat)                (* linux.rs:94, 140-150 and mod.rs:1036-1048: the owner sets the length, maps, and writes the header *)
| MEnsure (h : nat)                (* mod.rs:1299-1335, 1193: first send or recv of a handle takes over capacity and slot size *)
| MEpoch (h : nat)                 (* mod.rs:1879-1958 [handle_epoch_change]: take over, and extend the mapping if needed *)
| MGrow (h : nat) (needed : N).    (* mod.rs:1762-1825 [auto_grow_slot_size] *)

(** linux.rs:224-260 [grow_unchecked]: refuses unless larger than the current mapping; sets the file length. *)
Definition grow_unchecked (s : msys) (h : nat) (x : mhandle) (new_size : N) : option msys :=
  if h_map x <? new_size
  then Some (MSys (Some new_size) (m_hdr s) (m_wait s) (updh (m_h s) h (Some (MHandle new_size (h_cap x) (h_slot x)))))
  else None.

(** mod.rs:1766-1767 *)
Definition grown_slot (old needed : N) : N := N.max (next_power_of_two (needed + 16 + needed / 4)) (old * 2).

(** One event of a history: applies the function above that the event names; no code of its own. *)
Definition m_step (s : msys) (o : mop) : msys :=
  match o with
  | MOpen h cap slot =>
      let size := required_region_len cap slot in
      match m_file s with
      | None => MSys (Some 0) (m_hdr s) (updh (m_wait s) h (Some (cap, slot))) (m_h s)
      | Some len =>
          let size' := N.max size len in
          let slot' := match m_hdr s with Some (_, sl) => sl | None => slot end in
          MSys (Some size') (m_hdr s) (m_wait s) (updh (m_h s) h (Some (MHandle size' 0 slot')))
      end
  | MSetLen h =>
      match m_wait s h with
      | Some (cap, slot) =>
          let size := required_region_len cap slot in
          MSys (Some size) (Some (cap, slot)) (updh (m_wait s) h None) (updh (m_h s) h (Some (MHandle size 0 slot)))
      | None => s
      end
  | MEnsure h =>
      match m_h s h, m_hdr s with
      | Some x, Some (cap, slot) => MSys (m_file s) (m_hdr s) (m_wait s) (updh (m_h s) h (Some (MHandle (h_map x) cap slot)))
      | _, _ => s
      end
  | MEpoch h =>
      match m_h s h, m_hdr s with
      | Some x, Some (cap, slot) =>
          let x' := MHandle (h_map x) cap slot in
          let s' := MSys (m_file s) (m_hdr s) (m_wait s) (updh (m_h s) h (Some x')) in
          match grow_unchecked s' h x' (required_region_len cap slot) with Some s2 => s2 | None => s' end
      | _, _ => s
      end
  | MGrow h needed =>
      match m_h s h, m_hdr s with
      | Some x, Some (cap, _) =>
          let new := grown_slot (h_slot x) needed in
          if h_cap x =? 0 then s else
          match grow_unchecked s h x (required_region_len (h_cap x) new) with
          | Some s2 => MSys (m_file s2) (Some (cap, new)) (m_wait s2)
                         (updh (m_h s2) h (Some (MHandle (required_region_len (h_cap x) new) cap new)))
          | None => s
          end
      | _, _ => s
      end
  end.
(** A whole history, event by event; no code of its own. *)
Definition m_run (ops : list mop) : msys := fold_left m_step ops m_init.
