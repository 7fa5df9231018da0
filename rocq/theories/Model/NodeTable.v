(** The live table of nodes that a scheduler keeps in shared memory and that
    `horus node list` reads.  Models horus_core/src/scheduling/registry.rs:16-410,
    byte for byte: a header of 64 bytes and 64 slots of 192 bytes.
    Not modelled: reads that overlap a write, floating-point conversion of the
    rate (the field's value is taken), mapping and creating the file. *)
From Verif.Base Require Import Prelude Bytes Str.
From Verif.Model Require Import LogEntry.
Open Scope nat_scope.

(** The mapped file: a byte at every address (registry.rs:130-175). *)
Definition mem := nat -> N.
(** Writing bytes at an address ([copy_nonoverlapping], atomic stores, registry.rs:217-252). *)
Definition put (m : mem) (a : nat) (bs : bytes) : mem :=
  fun x => if (a <=? x) && (x <? a + length bs) then nth (x - a) bs 0%N else m x.
(** Reading [n] bytes at an address (registry.rs:346-388). *)
Definition get (m : mem) (a n : nat) : bytes := map m (seq a n).

(** registry.rs:17, 20, 23, 26, 29. *)
Definition REG_MAGIC : N := 5210473820314551623.
Definition REG_VERSION : N := 1. (** registry.rs:20 *)
Definition MAX_NODES : nat := 64. (** registry.rs:23 *)
Definition HEADER : nat := 64. (** registry.rs:26 *)
Definition SLOT : nat := 192. (** registry.rs:29 *)

(** Where slot [k] begins, registry.rs:207, 287, 340. *)
Definition slot_at (k : nat) : nat := HEADER + k * SLOT.

(** The number fields of a slot, offset and width, registry.rs:54-96, 364-388: state, health,
    class, order, rate; ticks, errors, budget misses, deadline misses, watchdog
    severity; last, average, longest and 99th percentile tick. *)
Definition fields : list (nat * nat) :=
  [(48, 1); (49, 1); (50, 1); (51, 1); (52, 4); (64, 8); (72, 4); (76, 4); (80, 4); (84, 1); (128, 8); (136, 8); (144, 8); (152, 8)].
(** Those that [update_node] writes, registry.rs:290-301. *)
Definition ufields : list (nat * nat) :=
  [(49, 1); (64, 8); (72, 4); (76, 4); (80, 4); (84, 1); (128, 8); (136, 8); (144, 8); (152, 8)].

(** Writing values into fields of the slot at [b]. *)
Fixpoint write_fields (m : mem) (b : nat) (fs : list (nat * nat)) (vs : list N) : mem :=
  match fs, vs with
  | (o, w) :: fs', v :: vs' => write_fields (put m (b + o) (le_enc w v)) b fs' vs'
  | _, _ => m
  end.
(** Reading them, registry.rs:364-388. *)
Definition read_fields (m : mem) (b : nat) (fs : list (nat * nat)) : list N :=
  map (fun f => le_dec (get m (b + fst f) (snd f))) fs.

(** The count of nodes, registry.rs:199-200, 333-335. *)
Definition count_of (m : mem) : nat := N.to_nat (le_dec (get m 12 4)).

(** [init_header], registry.rs:178-193 (what [open] does to a file, whatever is in it). *)
Definition init_header (m : mem) (pid : N) : mem :=
  put (put (put (put m 8 (le_enc 4 REG_VERSION)) 12 (le_enc 4 0)) 16 (le_enc 4 pid)) 0 (le_enc 8 REG_MAGIC).

(** The 48 bytes written for a name, registry.rs:213-217. *)
Definition name_field (name : bytes) : bytes :=
  firstn 47 name ++ repeat 0%N (48 - length (firstn 47 name)).

(** [register_node], registry.rs:196-256: the memory and the slot's index. *)
Definition register (m : mem) (name : bytes) (order rate class : N) : mem * nat :=
  let count := count_of m in
  if MAX_NODES <=? count then (m, Nat.min count (MAX_NODES - 1))
  else
    let b := slot_at count in
    let m1 := put m b (name_field name) in
    let m2 := write_fields m1 b fields [0; 0; class; order; rate; 0; 0; 0; 0; 0; 0; 0; 0; 0]%N in
    (put m2 12 (le_enc 4 (N.of_nat (count + 1))), count).

(** [update_node], registry.rs:264-303: [vs] are its arguments after the slot, in order. *)
Definition update (m : mem) (idx : nat) (vs : list N) : mem :=
  if MAX_NODES <=? idx then m else write_fields m (slot_at idx) ufields vs.

(** The bytes before the first zero, registry.rs:349-351. *)
Fixpoint to_zero (l : bytes) : bytes :=
  match l with
  | [] => []
  | x :: r => if (x =? 0)%N then [] else x :: to_zero r
  end.
(** The name of slot [k] as it is read, registry.rs:347-354. *)
Definition read_name (m : mem) (k : nat) : bytes :=
  let n := to_zero (get m (slot_at k) 48) in
  if utf8 n then n else [].

(** One slot as it is listed, registry.rs:345-406: none without a name. *)
Definition read_slot (m : mem) (k : nat) : list (bytes * list N) :=
  match read_name m k with
  | [] => []
  | n => [(n, read_fields m (slot_at k) fields)]
  end.
(** [read_all_slots_from_path], registry.rs:315-410, for a file of full size. *)
Definition read_all (m : mem) : option (list (bytes * list N)) :=
  if (le_dec (get m 0 8) =? REG_MAGIC)%N
  then Some (flat_map (read_slot m) (seq 0 (Nat.min (count_of m) MAX_NODES)))
  else None.

(** What a scheduler does to its table, scheduler/mod.rs:2592-2625, 4435-4476 and types.rs:928-975:
    registers its nodes; writes a node's numbers into the slot the node was given. *)
Inductive op := Reg (name : bytes) (order rate class : N) | Upd (idx : nat) (vs : list N).
(** One of them. *)
Definition step (m : mem) (o : op) : mem :=
  match o with
  | Reg n o r c => fst (register m n o r c)
  | Upd i vs => update m i vs
  end.
(** A history of a scheduler's table, from the opening of the file. *)
Definition run (m : mem) (os : list op) : mem := fold_left step os m.
