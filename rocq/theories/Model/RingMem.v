(** The shared-memory region of a ring topic, as the POD paths see it, and the arithmetic on it.

    What is simplified, once and for all, for every model built on this file:
    - Memory is sequentially consistent.  Each model step makes at most one shared-memory access, so
      every interleaving of single accesses is a schedule; reorderings that the Acquire/Release
      annotations would have to rule out are not modelled.
    - A message is a list of [W] words and is copied one word per step ([simd_aware_write] and
      [simd_aware_read], simd.rs, copy 32 or 8 bytes at a time or fall back to memcpy), so a
      preemption between any two words is a schedule.
    - [head], [tail] and the sequence numbers are unbounded.  The code uses u64 and relies on never
      reaching 2^63 (shm_layout.rs:105-113).  Differences are taken with [wsub], which wraps when the
      second argument is larger, as u64::wrapping_sub does. *)
From Verif.Base Require Import Prelude.
Local Open Scope N_scope.

(** A message of a fixed-size type: [W] words. *)
Notation msg := (list N) (only parsing).

(** One word of the per-slot ready array: [seq + 1], with the [SLOT_WRITING] high bit kept apart
    (horus_core/src/communication/topic/shm_layout.rs:104-113). *)
Record stamp := Stamp { st_writing : bool; st_num : N }.

(** The shared region: [sequence_or_head], [tail] (header.rs:165-300), the ready array and the data
    slots (shm_layout.rs:120-160). *)
Record smem := SMem {
  sm_head : N;
  sm_tail : N;
  sm_ready : N -> stamp;
  sm_data : N -> msg
}.

(** A fresh region: header.rs:290-370, a new region is zeroed. *)
Definition smem0 (W : nat) : smem :=
  SMem 0 0 (fun _ => Stamp false 0) (fun _ => repeat 0 W).

(** u64::wrapping_sub. *)
Definition wsub (a b : N) : N := if b <=? a then a - b else a + 2 ^ 64 - b.

(** Ring capacity [2^k] and the slot of a sequence number, [seq & (capacity - 1)]
    (dispatch.rs:801, mod.rs:953: capacities are powers of two). *)
Definition cap (k : N) : N := 2 ^ k.
(** [seq & (capacity - 1)] *)
Definition slot (k s : N) : N := N.land s (N.ones k).

(** Auxiliary: update of a total function at one point (a store to one array element). *)
Definition upd {A} (f : N -> A) (i : N) (a : A) : N -> A := fun j => if j =? i then a else f j.
(** Auxiliary: update of a total function at one point (a store to one array element). *)
Definition updn {A} (f : nat -> A) (i : nat) (a : A) : nat -> A := fun j => if Nat.eqb j i then a else f j.

(** Store one word of a slot. *)
Fixpoint set_word (j : nat) (w : N) (l : list N) : list N :=
  match j, l with
  | _, [] => []
  | O, _ :: r => w :: r
  | S j', x :: r => x :: set_word j' w r
  end.

(** A store to the head word. *)
Definition set_head (m : smem) (h : N) : smem := SMem h (sm_tail m) (sm_ready m) (sm_data m).
(** A store to the tail word. *)
Definition set_tail (m : smem) (t : N) : smem := SMem (sm_head m) t (sm_ready m) (sm_data m).
(** A store to a slot's ready stamp. *)
Definition set_ready (m : smem) (i : N) (s : stamp) : smem :=
  SMem (sm_head m) (sm_tail m) (upd (sm_ready m) i s) (sm_data m).
(** A store to one payload word. *)
Definition set_data (m : smem) (i : N) (j : nat) (w : N) : smem :=
  SMem (sm_head m) (sm_tail m) (sm_ready m) (upd (sm_data m) i (set_word j w (sm_data m i))).
