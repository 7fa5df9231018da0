(** C12, C14, C48, C49: the tensor pool. *)
From Verif.Base Require Import Prelude.
From Coq Require Import Permutation.
From Verif.Model Require Import TensorPool.
From Verif.Spec Require Import TensorPoolSpec.
From Verif.Proofs Require Import TensorPoolProofs.
Local Open Scope N_scope.

(** C12: whatever threads and processes do at the same time, as long as they use only descriptors they hold (and
    no process is killed half-way, which is what is missing: see the refutations below), every tensor somebody
    holds lies inside the pool and is accessible, its reference count is the number of references held, and two
    different tensors never share a byte. *)
Theorem C12_tensors_disjoint_partial :
  forall (max_slots : nat) (pool_size alignment : N) (threads : nat) (l : list pact),
    1 <= alignment -> pool_size + alignment <= U64 ->
    correct max_slots pool_size alignment [] (pool_init max_slots threads) l ->
    let st := fst (run max_slots pool_size alignment (pool_init max_slots threads) l) in
    (forall d, In d (p_handles st) ->
       d_off d + d_size d <= pool_size /\ references d (p_handles st) = sl_ref (p_slots st (d_slot d)) /\
       data_slice_ok max_slots pool_size st d = true) /\
    (forall a b, In a (p_handles st) -> In b (p_handles st) -> ~ same_tensor a b -> ~ overlap a b).
Proof. intros ms ps al k l Ha Hp C. exact (C12_main ms ps al Ha Hp k l C). Qed.
Print Assumptions C12_tensors_disjoint_partial.

(** Two threads allocate, one tensor travels and is retained by a third, the first reference is dropped. *)
Definition ex_run : list pact :=
  [AAlloc 0 [4; 5] 4; AAlloc 1 [7] 1; AStep 1; AStep 0; ATryRetain 2 (Desc 2 1 64 80); ARelease 0 (Desc 2 1 64 80); AWrite 2 (Desc 2 1 64 80) 79 9].
Example C12_ex :
  correct 3 4096 64 [] (pool_init 3 3) ex_run /\
  p_handles (fst (run 3 4096 64 (pool_init 3 3) ex_run)) = [Desc 2 1 64 80; Desc 1 1 0 7].
Proof. split; [apply correctb_ok|]; vm_compute; reflexivity. Qed.

(** No slot is ever lost or duplicated: once every reference is dropped and nobody is inside an operation, all
    slots are free again. *)
Theorem C12_no_slot_lost_partial :
  forall (max_slots : nat) (pool_size alignment : N) (threads : nat) (l : list pact),
    1 <= alignment -> pool_size + alignment <= U64 ->
    correct max_slots pool_size alignment [] (pool_init max_slots threads) l ->
    let st := fst (run max_slots pool_size alignment (pool_init max_slots threads) l) in
    p_handles st = [] -> (forall t pc, nth_error (p_pcs st) t = Some pc -> pc = PIdle) ->
    Permutation (p_free st) (all_slots max_slots).
Proof. intros ms ps al k l Ha Hp C. exact (no_leak ms ps al Ha Hp k l C). Qed.
Print Assumptions C12_no_slot_lost_partial.
Example C12_no_slot_lost_ex :
  let l := [AAlloc 0 [4] 4; AStep 0; ARelease 0 (Desc 2 1 0 16); AStep 0] in
  correct 3 4096 64 [] (pool_init 3 1) l /\ p_handles (fst (run 3 4096 64 (pool_init 3 1) l)) = [].
Proof. split; [apply correctb_ok|]; vm_compute; reflexivity. Qed.

(** An allocation undisturbed by others succeeds whenever a slot is free and the data region has room, and the
    tensor has exactly the bytes its shape asks for. *)
Theorem C12_alloc_succeeds :
  forall (max_slots : nat) (pool_size alignment : N) (st : pool) (t : nat) (shape : list N) (esz : N),
    1 <= alignment -> nth_error (p_pcs st) t = Some PIdle -> p_alive st (pid_of t) = true -> p_free st <> [] ->
    fold_left N.mul shape 1 * esz + alignment <= U64 -> (forall n, fold_left N.mul (firstn n shape) 1 < U64) ->
    align_up (p_next st) alignment + align_up (fold_left N.mul shape 1 * esz) alignment <= pool_size -> pool_size < U64 ->
    exists d, snd (run max_slots pool_size alignment st [AAlloc t shape esz; AStep t]) = [OAlloc t d] /\
              d_size d = fold_left N.mul shape 1 * esz.
Proof. exact alloc_succeeds. Qed.
Print Assumptions C12_alloc_succeeds.
Example C12_alloc_ex : snd (run 2 256 64 (pool_init 2 1) [AAlloc 0 [2; 3] 8; AStep 0]) = [OAlloc 0 (Desc 1 1 0 48)].
Proof. vm_compute. reflexivity. Qed.

(** C12 fails once processes can die: a slot is reclaimed when its *allocating* process is gone, although another
    live process retained the tensor; the next allocation gets the same bytes. *)
Theorem C12_reclaim_under_live_reader_refuted :
  exists l d d',
    correct_until_killed 1 4096 64 [] (pool_init 1 3) l /\
    let '(st, o) := run 1 4096 64 (pool_init 1 3) l in
    obtained 1 d o /\ obtained 2 d' o /\ never_released d l /\ never_released d' l /\
    p_alive st (pid_of 1) = true /\ p_alive st (pid_of 2) = true /\ ~ same_tensor d d' /\ overlap d d'.
Proof. exact reclaim_under_reader. Qed.
Print Assumptions C12_reclaim_under_live_reader_refuted.

(** C12 fails without any tensor of a dead process being involved: one process dies just after an allocation of
    its failed for lack of memory (the slot went back to the free list still marked as allocated by it), while
    another is scanning for dead owners; the slot is then on the free list twice, and two live processes get it. *)
Theorem C12_double_free_list_entry_refuted :
  exists l d d',
    correct_until_killed 1 128 64 [] (pool_init 1 3) l /\
    let '(st, o) := run 1 128 64 (pool_init 1 3) l in
    In (OAlloc 1 d) o /\ In (OAlloc 2 d') o /\ never_released d l /\ never_released d' l /\
    p_alive st (pid_of 1) = true /\ p_alive st (pid_of 2) = true /\ ~ same_tensor d d' /\ overlap d d'.
Proof. exact double_entry. Qed.
Print Assumptions C12_double_free_list_entry_refuted.

(** C14: once the last reference is gone, nobody can retain or release the tensor through a descriptor kept from
    before, at any later moment and whatever became of the slot. *)
Theorem C14_stale_descriptor_inert_partial :
  forall (max_slots : nat) (pool_size alignment : N) (threads : nat) (l : list pact) (d : desc) (t : nat),
    1 <= alignment -> pool_size + alignment <= U64 ->
    correct max_slots pool_size alignment [] (pool_init max_slots threads) l ->
    let '(st, o) := run max_slots pool_size alignment (pool_init max_slots threads) l in
    In d (issues o) -> ~ In d (p_handles st) ->
    try_retain max_slots st t d = (st, [ORetain t d false]) /\ try_release max_slots st t d = (st, [ORelease t d false]).
Proof. exact stale_inert. Qed.
Print Assumptions C14_stale_descriptor_inert_partial.

(** ... and [validate_descriptor] rejects it, except while its slot is being handed out or taken back, and as
    long as no allocation ran out of memory. *)
Theorem C14_stale_descriptor_invalid_partial :
  forall (max_slots : nat) (pool_size alignment : N) (threads : nat) (l : list pact) (d : desc),
    1 <= alignment -> pool_size + alignment <= U64 ->
    correct max_slots pool_size alignment [] (pool_init max_slots threads) l ->
    let '(st, o) := run max_slots pool_size alignment (pool_init max_slots threads) l in
    In d (issues o) -> ~ In d (p_handles st) ->
    (forall t, ~ In (ONoMemory t) o) ->
    (forall t pc, nth_error (p_pcs st) t = Some pc -> (forall b, pc <> PGot b (d_slot d)) /\ pc <> PReturn (d_slot d)) ->
    validate_descriptor max_slots pool_size st d = false.
Proof. exact stale_invalid. Qed.
Print Assumptions C14_stale_descriptor_invalid_partial.

Definition stale_run : list pact :=
  [AAlloc 0 [4] 4; AStep 0; ARelease 0 (Desc 0 1 0 16); AStep 0; AAlloc 0 [2] 4; AStep 0].
Example C14_ex :
  correct 1 4096 64 [] (pool_init 1 1) stale_run /\
  let '(st, o) := run 1 4096 64 (pool_init 1 1) stale_run in
  In (Desc 0 1 0 16) (issues o) /\ ~ In (Desc 0 1 0 16) (p_handles st) /\ p_handles st = [Desc 0 2 0 8].
Proof.
  split; [apply correctb_ok; vm_compute; reflexivity|]. vm_compute. split; [auto|]. split; [|reflexivity]. intros [E|[]]. discriminate E.
Qed.

(** A live descriptor does validate. *)
Theorem C14_live_descriptor_valid :
  forall (max_slots : nat) (pool_size alignment : N) (threads : nat) (l : list pact) (d : desc),
    1 <= alignment -> pool_size + alignment <= U64 ->
    correct max_slots pool_size alignment [] (pool_init max_slots threads) l ->
    let st := fst (run max_slots pool_size alignment (pool_init max_slots threads) l) in
    In d (p_handles st) -> validate_descriptor max_slots pool_size st d = true.
Proof. exact live_valid. Qed.
Print Assumptions C14_live_descriptor_valid.

(** A descriptor that validates is, in every field, one this pool handed out (or the empty descriptor of a slot never
    used): a made-up slot, generation, offset or size is refused whatever clients do, as long as none is killed. *)
Theorem C14_forged_descriptor_refused :
  forall (max_slots : nat) (pool_size alignment : N) (threads : nat) (l : list pact) (d : desc),
    (forall t, ~ In (ADie t) l) ->
    let '(st, o) := run max_slots pool_size alignment (pool_init max_slots threads) l in
    validate_descriptor max_slots pool_size st d = true ->
    In d (issues o) \/ d = Desc (d_slot d) 0 0 0.
Proof.
  intros ms ps al th l d Hd. pose proof (run_genuine ms ps al l (pool_init ms th) [] Hd) as G.
  destruct (run ms ps al (pool_init ms th) l) as [st o]. cbn [fst snd] in G. intros V.
  specialize (G ltac:(split; [auto|intros s; right; reflexivity])). destruct G as (_ & G). specialize (G (d_slot d)). cbn [app] in G.
  unfold validate_descriptor in V. bool_prop. destruct d as [s g off sz]. cbn [d_slot d_gen d_off d_size] in *. subst.
  destruct G as [G|G]; [left; auto|right]. rewrite G. reflexivity.
Qed.
Print Assumptions C14_forged_descriptor_refused.

(** Whatever descriptors clients make up, and whoever dies when, no byte outside the pool's data region is written, and
    the region of every slot lies inside it. *)
Theorem C14_writes_confined :
  forall (max_slots : nat) (pool_size alignment : N) (threads : nat) (l : list pact),
    let st := fst (run max_slots pool_size alignment (pool_init max_slots threads) l) in
    (forall i, pool_size <= i -> p_data st i = 0) /\
    (forall s, sl_off (p_slots st s) + sl_size (p_slots st s) <= pool_size) /\
    (forall d, data_slice_ok max_slots pool_size st d = true -> d_off d + d_size d <= pool_size).
Proof.
  intros ms ps al th l st. destruct (confined_run ms ps al l _ (confined_init ms ps al th)) as (A & _ & B).
  split; [|split]; auto. - intros s. apply A. - intros d H. unfold data_slice_ok in H. bool_prop. lia.
Qed.
Print Assumptions C14_writes_confined.
(** A forged descriptor reaching past the end writes nothing there; one inside writes. *)
Example C14_writes_confined_ex :
  let l := [AAlloc 0 [4; 5] 4; AStep 0; AWrite 1 (Desc 1 1 64 80) 79 9; AWrite 1 (Desc 1 1 0 80) 79 9] in
  let st := fst (run 2 128 64 (pool_init 2 2) l) in p_data st 143 = 0 /\ p_data st 79 = 9.
Proof. split; vm_compute; reflexivity. Qed.

(** Neither exception is superfluous: after an allocation that ran out of memory, and in the middle of one, the
    descriptor of a tensor that is gone validates. *)
Theorem C14_validate_after_failed_alloc_refuted :
  exists l d,
    correct 1 128 64 [] (pool_init 1 2) l /\
    let '(st, o) := run 1 128 64 (pool_init 1 2) l in
    In d (issues o) /\ p_handles st = [] /\ (forall t pc, nth_error (p_pcs st) t = Some pc -> pc = PIdle) /\
    validate_descriptor 1 128 st d = true.
Proof. exact validate_failed_alloc. Qed.
Print Assumptions C14_validate_after_failed_alloc_refuted.
Theorem C14_validate_during_alloc_refuted :
  exists l d,
    correct 1 128 64 [] (pool_init 1 2) l /\
    let '(st, o) := run 1 128 64 (pool_init 1 2) l in
    In d (issues o) /\ p_handles st = [] /\ (forall t, ~ In (ONoMemory t) o) /\ validate_descriptor 1 128 st d = true.
Proof. exact validate_during_alloc. Qed.
Print Assumptions C14_validate_during_alloc_refuted.
(** And [data_slice]/[data_slice_mut] hand out the bytes of a tensor that was released, until its slot is reused. *)
Theorem C14_released_tensor_writable_refuted :
  exists l d,
    correct 1 128 64 [] (pool_init 1 2) l /\
    let '(st, o) := run 1 128 64 (pool_init 1 2) l in
    In d (issues o) /\ p_handles st = [] /\ (forall t pc, nth_error (p_pcs st) t = Some pc -> pc = PIdle) /\
    data_slice_ok 1 128 st d = true /\ p_data (write_byte 1 128 st d 3 77) 3 = 77.
Proof. exact released_writable. Qed.
Print Assumptions C14_released_tensor_writable_refuted.

(** C48: the bytes of a tensor just allocated are all zero, whatever tensors occupied them before. *)
Theorem C48_fresh_tensor_zeroed_partial :
  forall (max_slots : nat) (pool_size alignment : N) (threads : nat) (l : list pact) (a : pact) (t : nat) (d : desc),
    1 <= alignment -> pool_size + alignment <= U64 ->
    correct max_slots pool_size alignment [] (pool_init max_slots threads) (l ++ [a]) ->
    let st := fst (run max_slots pool_size alignment (pool_init max_slots threads) l) in
    let '(st', o) := act max_slots pool_size alignment st a in
    In (OAlloc t d) o -> forall i, i < d_size d -> p_data st' (d_off d + i) = 0.
Proof. exact fresh_zeroed. Qed.
Print Assumptions C48_fresh_tensor_zeroed_partial.
(** A dirty region is reused by a smaller tensor, then by a larger one. *)
Example C48_ex :
  let l := [AAlloc 0 [64] 1; AStep 0; AWrite 0 (Desc 0 1 0 64) 63 5; ARelease 0 (Desc 0 1 0 64); AStep 0;
            AAlloc 0 [8] 1; AStep 0; AWrite 0 (Desc 0 2 0 8) 7 6; ARelease 0 (Desc 0 2 0 8); AStep 0;
            AAlloc 0 [64] 1; AStep 0] in
  correct 1 64 64 [] (pool_init 1 1) l /\ p_handles (fst (run 1 64 64 (pool_init 1 1) l)) = [Desc 0 3 0 64].
Proof. split; [apply correctb_ok|]; vm_compute; reflexivity. Qed.

(** With deaths it fails: reclaiming a dead process's tensor does not scrub it. *)
Theorem C48_reclaimed_tensor_not_scrubbed_refuted :
  forall b, exists l d,
    correct_until_killed 1 64 64 [] (pool_init 1 2) l /\
    let '(st, o) := run 1 64 64 (pool_init 1 2) l in
    In (OAlloc 1 d) o /\ (forall t i c, ~ In (AWrite t d i c) l) /\ d_size d = 64 /\ p_data st (d_off d + 3) = b.
Proof. exact not_scrubbed. Qed.
Print Assumptions C48_reclaimed_tensor_not_scrubbed_refuted.

(** C49: a process that opens an existing pool finds the slots and the data exactly where its creator put them,
    and everything it may touch is inside the file. *)
Theorem C49_open_sees_creators_layout :
  forall (pool_id : N) (c : config) (h : header) (size : N) (w : view),
    c_max_slots c < 2 ^ 32 -> c_alignment c = 2 ^ N.log2 (c_alignment c) -> c_alignment c < 2 ^ 32 ->
    64 + c_max_slots c * 56 + c_alignment c + c_pool_size c < U64 ->
    pool_create pool_id c = (h, size, w) ->
    pool_open h size = Some w /\ w_slots_offset w + c_max_slots c * 56 <= w_data_offset w /\
    w_data_offset w + c_pool_size c <= size.
Proof. exact open_creator. Qed.
Print Assumptions C49_open_sees_creators_layout.
Example C49_ex : pool_create 7 (Config 1073741824 1024 64) = (Header 4 7 1073741824 1024 64, 1073799232, View 64 57408 (Config 1073741824 1024 64)).
Proof. vm_compute. reflexivity. Qed.
(** A process that asks for one pool never attaches to the file of another. *)
Theorem C49_other_pool_refused :
  forall (pool_id pool_id' : N) (c c' : config) (h : header) (size : N) (w : view),
    pool_create pool_id c = (h, size, w) -> (pool_attach h pool_id' c' <> None <-> pool_id' = pool_id).
Proof.
  intros a b c c' h size w E. injection E as <- <- <-. unfold pool_attach. cbn [h_version h_pool_id]. rewrite N.eqb_refl. cbn [negb].
  destruct (N.eqb_spec a b) as [->|Hn]; cbn [negb]; split; congruence.
Qed.
Print Assumptions C49_other_pool_refused.

(** ... and with a header of any other shape, [open] only succeeds if everything fits in the file. *)
Theorem C49_open_stays_in_file :
  forall (h : header) (size : N) (w : view),
    pool_open h size = Some w -> h_max_slots h < 2 ^ 32 -> h_alignment h < 2 ^ 32 ->
    w_slots_offset w + h_max_slots h * 56 <= w_data_offset w /\ w_data_offset w + h_pool_size h <= size.
Proof. exact open_in_file. Qed.
Print Assumptions C49_open_stays_in_file.
Example C49_open_ex : pool_open (Header 4 7 4096 8 64) 5000 = Some (View 64 512 (Config 4096 8 64)).
Proof. vm_compute. reflexivity. Qed.

(** [new] on an existing pool, given another number of slots, is accepted too, but then the two processes disagree
    on where the data is: two different tensors, both in bounds and with disjoint offsets, share bytes of the file. *)
Theorem C49_new_with_other_config_refuted :
  exists (c1 c2 : config) (h : header) (size : N) (w1 w2 : view),
    pool_create 7 c1 = (h, size, w1) /\ pool_attach h 7 c2 = Some w2 /\
    let '(_, o) := run 8 4096 64 (pool_init 8 2) [AAlloc 0 [64] 1; AStep 0; AAlloc 1 [64] 1; AStep 1] in
    exists d1 d2 i j, In (OAlloc 0 d1) o /\ In (OAlloc 1 d2) o /\ ~ overlap d1 d2 /\
      i < d_size d1 /\ j < d_size d2 /\ file_byte w2 d1 i = file_byte w1 d2 j.
Proof. exact other_config. Qed.
Print Assumptions C49_new_with_other_config_refuted.
