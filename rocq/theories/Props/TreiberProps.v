(** C13: the lock-free free list. *)
From Verif.Base Require Import Prelude.
From Coq Require Import Permutation.
From Verif.Model Require Import Treiber.
From Verif.Spec Require Import TreiberSpec.
From Verif.Proofs Require Import TreiberProofs.
Local Open Scope N_scope.

(** Any number of slots and threads, every interleaving of single memory operations, spurious failures
    included, threads that stop for ever anywhere: the results of the calls are those of a sequential stack, every
    slot is free, handed out or on its way back, and no slot is two of these or handed out twice.  [prompt] is the condition in the
    property: no attempt spans 2^32 updates of the head. *)
Theorem C13_each_slot_one_owner : forall n k l,
  N.of_nat n <= 2 ^ 32 - 1 -> prompt (t_init n k) l ->
  let st := fst (t_run (t_init n k) l) in
  exists free, stack_allows (fresh_stack n) (snd (t_run (t_init n k) l)) free /\
    Permutation (free ++ t_held st ++ in_flight st) (fresh_stack n) /\ NoDup (t_held st ++ in_flight st).
Proof. exact treiber_main. Qed.
Print Assumptions C13_each_slot_one_owner.

(** Two threads pop at once; one loses the race, retries and gets the other slot. *)
Definition ex_race : list tact :=
  DoPop 0 :: DoPop 1 :: steps 0 2 ++ steps 1 3 ++ steps 0 1 ++ steps 0 3 ++ DoPush 1 1 :: steps 1 3.
Example C13_ex : prompt (t_init 2 2) ex_race /\
  snd (t_run (t_init 2 2) ex_race) = [Popped 1 1; Popped 0 0; Pushed 1 1] /\
  t_held (fst (t_run (t_init 2 2) ex_race)) = [0].
Proof. vm_compute. repeat split. Qed.

(** Lock freedom: a compare-and-swap that fails for a reason lost to another thread's successful one. *)
Theorem C13_failure_means_progress : forall n k l t pc a,
  N.of_nat n <= 2 ^ 32 - 1 -> prompt (t_init n k) l ->
  let st := fst (t_run (t_init n k) l) in
  nth_error (t_pcs st) t = Some pc -> loaded_at pc = Some a ->
  snd (t_act st (DoStep t false)) = [] -> a < t_updates st.
Proof.
  intros n k l t pc a Hn Hp st. destruct (run_inv n l _ _ (init_inv n k Hn) Hp) as (q & H & _). exact (failed_lost n st q t pc a H).
Qed.
Print Assumptions C13_failure_means_progress.
Example C13_progress_ex :
  let st := fst (t_run (t_init 2 2) (DoPop 0 :: DoPop 1 :: steps 0 2 ++ steps 1 3)) in
  nth_error (t_pcs st) 0 = Some (TPopCas (pack_tagged_head 0 1) 0 0) /\ snd (t_act st (DoStep 0 false)) = [] /\ t_updates st = 1.
Proof. vm_compute. auto. Qed.

(** The tag is 32 bits wide: a thread that sleeps through exactly 2^32 updates is fooled, and a slot is handed out
    twice. *)
Theorem C13_tag_wrap_refuted : exists l, ~ NoDup (t_held (fst (t_run (t_init 3 2) l))).
Proof.
  exists (aba_pre ++ concat (repeat (pop_push 1 2) (N.to_nat (2 ^ 31 - 2))) ++ aba_post).
  rewrite aba_run by apply N2Nat.id. intros H. inversion H as [|? ? X _]; subst. apply X. cbn. auto.
Qed.
Print Assumptions C13_tag_wrap_refuted.
