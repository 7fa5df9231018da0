(** The tensor pool's lock-free free list: horus_core/src/memory/tensor_pool.rs, the tagged head and the
    pop and push loops, one atomic memory operation per step, any number of threads and processes. *)
From Verif.Base Require Import Prelude.
Local Open Scope N_scope.

(** tensor_pool.rs:110 *)
Definition INVALID_SLOT : N := 2 ^ 32 - 1.

(** tensor_pool.rs:114-116 [pack_tagged_head] *)
Definition pack_tagged_head (generation slot_id : N) : N := N.lor (N.shiftl generation 32) slot_id.
(** tensor_pool.rs:119-123 [unpack_tagged_head] *)
Definition unpack_tagged_head (tagged : N) : N * N := (N.shiftr tagged 32, N.land tagged (2 ^ 32 - 1)).

(** [u32::wrapping_add(1)] *)
Definition wrap_succ (g : N) : N := (g + 1) mod 2 ^ 32.

(** Where a thread is inside [pop_and_claim] (tensor_pool.rs:1625-1649) or the push loop of [return_slot]
    (:1772-1786) and [push_free_slot] (:1807-1825; the same loop).  The last argument of the loaded states is
    instrumentation: how many updates of the head had happened when it was loaded. *)
Inductive tpc :=
| TIdle
| TPop                                      (* about to load the head, :1628 *)
| TPopNext (tagged : N) (at_ : N)           (* about to load next_free of the top, :1634 *)
| TPopCas (tagged next : N) (at_ : N)       (* about to compare-and-swap, :1637 *)
| TPush (s : N)                             (* about to load the head, :1773 *)
| TPushNext (s tagged : N) (at_ : N)        (* about to store next_free, :1775 *)
| TPushCas (s tagged : N) (at_ : N).        (* about to compare-and-swap, :1778 *)

(** What callers see. *)
Inductive tevent :=
| Popped (t : nat) (s : N)      (* pop_and_claim returned Some(s) *)
| PopNone (t : nat)             (* pop_and_claim returned None *)
| Pushed (t : nat) (s : N).     (* the push loop finished *)

(** [t_head] and [t_next] are shared memory; [t_held] are the slots handed out and not yet given back;
    [t_updates] counts the successful compare-and-swaps (instrumentation). *)
Record tstate := TState { t_head : N; t_next : N -> N; t_pcs : list tpc; t_held : list N; t_updates : N }.

(** tensor_pool.rs:575-613, the part of [initialize] that links slots 0 .. n-1 on the stack. *)
Fixpoint init_next (n : nat) : N -> N :=
  match n with
  | O => fun _ => 0
  | S m => fun s => if s =? N.of_nat m then (match m with O => INVALID_SLOT | S p => N.of_nat p end) else init_next m s
  end.
(** tensor_pool.rs:578-591: the head after linking *)
Definition init_head (n : nat) : N := match n with O => INVALID_SLOT | S m => N.of_nat m end.
(** A new stack of [n] slots. *)
Definition t_init (n threads : nat) : tstate :=
  TState (pack_tagged_head 0 (init_head n)) (init_next n) (repeat TIdle threads) [] 0.

(** What the environment does: a thread begins a pop, begins to give back a slot it was handed, or takes one
    step.  [spurious] is the freedom of [compare_exchange_weak] to fail without reason. *)
Inductive tact :=
| DoPop (t : nat)
| DoPush (t : nat) (s : N)
| DoStep (t : nat) (spurious : bool).

(** Auxiliary: store to one array element. *)
Fixpoint set_at {A} (i : nat) (x : A) (l : list A) : list A :=
  match l, i with
  | [], _ => []
  | _ :: r, O => x :: r
  | y :: r, S j => y :: set_at j x r
  end.
(** Ghost: the slot is no longer handed out. *)
Fixpoint remove_one (s : N) (l : list N) : list N :=
  match l with [] => [] | x :: r => if x =? s then r else x :: remove_one s r end.

(** One step of thread [t] at [pc]. *)
Definition t_step (st : tstate) (t : nat) (pc : tpc) (spurious : bool) : tstate * list tevent :=
  let set pc' := TState (t_head st) (t_next st) (set_at t pc' (t_pcs st)) (t_held st) (t_updates st) in
  match pc with
  | TIdle => (st, [])
  | TPop =>
      let '(_, slot_id) := unpack_tagged_head (t_head st) in
      if slot_id =? INVALID_SLOT then (set TIdle, [PopNone t])
      else (set (TPopNext (t_head st) (t_updates st)), [])
  | TPopNext tagged a =>
      let '(_, slot_id) := unpack_tagged_head tagged in
      (set (TPopCas tagged (t_next st slot_id) a), [])
  | TPopCas tagged next _ =>
      let '(generation, slot_id) := unpack_tagged_head tagged in
      if (t_head st =? tagged) && negb spurious then
        (TState (pack_tagged_head (wrap_succ generation) next) (t_next st) (set_at t TIdle (t_pcs st))
                (slot_id :: t_held st) (t_updates st + 1), [Popped t slot_id])
      else (set TPop, [])
  | TPush s => (set (TPushNext s (t_head st) (t_updates st)), [])
  | TPushNext s tagged a =>
      let '(_, current_head) := unpack_tagged_head tagged in
      (TState (t_head st) (fun x => if x =? s then current_head else t_next st x)
              (set_at t (TPushCas s tagged a) (t_pcs st)) (t_held st) (t_updates st), [])
  | TPushCas s tagged _ =>
      let '(generation, _) := unpack_tagged_head tagged in
      if (t_head st =? tagged) && negb spurious then
        (TState (pack_tagged_head (wrap_succ generation) s) (t_next st) (set_at t TIdle (t_pcs st))
                (t_held st) (t_updates st + 1), [Pushed t s])
      else (set (TPush s), [])
  end.

(** Threads that are busy or do not exist cannot begin; only a slot that was handed out can be given back. *)
Definition t_act (st : tstate) (a : tact) : tstate * list tevent :=
  match a with
  | DoPop t =>
      match nth_error (t_pcs st) t with
      | Some TIdle => (TState (t_head st) (t_next st) (set_at t TPop (t_pcs st)) (t_held st) (t_updates st), [])
      | _ => (st, [])
      end
  | DoPush t s =>
      match nth_error (t_pcs st) t with
      | Some TIdle =>
          if existsb (N.eqb s) (t_held st)
          then (TState (t_head st) (t_next st) (set_at t (TPush s) (t_pcs st)) (remove_one s (t_held st)) (t_updates st), [])
          else (st, [])
      | _ => (st, [])
      end
  | DoStep t spurious =>
      match nth_error (t_pcs st) t with Some pc => t_step st t pc spurious | None => (st, []) end
  end.

(** A whole history, event by event; no code of its own. *)
Fixpoint t_run (st : tstate) (l : list tact) : tstate * list tevent :=
  match l with
  | [] => (st, [])
  | a :: r => let '(st1, o) := t_act st a in let '(st2, o2) := t_run st1 r in (st2, o ++ o2)
  end.
