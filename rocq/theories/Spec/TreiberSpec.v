(** What a free list of slots owes its users. *)
From Verif.Base Require Import Prelude.
From Verif.Model Require Import Treiber.
Local Open Scope N_scope.

(** A last-in first-out stack: does it allow this sequence of results, and what is left on it? *)
Inductive stack_allows : list N -> list tevent -> list N -> Prop :=
| sa_nil q : stack_allows q [] q
| sa_pop q s t ev q' : stack_allows q ev q' -> stack_allows (s :: q) (Popped t s :: ev) q'
| sa_none t ev q' : stack_allows [] ev q' -> stack_allows [] (PopNone t :: ev) q'
| sa_push q s t ev q' : stack_allows (s :: q) ev q' -> stack_allows q (Pushed t s :: ev) q'.

(** The slots threads are in the middle of giving back. *)
Definition pushing (pc : tpc) : list N :=
  match pc with TPush s | TPushNext s _ _ | TPushCas s _ _ => [s] | _ => [] end.
Definition in_flight (st : tstate) : list N := flat_map pushing (t_pcs st).

(** Slots n-1, ..., 0: a fresh pool hands out the highest slot first. *)
Fixpoint fresh_stack (n : nat) : list N := match n with O => [] | S m => N.of_nat m :: fresh_stack m end.

(** No attempt spans 2^32 or more updates of the head: whenever a thread compares-and-swaps, fewer than 2^32
    other updates have happened since it loaded the head. *)
Definition loaded_at (pc : tpc) : option N :=
  match pc with TPopCas _ _ a | TPushCas _ _ a => Some a | _ => None end.
Definition prompt_act (st : tstate) (a : tact) : Prop :=
  match a with
  | DoStep t _ => match nth_error (t_pcs st) t with
                  | Some pc => match loaded_at pc with Some x => t_updates st - x < 2 ^ 32 | None => True end
                  | None => True end
  | _ => True
  end.
Fixpoint prompt (st : tstate) (l : list tact) : Prop :=
  match l with [] => True | a :: r => prompt_act st a /\ prompt (fst (t_act st a)) r end.
