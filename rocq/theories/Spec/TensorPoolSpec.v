(** What users of the tensor pool rely on. *)
From Verif.Base Require Import Prelude.
From Verif.Model Require Import TensorPool.
Local Open Scope N_scope.

(** Correct clients use a descriptor only while they hold a reference through it; descriptors received from
    elsewhere go through try_retain, which needs no permission, as long as the pool once issued them. *)
Definition permitted (issued : list desc) (st : pool) (a : pact) : Prop :=
  match a with
  | ATryRetain _ d => In d issued
  | ARelease _ d | AWrite _ d _ _ => In d (p_handles st)
  | AAlloc _ _ _ | AStep _ => True
  | ADie _ => False
  end.
Definition issues (o : list outcome) : list desc :=
  flat_map (fun e => match e with OAlloc _ d => [d] | _ => [] end) o.

Section Histories.
  Variables (max_slots : nat) (pool_size alignment : N).
  Fixpoint correct (issued : list desc) (st : pool) (l : list pact) : Prop :=
    match l with
    | [] => True
    | a :: r => permitted issued st a /\
        let '(st', o) := act max_slots pool_size alignment st a in correct (issued ++ issues o) st' r
    end.
End Histories.

(** How many references are held to the tensor a descriptor names. *)
Definition references (d : desc) (l : list desc) : N :=
  N.of_nat (length (filter (desc_eqb d) l)).
Definition same_tensor (a b : desc) : Prop := d_slot a = d_slot b /\ d_gen a = d_gen b.
Definition overlap (a b : desc) : Prop :=
  exists i, d_off a <= i < d_off a + d_size a /\ d_off b <= i < d_off b + d_size b.

(** The same discipline, but processes may also be killed at any point. *)
Section Deaths.
  Variables (max_slots : nat) (pool_size alignment : N).
  Fixpoint correct_until_killed (issued : list desc) (st : pool) (l : list pact) : Prop :=
    match l with
    | [] => True
    | a :: r => match a with ADie _ => True | _ => permitted issued st a end /\
        let '(st', o) := act max_slots pool_size alignment st a in correct_until_killed (issued ++ issues o) st' r
    end.
End Deaths.

(** Thread [t] got descriptor [d] from [alloc] or [try_retain] in a run, its process lives, and nobody ever asked
    to release the tensor. *)
Definition obtained (t : nat) (d : desc) (o : list outcome) : Prop := In (OAlloc t d) o \/ In (ORetain t d true) o.
Definition never_released (d : desc) (l : list pact) : Prop := forall t, ~ In (ARelease t d) l.
