(** Changing the backend of a topic while any number of threads and processes use it.  Models
    horus_core/src/communication/topic/migration.rs:67-207, header.rs:586-607 and the forced unlock of mod.rs:1455-1468.
    One action is one access to the shared header; the accesses are sequentially consistent.
    Not modelled: weaker orders, time (a forced unlock may come whenever the lock is seen held), the time stamp of the last change. *)
From Verif.Base Require Import Prelude.
Open Scope nat_scope.

(** [MigrationResult], migration.rs:18-30; [Failed] cannot be the result, as [drain_in_flight] returns only [true], migration.rs:137-207. *)
Inductive result := Success (e : nat) | NotNeeded | InProgress | Contention.

(** Where a caller of [try_migrate] is, migration.rs:67-88 and 94-135. *)
Inductive pc :=
| Idle                        (** not in a call *)
| AtLook (m : nat)            (** before [is_migration_in_progress], :74 *)
| AtCas (m : nat)             (** before [try_lock_migration], :78 *)
| Draining (m : nat)          (** holds the lock, has not stored the mode, :95-122 *)
| Stored (m : nat)            (** has stored the mode, :120-122, not yet the epoch *)
| Bumped (m e : nat).         (** has increased the epoch, :128-129, not yet released the lock *)

(** The header's fields (header.rs:181-195), the callers, who of them crashed, and the results so far: caller, mode asked for, result. *)
Record st := mkSt { mode : nat; lock : bool; epoch : nat; at_ : nat -> pc; dead : nat -> bool; out : list (nat * nat * result) }.

(** One point of a function. *)
Definition upd {A} (f : nat -> A) (t : nat) (x : A) : nat -> A := fun u => if u =? t then x else f u.
(** A caller goes on. *)
Definition goto (s : st) (t : nat) (p : pc) : st := mkSt (mode s) (lock s) (epoch s) (upd (at_ s) t p) (dead s) (out s).
(** A call returns. *)
Definition ret (s : st) (t m : nat) (r : result) : st := mkSt (mode s) (lock s) (epoch s) (upd (at_ s) t Idle) (dead s) (out s ++ [(t, m, r)]).

(** What may happen. *)
Inductive act :=
| Start (t m : nat)  (** [try_migrate m] is called and reads the mode, migration.rs:68-72 *)
| Go (t : nat)       (** the next access of a call *)
| Crash (t : nat)    (** a caller goes no further *)
| Force (t : nat).   (** a caller that waited stores 0 into the lock, mod.rs:1459-1468 *)

(** The next access, migration.rs:74-87, 120-131. *)
Definition go (s : st) (t : nat) : st :=
  match at_ s t with
  | Idle => s
  | AtLook m => if lock s then ret s t m InProgress else goto s t (AtCas m)
  | AtCas m => if lock s then ret s t m Contention
               else goto (mkSt (mode s) true (epoch s) (at_ s) (dead s) (out s)) t (Draining m)
  | Draining m => goto (mkSt m (lock s) (epoch s) (at_ s) (dead s) (out s)) t (Stored m)
  | Stored m => goto (mkSt (mode s) (lock s) (S (epoch s)) (at_ s) (dead s) (out s)) t (Bumped m (S (epoch s)))
  | Bumped m e => ret (mkSt (mode s) false (epoch s) (at_ s) (dead s) (out s)) t m (Success e)
  end.

(** One action; a dead caller does nothing, a caller in a call starts no other. *)
Definition step (s : st) (a : act) : st :=
  match a with
  | Start t m => if dead s t then s else
      match at_ s t with
      | Idle => if mode s =? m then ret s t m NotNeeded else goto s t (AtLook m)
      | _ => s
      end
  | Go t => if dead s t then s else go s t
  | Crash t => mkSt (mode s) (lock s) (epoch s) (at_ s) (upd (dead s) t true) (out s)
  | Force t => if dead s t then s else
      match at_ s t with
      | Idle => mkSt (mode s) false (epoch s) (at_ s) (dead s) (out s)
      | _ => s
      end
  end.
(** A schedule. *)
Definition run (s : st) (tr : list act) : st := fold_left step tr s.
(** A new topic, header.rs:351-356: no lock, epoch 0. *)
Definition init (m0 : nat) : st := mkSt m0 false 0 (fun _ => Idle) (fun _ => false) [].
