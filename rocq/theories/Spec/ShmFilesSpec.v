(** What topic files are for. *)
From Coq Require Import String.
From Verif.Base Require Import Prelude Bytes Str.
From Verif.Model Require Import ShmFiles.
Open Scope list_scope.

(** How the kernel follows a path: empty components and [.] stay, [..] goes up. *)
Definition walk (at_ : list bytes) (c : bytes) : list bytes :=
  if beqb c [] || beqb c (bs ".") then at_ else if beqb c (bs "..") then removelast at_ else at_ ++ [c].
(** From the root. *)
Definition resolve (path : list bytes) : list bytes := fold_left walk path [].

(** A directory given by ordinary components. *)
Definition ordinary (dir : list bytes) : Prop :=
  Forall (fun c => c <> [] /\ c <> bs "." /\ c <> bs "..") dir.

(** A name without empty components. *)
Definition tidy (s : bytes) : Prop := Forall (fun c => c <> []) (split_at slash s).

(** The memory of a handle in use. *)
Definition uses (s : files) (h i : nat) : Prop := nth_error (f_hs s) h = Some (Live i).

(** All handles in use are on one memory, and it is the one the path names. *)
Definition one_memory (s : files) : Prop := forall h i, uses s h i -> f_path s = Some i.

(** Some handle is mapped beyond the end of the file. *)
Definition past_end (s : sized) : Prop :=
  exists h n l, nth_error (z_hs s) h = Some (SMapped n) /\ z_len s = Some l /\ (l < n)%nat.

(** Regions are created one at a time, and none grows to less than the file's length. *)
Fixpoint careful (s : sized) (os : list sop) : Prop :=
  match os with
  | [] => True
  | o :: r =>
      (forall h new l, o = OGrow h new -> z_len s = Some l -> (l <= new)%nat) /\ careful (sop_step s o) r
  end.

(** Every region is asked for with one size and none grows. *)
Definition same_size (n : nat) (c : scall) : Prop :=
  match c with SOpen m => m = n | SGrow _ _ => False | _ => True end.
