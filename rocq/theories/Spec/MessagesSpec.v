(** What a carried message and a text field should give back. *)
From Verif.Base Require Import Prelude Bytes.
From Verif.Model Require Import LogEntry Messages.
Open Scope nat_scope.

(** Reading the message gives these bytes and this metadata, without a panic. *)
Definition reads (m : gmsg) (data : bytes) (md : option bytes) : Prop :=
  gm_data m = Some data /\ gm_metadata m = Some md.

(** The metadata a sender gave, where empty metadata is none. *)
Definition given (md : bytes) : option bytes := match md with [] => None | _ => Some md end.

(** A message any constructor or decoder can produce: the buffers have their sizes
    and the lengths fit in them. *)
Definition sound (m : gmsg) : Prop :=
  length (inline_data m) = 256 /\ inline_len m <= 256
  /\ length (overflow_data m) = 3840 /\ overflow_len m <= 3840
  /\ length (meta m) = 256 /\ meta_len m <= 256.

(** Text without NUL. *)
Definition no_nul (s : bytes) : Prop := Forall (fun b => b <> 0%N) s.
