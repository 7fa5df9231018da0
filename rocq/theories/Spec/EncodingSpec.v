(** The meaning of a cross-endian payload: [w]-byte unsigned words, most significant byte first. *)
From Verif.Base Require Import Prelude Bytes.
Open Scope N_scope.

Definition be_enc (w : nat) (v : N) : bytes := rev (le_enc w v).
(** A struct of [w]-byte fields, as a big-endian and as a little-endian machine stores it. *)
Definition be_struct (w : nat) (vs : list N) : bytes := flat_map (be_enc w) vs.
Definition le_struct (w : nat) (vs : list N) : bytes := flat_map (le_enc w) vs.
