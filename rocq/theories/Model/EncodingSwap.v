(** Model of horus_net/src/encoding.rs.  The host is taken as little-endian ([Encoding::native_pod] is
    PodLe on every supported target); the mirror case only swaps the two tags. *)
From Verif.Base Require Import Prelude Bytes.
From Verif.Model Require Import Wire.
Open Scope nat_scope.

(** encoding.rs:12-20 *)
Inductive DecodeResult := SameEndian | ByteSwapped | IsBincode.
(** encoding.rs:23-31 *)
Definition check_encoding (e : Encoding) : DecodeResult :=
  match e with Bincode => IsBincode | PodLe => SameEndian | PodBe => ByteSwapped end.
(** encoding.rs:44-46 [chunks_exact_mut(w)] with each chunk reversed; the remainder is left alone.
    [fuel] = number of whole chunks. *)
Fixpoint swap_chunks (fuel w : nat) (p : bytes) : bytes :=
  match fuel with
  | O => p
  | S f => rev (firstn w p) ++ swap_chunks f w (skipn w p)
  end.
(** encoding.rs:40-47 *)
Definition byte_swap_words (p : bytes) (w : nat) : bytes :=
  if (w <=? 1) || (length p =? 0) then p else swap_chunks (length p / w) w p.
(** encoding.rs:54-64 *)
Definition infer_word_size (n : nat) : nat :=
  if n mod 8 =? 0 then 8 else if n mod 4 =? 0 then 4 else if n mod 2 =? 0 then 2 else 1.
(** encoding.rs:69-80 *)
Definition process_incoming_payload (p : bytes) (e : Encoding) (type_size : nat) : DecodeResult * bytes :=
  let r := check_encoding e in
  (r, match r with ByteSwapped => byte_swap_words p (infer_word_size type_size) | _ => p end).
