From Coq Require Import String.
From Verif.Base Require Import Prelude Bytes Str.
From Verif.Model Require Import Estop.
From Verif.Spec Require Import MacSpec.
Local Open Scope N_scope.

(** The wire format of an e-stop: a body, then (when authenticated) its tag, then anything. *)
Definition estop_body (host : N) (reason : bytes) (ts : N) : bytes :=
  le_enc 2 host ++ le_enc 2 (N.of_nat (length reason)) ++ reason ++ le_enc 8 ts.
(** [data] is an e-stop from [host] for [reason] at [ts], MACed under [key] per RFC 2104. *)
Definition authentic_estop (key data : bytes) (host : N) (reason : bytes) (ts : N) : Prop :=
  exists tag rest, data = estop_body host reason ts ++ tag ++ rest /\
    host < 2 ^ 16 /\ N.of_nat (length reason) < 2 ^ 16 /\ ts < 2 ^ 64 /\
    HMAC key (bs "horus.estop.v1" ++ estop_body host reason ts) tag.
(** Time stamps acted on: within five seconds of the local clock either way, or a local clock from
    before 2020 that is at least a day off. *)
Definition fresh (ts now : N) : Prop := ts <= now + 5 * 10 ^ 9 /\ now <= ts + 5 * 10 ^ 9.
Definition clock_never_set (ts now : N) : Prop :=
  now < 1577836800 * 10 ^ 9 /\ (ts + 86400 * 10 ^ 9 <= now \/ now + 86400 * 10 ^ 9 <= ts).

(** How often exactly this datagram was sent. *)
Definition times_sent (payload : bytes) (addr : N) (out : list (bytes * N)) : nat :=
  count_occ (fun x y : bytes * N => ltac:(decide equality; [apply N.eq_dec|apply (list_eq_dec N.eq_dec)])) out (payload, addr).
