(** Networked emergency stop: horus_net/src/estop.rs.  The clock is an argument (Unix
    nanoseconds); a reason is its bytes — the lossy UTF-8 display conversion of
    estop.rs:132 is not modelled. *)
From Coq Require Import String.
From Verif.Base Require Import Prelude Bytes Str.
From Verif.Model Require Import Mac.
Local Open Scope N_scope.

(** estop.rs:26-27, 299, 311 *)
Definition ESTOP_MAX_AGE_NS : N := 5000000000.
(** estop.rs:27 *)
Definition ESTOP_MAX_FUTURE_SKEW_NS : N := 5000000000.
(** estop.rs:296 *)
Definition CLOCK_UNSET_FLOOR_NS : N := 1577836800000000000.
(** estop.rs:307 *)
Definition ESTOP_IMPLAUSIBLE_SKEW_NS : N := 24 * 60 * 60 * 1000000000.
(** estop.rs:40 *)
Definition ESTOP_MAC_DOMAIN : bytes := bs "horus.estop.v1".
(** mac.rs:40 *)
Definition TAG_LEN : nat := 32.

(** estop.rs:86-91 *)
Definition estop_tag (key body : bytes) : bytes := hmac_sha256 key (ESTOP_MAC_DOMAIN ++ body).
(** estop.rs:64-83 [encode_estop_with_key]; [now_ns] is the wall clock *)
Definition encode_estop (peer_id_hash : N) (reason : bytes) (key : option bytes) (now_ns : N) : bytes :=
  let reason_len := Nat.min (length reason) 200 in
  let buf := le_enc 2 peer_id_hash ++ le_enc 2 (N.of_nat reason_len) ++ firstn reason_len reason ++ le_enc 8 now_ns in
  match key with
  | Some k => buf ++ estop_tag k buf
  | None => buf
  end.
(** estop.rs:110-120 *)
Definition estop_body_len (data : bytes) : option nat :=
  if (length data <? 12)%nat then None
  else let reason_len := N.to_nat (get_le 2 2 data) in
       let body_len := (4 + reason_len + 8)%nat in
       if (length data <? body_len)%nat then None else Some body_len.
(** estop.rs:98-104 *)
Definition verify_estop_tag (key data : bytes) (body_len : nat) : bool :=
  if (length data <? body_len + TAG_LEN)%nat then false
  else ct_eq (slice body_len TAG_LEN data) (estop_tag key (firstn body_len data)).
(** estop.rs:123-145 *)
Definition decode_estop (data : bytes) : option (N * bytes * N) :=
  if (length data <? 12)%nat then None
  else let reason_len := N.to_nat (get_le 2 2 data) in
       if (length data <? 4 + reason_len + 8)%nat then None
       else Some (get_le 0 2 data, slice 4 reason_len data, get_le (4 + reason_len) 8 data).
(** estop.rs:157-165; [key] is what [crate::mac::estop_key] returns *)
Definition estop_packet_is_authentic (key : option bytes) (data : bytes) : bool :=
  match key with
  | None => false
  | Some k => match estop_body_len data with
              | None => false
              | Some n => verify_estop_tag k data n
              end
  end.

(** estop.rs:278-289 *)
Inductive Freshness := Fresh | Stale | ClockUnusable.
(** estop.rs:299-301 [local_clock_is_unset] *)
Definition local_clock_is_unset (now_ns : N) : bool := now_ns <? CLOCK_UNSET_FLOOR_NS.
(** [u64::abs_diff] *)
Definition abs_diff (a b : N) : N := if a <? b then b - a else a - b.
(** estop.rs:343-381 *)
Definition classify_estop_freshness (timestamp_ns now_ns : N) : Freshness :=
  if ESTOP_IMPLAUSIBLE_SKEW_NS <=? abs_diff now_ns timestamp_ns then
    if local_clock_is_unset now_ns then ClockUnusable else Stale
  else
    let within := if timestamp_ns <=? now_ns then now_ns - timestamp_ns <=? ESTOP_MAX_AGE_NS
                  else timestamp_ns - now_ns <=? ESTOP_MAX_FUTURE_SKEW_NS in
    if within then Fresh else Stale.

(** config.rs: the remote policy *)
Inductive EstopRemotePolicy := PolicyOff | PolicyWarn.
(** estop.rs:197-273 [handle_remote_estop_at]; [Some (host, reason)] is a call of
    [trigger_external_emergency_stop] *)
Definition handle_remote_estop (data : bytes) (policy : EstopRemotePolicy) (key : option bytes) (now_ns : N)
  : option (N * bytes) :=
  match key with
  | None => None
  | Some key =>
    match decode_estop data with
    | None => None
    | Some (host_id, reason, timestamp) =>
      match estop_body_len data with
      | None => None
      | Some body_len =>
        if negb (verify_estop_tag key data body_len) then None
        else match classify_estop_freshness timestamp now_ns with
             | Stale => None
             | Fresh | ClockUnusable =>
                 match policy with PolicyOff => None | PolicyWarn => Some (host_id, reason) end
             end
      end
    end
  end.

(** ** Sending side: [EstopBroadcaster], estop.rs:441-578.  Addresses are abstract numbers; a send is
    (payload, address).  Which sends the kernel accepts is not modelled here. *)
Record Pending := mkPending { pe_payload : bytes; pe_remaining : N; pe_at : N }.
(** estop.rs:470 *)
Definition RETRY_COUNT : nat := 3.
(** estop.rs:471, nanoseconds *)
Definition RETRY_INTERVAL : N := 10000000.
(** One round of sends: multicast, then each peer, estop.rs:514-528. *)
Definition send_all (payload : bytes) (mcast : option N) (peers : list N) : list (bytes * N) :=
  (match mcast with Some m => [(payload, m)] | None => [] end) ++ map (pair payload) peers.
(** estop.rs:500-539 [broadcast] at time [now] (one clock reading; the code reads it per retry) *)
Definition broadcast (pend : list Pending) (payload : bytes) (mcast : option N) (peers : list N) (now : N)
  : list Pending * list (bytes * N) :=
  (pend ++ map (fun i => mkPending payload (N.of_nat (RETRY_COUNT - i)) (now + RETRY_INTERVAL * (N.of_nat i + 1)))
               (seq 0 RETRY_COUNT),
   send_all payload mcast peers).
(** [Vec::swap_remove] *)
Definition swap_remove {A} (i : nat) (l : list A) : list A :=
  match rev l with
  | [] => []
  | last :: _ => if (i =? length l - 1)%nat then removelast l
                 else firstn i l ++ [last] ++ skipn (S i) (removelast l)
  end.
(** estop.rs:541-572 [tick]: scan with swap_remove; [fuel] is at least the number of entries *)
Fixpoint tick_scan (fuel i : nat) (pend : list Pending) (mcast : option N) (peers : list N) (now : N)
  : list Pending * list (bytes * N) :=
  match fuel with
  | O => (pend, [])
  | S f =>
    match nth_error pend i with
    | None => (pend, [])
    | Some p =>
        if pe_at p <=? now then
          let '(pend', out) := tick_scan f i (swap_remove i pend) mcast peers now in
          (pend', send_all (pe_payload p) mcast peers ++ out)
        else tick_scan f (S i) pend mcast peers now
    end
  end.
(** estop.rs:541-572 [tick] *)
Definition tick (pend : list Pending) (mcast : option N) (peers : list N) (now : N) :=
  tick_scan (length pend) 0 pend mcast peers now.
(** Successive calls of [tick] (with the peers known at each): everything they send. *)
Fixpoint ticks_out (pend : list Pending) (mcast : option N) (ps : list (N * list N)) : list (bytes * N) :=
  match ps with
  | [] => []
  | (now, peers) :: r => let '(pend', out) := tick pend mcast peers now in out ++ ticks_out pend' mcast r
  end.
