(** Declarative reading of reassembly. *)
From Verif.Base Require Import Prelude Bytes.
From Verif.Model Require Import Wire Fragment.
Open Scope N_scope.

(** [n] fragments are needed and [arrivals] are the indices in arrival order: emit [true] at the arrival
    that makes the set of indices seen since the last delivery complete, [false] otherwise. *)
Definition all_seen (n : nat) (seen : list nat) : bool :=
  forallb (fun i => existsb (Nat.eqb i) seen) (seq 0 n).
Fixpoint deliveries (n : nat) (seen : list nat) (arrivals : list nat) : list bool :=
  match arrivals with
  | [] => []
  | i :: r =>
    if all_seen n (i :: seen) then true :: deliveries n [] r
    else false :: deliveries n (i :: seen) r
  end.

(** Is this event the arrival of a fragment of message [key]? *)
Definition arrives (key : N * N) (o : rop) : bool :=
  match o with
  | RFeed _ f => (me_topic (fr_meta f) =? fst key) && (fr_id f =? snd key) && (1 <? fr_count f)
  | RGc _ => false
  end.
Definition arrival_index (o : rop) : nat :=
  match o with RFeed _ f => N.to_nat (fr_index f) | RGc _ => 0 end.
Definition event_time (o : rop) : N := match o with RFeed t _ => t | RGc t => t end.

(** The bytes a partial message holds. *)
Definition held (p : Pending) : N :=
  fold_right (fun o acc => match o with Some d => N.of_nat (length d) | None => 0 end + acc) 0 (pe_frags p).

(** The datagram of one fragment as the receiver expects it: packet header with the fragment flag, message
    header, fragment header, piece of the payload.  [host] and [len] are header fields the receiver ignores. *)
Definition fragment_datagram (hash seq host len : N) (f : Fragment) : bytes :=
  encode_packet_header (packet_header_new 8 hash seq) ++
  encode_message_header (mkMH (me_topic (fr_meta f)) len (me_ts (fr_meta f)) (me_seq (fr_meta f))
                              (me_prio (fr_meta f)) (me_rel (fr_meta f)) (me_enc (fr_meta f)) host) ++
  encode_fragment_header (mkFH (fr_id f) (fr_index f) (fr_count f) (fr_total f)) ++ fr_payload f.
