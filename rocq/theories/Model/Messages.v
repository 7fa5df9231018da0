(** [GenericMessage], horus_types/src/generic.rs, and the text fields of fixed size
    of the message types: horus_types/src/time.rs, diagnostics.rs, math.rs and
    horus_core/src/types/mod.rs.  A [Vec<u8>] or [&str] is its bytes. *)
From Coq Require Import String.
From Verif.Base Require Import Prelude Bytes Str.
From Verif.Model Require Import LogEntry.
Open Scope list_scope.
Open Scope nat_scope.

(** * GenericMessage *)

Definition MAX_GENERIC_PAYLOAD : nat := 4096. (* generic.rs:81 *)
Definition INLINE_BUFFER_SIZE : nat := 256.   (* generic.rs:84 *)
(** The size of the overflow buffer, generic.rs:69. *)
Definition OVERFLOW_SIZE : nat := MAX_GENERIC_PAYLOAD - INLINE_BUFFER_SIZE.
Definition METADATA_SIZE : nat := 256.        (* generic.rs:73 *)

(** [GenericMessage], generic.rs:60-78, without its padding.  A buffer is the list
    of its bytes, of the buffer's size. *)
Record gmsg := GMsg {
  inline_data : bytes; inline_len : nat; overflow_data : bytes; overflow_len : nat;
  meta : bytes; meta_len : nat }.

(** [[0; n]]. *)
Definition zeros (n : nat) : bytes := repeat 0%N n.

(** [buf[..s.len()].copy_from_slice(s)] for [s] no longer than [buf]. *)
Definition blit (buf s : bytes) : bytes := s ++ skipn (length s) buf.

(** [GenericMessage::new], generic.rs:95-132; [None] is the error. *)
Definition gm_new (data : bytes) : option gmsg :=
  if MAX_GENERIC_PAYLOAD <? length data then None
  else if length data <=? INLINE_BUFFER_SIZE
  then Some (GMsg (blit (zeros INLINE_BUFFER_SIZE) data) (length data)
               (zeros OVERFLOW_SIZE) 0 (zeros METADATA_SIZE) 0)
  else
    let over := skipn INLINE_BUFFER_SIZE data in
    Some (GMsg (firstn INLINE_BUFFER_SIZE data) INLINE_BUFFER_SIZE
               (blit (zeros OVERFLOW_SIZE) over) (length over) (zeros METADATA_SIZE) 0).

(** [GenericMessage::with_metadata], generic.rs:137-155. *)
Definition gm_with_metadata (data md : bytes) : option gmsg :=
  match gm_new data with
  | None => None
  | Some m =>
      if 255 <? length md then None
      else Some (GMsg (inline_data m) (inline_len m) (overflow_data m) (overflow_len m)
                   (blit (meta m) md) (length md))
  end.

(** [&buf[..n]]; [None] is the panic of a slice that is too long. *)
Definition prefix (buf : bytes) (n : nat) : option bytes :=
  if n <=? length buf then Some (firstn n buf) else None.

(** [data], generic.rs:160-171; [None] is a panic. *)
Definition gm_data (m : gmsg) : option bytes :=
  match prefix (inline_data m) (inline_len m) with
  | None => None
  | Some a =>
      if 0 <? overflow_len m
      then match prefix (overflow_data m) (overflow_len m) with
           | None => None
           | Some b => Some (a ++ b)
           end
      else Some a
  end.

(** [metadata], generic.rs:174-181; the outer [None] is a panic. *)
Definition gm_metadata (m : gmsg) : option (option bytes) :=
  if meta_len m =? 0 then Some None
  else match prefix (meta m) (meta_len m) with
       | None => None
       | Some b => Some (if utf8 b then Some b else None)
       end.

(** [truncate_on_char_boundary], generic.rs:262-271. *)
Definition truncate_on_char_boundary (s : bytes) (max : nat) : bytes :=
  if length s <=? max then s else firstn (back_up s max) s.

(** A value of a self-describing or compact encoding, as the serde data model has
    it: a byte sequence, a number, a struct written as a map or as a sequence. *)
Inductive sval := VBytes (b : bytes) | VNum (n : N).
(** A document of that model. *)
Inductive doc := DMap (l : list (bytes * sval)) | DSeq (l : list sval).

(** The field values [serialize] hands over, generic.rs:343-355; [None] is the
    panic of a slice that is too long. *)
Definition gm_fields (m : gmsg) : option (list (bytes * sval)) :=
  match prefix (inline_data m) (inline_len m), prefix (overflow_data m) (overflow_len m),
        prefix (meta m) (meta_len m) with
  | Some a, Some b, Some c =>
      Some [(bs "inline_data", VBytes a); (bs "inline_len", VNum (N.of_nat (inline_len m)));
            (bs "overflow_data", VBytes b); (bs "overflow_len", VNum (N.of_nat (overflow_len m)));
            (bs "metadata", VBytes c)]
  | _, _, _ => None
  end.

(** [serialize_struct] of a format that writes structs as maps (JSON, [rmp_serde]
    with names) and of one that writes them as sequences (bincode, [rmp_serde]'s
    [to_vec]). *)
Definition ser_map (m : gmsg) : option doc := option_map DMap (gm_fields m).
(** See above. *)
Definition ser_seq (m : gmsg) : option doc := option_map (fun l => DSeq (map snd l)) (gm_fields m).

(** The fields read so far, generic.rs:383-387. *)
Record acc := Acc {
  a_inline : option bytes; a_inline_len : option N; a_over : option bytes; a_over_len : option N;
  a_meta : option bytes }.

(** One entry of the map, generic.rs:389-410: a later entry of the same name wins,
    other names are ignored, a value of the wrong kind or too large is an error. *)
Definition read_field (a : acc) (kv : bytes * sval) : option acc :=
  let '(k, v) := kv in
  if beqb k (bs "inline_data") then
    match v with VBytes b => Some (Acc (Some b) (a_inline_len a) (a_over a) (a_over_len a) (a_meta a)) | _ => None end
  else if beqb k (bs "inline_len") then
    match v with
    | VNum n => if (n <? 65536)%N then Some (Acc (a_inline a) (Some n) (a_over a) (a_over_len a) (a_meta a)) else None
    | _ => None end
  else if beqb k (bs "overflow_data") then
    match v with VBytes b => Some (Acc (a_inline a) (a_inline_len a) (Some b) (a_over_len a) (a_meta a)) | _ => None end
  else if beqb k (bs "overflow_len") then
    match v with
    | VNum n => if (n <? 4294967296)%N then Some (Acc (a_inline a) (a_inline_len a) (a_over a) (Some n) (a_meta a)) else None
    | _ => None end
  else if beqb k (bs "metadata") then
    match v with VBytes b => Some (Acc (a_inline a) (a_inline_len a) (a_over a) (a_over_len a) (Some b)) | _ => None end
  else Some a.

(** The loop over the map's entries, generic.rs:389-411. *)
Fixpoint read_fields (a : acc) (l : list (bytes * sval)) : option acc :=
  match l with
  | [] => Some a
  | kv :: r => match read_field a kv with Some a' => read_fields a' r | None => None end
  end.

(** The rebuilding of the message, generic.rs:423-453. *)
Definition rebuild (i : bytes) (il : N) (o : bytes) (ol : N) (md : bytes) : gmsg :=
  let ic := Nat.min (length i) INLINE_BUFFER_SIZE in
  let oc := Nat.min (length o) OVERFLOW_SIZE in
  let mc := Nat.min (length md) METADATA_SIZE in
  GMsg (blit (zeros INLINE_BUFFER_SIZE) (firstn ic i)) (N.to_nat (N.min il (N.of_nat ic)))
       (blit (zeros OVERFLOW_SIZE) (firstn oc o)) (N.to_nat (N.min ol (N.of_nat oc)))
       (blit (zeros METADATA_SIZE) (firstn mc md))
       (N.to_nat (N.min (N.of_nat (length md) mod 65536) (N.of_nat mc))).

(** [deserialize], generic.rs:361-468: the visitor has only [visit_map], so a
    struct written as a sequence is an error ([Visitor::visit_seq]'s default). *)
Definition gm_de (d : doc) : option gmsg :=
  match d with
  | DSeq _ => None
  | DMap l =>
      match read_fields (Acc None None None None None) l with
      | Some (Acc (Some i) (Some il) (Some o) (Some ol) (Some md)) => Some (rebuild i il o ol md)
      | _ => None
      end
  end.

(** The [repr(C)] image of the struct, which is what travels through shared memory:
    offsets 0, 256, 258, 4100 (two bytes of padding before it), 4104 and 4360. *)
Definition RAW_SIZE : nat := 4364.
(** A message read from such an image. *)
Definition of_raw (raw : bytes) : gmsg :=
  GMsg (slice 0 256 raw) (N.to_nat (get_le 256 2 raw))
       (slice 258 3840 raw) (N.to_nat (get_le 4100 4 raw))
       (slice 4104 256 raw) (N.to_nat (get_le 4360 2 raw)).
(** The image of a message. *)
Definition to_raw (m : gmsg) : bytes :=
  inline_data m ++ le_enc 2 (N.of_nat (inline_len m)) ++ overflow_data m ++ [0%N; 0%N]
  ++ le_enc 4 (N.of_nat (overflow_len m)) ++ meta m ++ le_enc 2 (N.of_nat (meta_len m)) ++ [0%N; 0%N].

(** * Text fields of fixed size *)

(** A field set from zeros ([TimeReference::new] time.rs:178-181,
    [RateRequest::new] 470-473, [set_frame_id] types/mod.rs:35-40) and
    [with_frame_id], math.rs:24-30, which zeroes the rest. *)
Definition field_set (size : nat) (s : bytes) : bytes :=
  let p := firstn (size - 1) s in p ++ zeros (size - length p).

(** A field overwritten in place and terminated ([Heartbeat::new]
    diagnostics.rs:79-82, [Status] 161-164 and 191-194, [EmergencyStop] 253-256 and
    273-276, [DiagnosticValue] 377-386): what lies after the terminator stays. *)
Definition field_over (old s : bytes) : bytes :=
  let p := firstn (length old - 1) s in p ++ [0%N] ++ skipn (length p + 1) old.

(** [iter().position(|&b| b == 0).unwrap_or(len)] and the slice before it. *)
Fixpoint until_nul (f : bytes) : bytes :=
  match f with
  | [] => []
  | b :: r => if (b =? 0)%N then [] else b :: until_nul r
  end.

(** [source_name] time.rs:192-195, [topic] 486-489, [frame_id] types/mod.rs:29-32,
    [type_name_str] header.rs:413-419: text that is not UTF-8 reads as empty. *)
Definition field_get (f : bytes) : bytes :=
  let t := until_nul f in if utf8 t then t else [].

(** [TimeReference::correct_timestamp], time.rs:198-204, as compiled without overflow
    checks: [-i64::MIN] is itself and casts to 2^63. *)
Definition correct_timestamp (offset : Z) (local : Z) : Z :=
  if (0 <=? offset)%Z then Z.max 0 (local - offset)
  else Z.min (2 ^ 64 - 1) (local + (- offset)).
