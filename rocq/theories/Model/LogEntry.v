(** A log entry, its shortening and its stored form.  Models
    horus_core/src/core/log_buffer.rs lines 11-31, 65-67, 128-142 and 282-311 and
    the parts of bincode 1.x (fixed-width integers, trailing bytes allowed) and of
    [str] they use. *)
From Verif Require Import Base.Prelude Base.Bytes.
Open Scope nat_scope.

(** [LogType], log_buffer.rs:23-31. *)
Inductive log_type := Publish | Subscribe | Info | Warning | Error | Debug.
(** [LogEntry], log_buffer.rs:11-21.  A [String] is its UTF-8 bytes. *)
Record entry := {
  le_timestamp : bytes; le_tick : N; le_node : bytes; le_type : log_type;
  le_topic : option bytes; le_message : bytes; le_tick_us : N; le_ipc_ns : N }.

(** [std::str::from_utf8]'s acceptance, as the Unicode standard's table of
    well-formed byte sequences. *)
Definition cont (b : N) : bool := ((128 <=? b) && (b <? 192))%N.
(** Auxiliary: a byte range. *)
Definition within (lo hi b : N) : bool := ((lo <=? b) && (b <=? hi))%N.
(** Well-formed two-byte sequences (Unicode table 3-7). *)
Definition lead2 (b c : N) : bool := within 194 223 b && cont c.
(** Well-formed three-byte sequences (Unicode table 3-7). *)
Definition lead3 (b c : N) : bool :=
  ((b =? 224)%N && within 160 191 c) || (within 225 236 b && cont c)
  || ((b =? 237)%N && within 128 159 c) || (within 238 239 b && cont c).
(** Well-formed four-byte sequences (Unicode table 3-7). *)
Definition lead4 (b c : N) : bool :=
  ((b =? 240)%N && within 144 191 c) || (within 241 243 b && cont c)
  || ((b =? 244)%N && within 128 143 c).
(** [std::str::from_utf8] succeeds. *)
Fixpoint utf8 (l : bytes) : bool :=
  match l with
  | [] => true
  | b :: r =>
      if (b <? 128)%N then utf8 r
      else match r with
        | [] => false
        | c :: r1 =>
            if lead2 b c then utf8 r1
            else match r1 with
              | [] => false
              | d :: r2 =>
                  if lead3 b c && cont d then utf8 r2
                  else match r2 with
                    | [] => false
                    | e :: r3 => lead4 b c && cont d && cont e && utf8 r3
                    end
              end
        end
  end.

(** [str::is_char_boundary]. *)
Definition is_char_boundary (s : bytes) (i : nat) : bool :=
  if i =? 0 then true
  else match nth_error s i with
    | None => i =? length s
    | Some b => negb (cont b)
    end.

(** The search loop of [truncate_field], log_buffer.rs:136-138. *)
Fixpoint back_up (s : bytes) (e : nat) : nat :=
  match e with
  | O => O
  | S e' => if is_char_boundary s e then e else back_up s e'
  end.
(** The three dots of log_buffer.rs:141. *)
Definition dots : bytes := [46; 46; 46]%N.
(** [truncate_field], log_buffer.rs:128-142. *)
Definition truncate_field (s : bytes) (max : nat) : bytes :=
  if length s <=? max then s else firstn (back_up s (max - length dots)) s ++ dots.

Definition MAX_MESSAGE_LEN : nat := 280. (* log_buffer.rs:67 *)
Definition SLOT_DATA_SIZE : nat := 504.  (* log_buffer.rs:51-57 *)

(** The shortening at the top of [push], log_buffer.rs:285-291. *)
Definition shorten (e : entry) : entry :=
  {| le_timestamp := truncate_field (le_timestamp e) 32; le_tick := le_tick e;
     le_node := truncate_field (le_node e) 64; le_type := le_type e;
     le_topic := match le_topic e with Some t => Some (truncate_field t 64) | None => None end;
     le_message := truncate_field (le_message e) MAX_MESSAGE_LEN;
     le_tick_us := le_tick_us e; le_ipc_ns := le_ipc_ns e |}.

(** [bincode::serialize] of each field kind: u64 little-endian, strings behind a
    u64 length, enum variants as u32, options behind a tag byte. *)
Definition type_tag (t : log_type) : N :=
  match t with Publish => 0 | Subscribe => 1 | Info => 2 | Warning => 3 | Error => 4 | Debug => 5 end.
(** bincode of a string. *)
Definition enc_str (s : bytes) : bytes := le_enc 8 (N.of_nat (length s)) ++ s.
(** bincode of an [Option<String>]. *)
Definition enc_opt (o : option bytes) : bytes :=
  match o with None => [0%N] | Some s => 1%N :: enc_str s end.
(** [bincode::serialize(&entry)], log_buffer.rs:294; fields in declaration order. *)
Definition serialize (e : entry) : bytes :=
  enc_str (le_timestamp e) ++ le_enc 8 (le_tick e) ++ enc_str (le_node e)
  ++ le_enc 4 (type_tag (le_type e)) ++ enc_opt (le_topic e) ++ enc_str (le_message e)
  ++ le_enc 8 (le_tick_us e) ++ le_enc 8 (le_ipc_ns e).

(** Reading the next [k] bytes; an error if fewer are left. *)
Definition take (k : nat) (l : bytes) : option (bytes * bytes) :=
  if length l <? k then None else Some (firstn k l, skipn k l).
(** bincode of an integer, read. *)
Definition dec_int (k : nat) (l : bytes) : option (N * bytes) :=
  match take k l with Some (a, r) => Some (le_dec a, r) | None => None end.
(** A string: its length, that many bytes, and they must be UTF-8. *)
Definition dec_str (l : bytes) : option (bytes * bytes) :=
  match dec_int 8 l with
  | None => None
  | Some (n, r) =>
      if (N.of_nat (length r) <? n)%N then None
      else match take (N.to_nat n) r with
        | None => None
        | Some (s, r) => if utf8 s then Some (s, r) else None
        end
  end.
(** bincode of an [Option<String>], read. *)
Definition dec_opt (l : bytes) : option (option bytes * bytes) :=
  match l with
  | [] => None
  | t :: r =>
      if (t =? 0)%N then Some (None, r)
      else if (t =? 1)%N then
        match dec_str r with Some (s, r) => Some (Some s, r) | None => None end
      else None
  end.
(** The [LogType] of a variant number, log_buffer.rs:24-31. *)
Definition type_of_tag (n : N) : option log_type :=
  match n with
  | 0 => Some Publish | 1 => Some Subscribe | 2 => Some Info | 3 => Some Warning
  | 4 => Some Error | 5 => Some Debug | _ => None
  end%N.
(** [bincode::deserialize::<LogEntry>], log_buffer.rs:458; bytes after the last
    field are ignored. *)
Definition deserialize (l : bytes) : option entry :=
  match dec_str l with None => None | Some (ts, l) =>
  match dec_int 8 l with None => None | Some (tick, l) =>
  match dec_str l with None => None | Some (node, l) =>
  match dec_int 4 l with None => None | Some (tag, l) =>
  match type_of_tag tag with None => None | Some ty =>
  match dec_opt l with None => None | Some (topic, l) =>
  match dec_str l with None => None | Some (msg, l) =>
  match dec_int 8 l with None => None | Some (us, l) =>
  match dec_int 8 l with None => None | Some (ns, _) =>
    Some {| le_timestamp := ts; le_tick := tick; le_node := node; le_type := ty;
            le_topic := topic; le_message := msg; le_tick_us := us; le_ipc_ns := ns |}
  end end end end end end end end end.

(** What [push] copies into the slot, log_buffer.rs:294-311 and 341-353: the
    serialised entry padded with zeros, or nothing if it does not fit. *)
Definition stored (e : entry) : option bytes :=
  let d := serialize (shorten e) in
  if length d <=? SLOT_DATA_SIZE then Some (d ++ repeat 0%N (SLOT_DATA_SIZE - length d)) else None.
