(** Model of horus_net/src/fragment.rs.  [HashMap] is an association list; [Instant::now()] is the
    operand [now] (milliseconds). *)
From Verif.Base Require Import Prelude Bytes AMap.
From Verif.Model Require Import Wire.
Open Scope N_scope.

(** fragment.rs:16 *) Definition MAX_FRAGMENT_PAYLOAD : nat := 1400.
(** fragment.rs:19 *) Definition MAX_REASSEMBLY_SIZE : N := 1048576.
(** fragment.rs:27 *) Definition MAX_FRAGMENTS_PER_MESSAGE : N :=
  (MAX_REASSEMBLY_SIZE / N.of_nat MAX_FRAGMENT_PAYLOAD + 1) mod 2 ^ 16.
(** fragment.rs:34 *) Definition MAX_PENDING_MESSAGES : nat := 256.
(** fragment.rs:37 *) Definition FRAGMENT_TIMEOUT : N := 100.

(** The metadata fields shared by [Fragment], [PendingMessage] and [ReassembledMessage]
    (fragment.rs:41-47, 140-146, 150-157): topic_hash, sequence, timestamp, priority, reliability, encoding. *)
Record Meta := mkMeta {
  me_topic : N; me_seq : N; me_ts : N; me_prio : Priority; me_rel : Reliability; me_enc : Encoding }.

(** fragment.rs:40-53 *)
Record Fragment := mkFrag {
  fr_meta : Meta; fr_id : N; fr_index : N; fr_count : N; fr_total : N; fr_payload : bytes }.

(** [slice::chunks(n)]; fuel = length of the list *)
Fixpoint chunks_f (fuel n : nat) (l : bytes) : list bytes :=
  match fuel, l with
  | O, _ => []
  | _, [] => []
  | S f, _ => firstn n l :: chunks_f f n (skipn n l)
  end.
(** [slice::chunks(n)], used at fragment.rs:101. *)
Definition chunks (n : nat) (l : bytes) : list bytes := chunks_f (length l) n l.

(** The header fields a fragment copies, fragment.rs:73-78 and 108-113. *)
Definition meta_of (m : OutMessage) : Meta :=
  mkMeta (om_topic m) (om_seq m) (om_ts m) (om_prio m) (om_rel m) (om_enc m).

(** fragment.rs:101-119: [chunks.iter().enumerate().map(..)]; [i as u16], [count as u16], [len as u32] wrap *)
Fixpoint build_fragments (m : OutMessage) (id count : N) (i : N) (cs : list bytes) : list Fragment :=
  match cs with
  | [] => []
  | c :: r =>
    mkFrag (meta_of m) id (i mod 2 ^ 16) count (N.of_nat (length (om_payload m)) mod 2 ^ 32) c
    :: build_fragments m id count (i + 1) r
  end.
(** fragment.rs:69-121 [Fragmenter::fragment]; state = next_fragment_id *)
Definition fragment (next_id : N) (m : OutMessage) : N * list Fragment :=
  let len := N.of_nat (length (om_payload m)) in
  if len <=? N.of_nat MAX_FRAGMENT_PAYLOAD then
    (next_id, [mkFrag (meta_of m) 0 0 1 (len mod 2 ^ 32) (om_payload m)])
  else if MAX_REASSEMBLY_SIZE <? len then (next_id, [])
  else
    let cs := chunks MAX_FRAGMENT_PAYLOAD (om_payload m) in
    let count := N.of_nat (length cs) mod 2 ^ 16 in
    ((next_id + 1) mod 2 ^ 32, build_fragments m next_id count 0 cs).

(** fragment.rs:131-147 *)
Record Pending := mkPend {
  pe_frags : list (option bytes); pe_rcount : N; pe_rbytes : N;
  pe_expected : N; pe_total : N; pe_first_seen : N; pe_meta : Meta }.

(** fragment.rs:150-158 *)
Record Reassembled := mkRe { re_meta : Meta; re_payload : bytes }.

(** fragment.rs:161-164; key = (topic_hash, fragment_id) *)
Definition Reassembler := list ((N * N) * Pending).
(** fragment.rs:167-171 *)
Definition reassembler_new : Reassembler := [].

(** The key of the [pending] map, fragment.rs:164. *)
Definition frag_key (f : Fragment) : N * N := (me_topic (fr_meta f), fr_id f).

(** [v[i] = Some x] *)
Fixpoint set_nth {A} (i : nat) (x : A) (l : list A) : list A :=
  match l, i with
  | [], _ => []
  | _ :: r, O => x :: r
  | a :: r, S i' => a :: set_nth i' x r
  end.
(** fragment.rs:258-261: [into_iter().flatten()] then concatenate *)
Definition flatten_frags (l : list (option bytes)) : bytes :=
  flat_map (fun o => match o with Some d => d | None => [] end) l.

(** fragment.rs:201-214: the entry created for a new key *)
Definition new_pending (now : N) (f : Fragment) : Pending :=
  mkPend (repeat None (N.to_nat (fr_count f))) 0 0 (fr_count f) (fr_total f) now (fr_meta f).

(** fragment.rs:180-281 [Reassembler::feed] *)
Definition feed (now : N) (st : Reassembler) (f : Fragment) : Reassembler * option Reassembled :=
  if MAX_REASSEMBLY_SIZE <? fr_total f then (st, None)
  else if (fr_count f =? 0) || (MAX_FRAGMENTS_PER_MESSAGE <? fr_count f) then (st, None)
  else if fr_count f =? 1 then (st, Some (mkRe (fr_meta f) (fr_payload f)))
  else
    let key := frag_key f in
    if negb (mem pair_eqb key st) && (MAX_PENDING_MESSAGES <=? length st)%nat then (st, None)
    else
      let idx := N.to_nat (fr_index f) in
      let p := match lookup pair_eqb key st with Some p => p | None => new_pending now f end in
      if (length (pe_frags p) <=? idx)%nat then (insert pair_eqb key p st, None)
      else
        match nth idx (pe_frags p) None with
        | None =>
          let new_bytes := pe_rbytes p + N.of_nat (length (fr_payload f)) in
          if pe_total p <? new_bytes then (remove pair_eqb key st, None)
          else
            let p' := mkPend (set_nth idx (Some (fr_payload f)) (pe_frags p)) (pe_rcount p + 1)
                             new_bytes (pe_expected p) (pe_total p) (pe_first_seen p) (pe_meta p) in
            if pe_rcount p' =? pe_expected p' then
              (remove pair_eqb key st, Some (mkRe (pe_meta p') (flatten_frags (pe_frags p'))))
            else (insert pair_eqb key p' st, None)
        | Some _ =>
          if pe_rcount p =? pe_expected p then
            (remove pair_eqb key st, Some (mkRe (pe_meta p) (flatten_frags (pe_frags p))))
          else (insert pair_eqb key p st, None)
        end.

(** fragment.rs:285-290 *)
Definition gc_stale (now : N) (st : Reassembler) : Reassembler :=
  filter (fun e => now - pe_first_seen (snd e) <? FRAGMENT_TIMEOUT) st.

(** What can happen to a reassembler: a fragment arrives, or the timer collects garbage. *)
Inductive rop := RFeed (now : N) (f : Fragment) | RGc (now : N).
(** One event of a history: applies the function above that the event names; no code of its own. *)
Definition rstep (st : Reassembler) (o : rop) : Reassembler * option Reassembled :=
  match o with RFeed now f => feed now st f | RGc now => (gc_stale now st, None) end.
(** A whole history, event by event; no code of its own. *)
Fixpoint rrun (st : Reassembler) (l : list rop) : Reassembler * list (rop * option Reassembled) :=
  match l with
  | [] => (st, [])
  | o :: r => let '(st1, out) := rstep st o in
              let '(st2, outs) := rrun st1 r in (st2, (o, out) :: outs)
  end.
