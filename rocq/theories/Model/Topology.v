(** Topic control plane: the participant table, the choice of a backend, and the routines it installs.
    horus_core/src/communication/topic/header.rs and mod.rs. *)
From Verif.Base Require Import Prelude.
Local Open Scope N_scope.

(** types.rs:20-36 BackendMode *)
Inductive bmode := MUnknown | MPodShm | MMpscShm | MSpmcShm | MSpscShm | MFanoutShm.

(** types.rs:38-51 [impl From<u8> for BackendMode] and the discriminants of :20-36 *)
Definition mode_of_u8 (v : N) : bmode :=
  if v =? 6 then MPodShm else if v =? 7 then MMpscShm else if v =? 8 then MSpmcShm
  else if v =? 9 then MSpscShm else if v =? 10 then MFanoutShm else if v =? 11 then MFanoutShm else MUnknown.
(** types.rs:20-36, the discriminants *)
Definition u8_of_mode (m : bmode) : N :=
  match m with MUnknown => 0 | MPodShm => 6 | MMpscShm => 7 | MSpmcShm => 8 | MSpscShm => 9 | MFanoutShm => 11 end.

(** header.rs:612-643 [detect_optimal_backend] *)
Definition detect_optimal_backend (pubs subs : N) (is_pod : bool) : bmode :=
  if (pubs =? 0) && (subs =? 0) then MUnknown
  else if (pubs <=? 1) && (subs <=? 1) then MSpscShm
  else if (1 <? pubs) && (subs <=? 1) then MMpscShm
  else if is_pod then MPodShm
  else MFanoutShm.

(** types.rs:70-100 TopicRole *)
Inductive trole := RNone | RProducer | RConsumer | RBoth.
(** types.rs:85-87 *)
Definition can_send (r : trole) : bool := match r with RProducer | RBoth => true | _ => false end.
(** types.rs:92-94 *)
Definition can_recv (r : trole) : bool := match r with RConsumer | RBoth => true | _ => false end.

(** The routines of dispatch.rs; the flag says whether it is the POD variant. *)
Inductive send_routine := SendUninit | SendMp (pod : bool) | SendSp (pod : bool) | SendBroadcast | SendFanout.
(** The receive routines of dispatch.rs. *)
Inductive recv_routine := RecvUninit | RecvMpsc (pod : bool) | RecvSpmc (pod : bool) | RecvBroadcast | RecvFanout.

(** mod.rs:1669-1702 [resolve_send_fn] *)
Definition resolve_send_fn (mode : bmode) (is_pod : bool) (role : trole) : send_routine :=
  if negb (can_send role) then SendUninit
  else match mode with
       | MFanoutShm => SendFanout
       | MSpscShm => SendMp is_pod
       | MSpmcShm => SendSp is_pod
       | MPodShm => SendBroadcast
       | MMpscShm => SendMp is_pod
       | MUnknown => SendMp is_pod
       end.
(** mod.rs:1706-1726 [resolve_recv_fn] *)
Definition resolve_recv_fn (mode : bmode) (is_pod : bool) (role : trole) : recv_routine :=
  if negb (can_recv role) then RecvUninit
  else match mode with
       | MFanoutShm => RecvFanout
       | MSpscShm => RecvMpsc is_pod
       | MMpscShm => RecvMpsc is_pod
       | MSpmcShm => RecvSpmc is_pod
       | MPodShm => RecvBroadcast
       | MUnknown => RecvMpsc is_pod
       end.
(** mod.rs:1582-1634 [init_shm_backend]: when the fan-out region cannot be set up, SpscShm is used. *)
Definition effective_mode (mode : bmode) (fanout_ok : bool) : bmode :=
  match mode with MFanoutShm => if fanout_ok then MFanoutShm else MSpscShm | m => m end.

(** ** Participants *)

(** header.rs:29,41 *)
Definition LEASE_TIMEOUT_MS : N := 5000.
(** header.rs:41 *)
Definition MAX_PARTICIPANTS : nat := 16.

(** header.rs:45-69 ParticipantEntry.  [p_active] is the byte [active]; its value 2 (being initialised) is
    only visible while a call is running, and calls are atomic here. *)
Record part := Part { p_active : bool; p_pid : N; p_tid : N; p_role : N; p_lease : N }.
(** header.rs:82-93 [clear] *)
Definition part0 : part := Part false 0 0 0 0.

(** The participant table and its counters, header.rs:229-233 and 271. *)
Record ptab := PTab { t_parts : list part; t_pubs : N; t_subs : N; t_total : N }.
(** header.rs:368-386, in [init] *)
Definition ptab0 : ptab := PTab (repeat part0 MAX_PARTICIPANTS) 0 0 0.

(** header.rs:74-80 *)
Definition is_lease_expired (p : part) (now : N) : bool :=
  if p_lease p =? 0 then true else p_lease p <? now.
(** header.rs:84-88 *)
Definition refreshed (p : part) (now : N) : part :=
  Part (p_active p) (p_pid p) (p_tid p) (p_role p) (now + LEASE_TIMEOUT_MS).

(** AtomicU32::fetch_add(1), fetch_sub(1) *)
Definition u32_inc (n : N) : N := (n + 1) mod 2 ^ 32.
(** [AtomicU32::fetch_sub(1)], wrapping. *)
Definition u32_dec (n : N) : N := (n + (2 ^ 32 - 1)) mod 2 ^ 32.

(** Auxiliary: index of the first entry that satisfies [f]. *)
Fixpoint find_idx {A} (f : A -> bool) (l : list A) : option nat :=
  match l with
  | [] => None
  | a :: r => if f a then Some O else match find_idx f r with Some i => Some (S i) | None => None end
  end.
(** Auxiliary: store to one array element. *)
Fixpoint set_nth {A} (l : list A) (i : nat) (a : A) : list A :=
  match l, i with
  | [], _ => []
  | _ :: r, O => a :: r
  | x :: r, S i' => x :: set_nth r i' a
  end.

(** header.rs:507-509: this thread's own entry *)
Definition is_mine (pid tid : N) (p : part) : bool := p_active p && (p_pid p =? pid) && (p_tid p =? tid).
(** header.rs:532-535: an inactive entry or one whose lease is over *)
Definition is_claimable (now : N) (p : part) : bool := negb (p_active p) || is_lease_expired p now.

(** The role bits: 1 for a publisher, 2 for a subscriber. *)
Definition has_bit (role bit : N) : bool := negb (N.land role bit =? 0).

(** header.rs:513 and 559-560: the counter of the role just added *)
Definition bump (bit : N) (t : ptab) : ptab :=
  if bit =? 1 then PTab (t_parts t) (u32_inc (t_pubs t)) (t_subs t) (t_total t)
  else PTab (t_parts t) (t_pubs t) (u32_inc (t_subs t)) (t_total t).

(** header.rs:499-590 [register_role].  Simplified: one call is one step. *)
Definition register_role (pid tid bit now : N) (t : ptab) : ptab * option nat :=
  match find_idx (is_mine pid tid) (t_parts t) with
  | Some i =>
      let p := nth i (t_parts t) part0 in
      let p' := Part (p_active p) (p_pid p) (p_tid p) (N.lor (p_role p) bit) (now + LEASE_TIMEOUT_MS) in
      let t' := PTab (set_nth (t_parts t) i p') (t_pubs t) (t_subs t) (t_total t) in
      ((if has_bit (p_role p) bit then t' else bump bit t'), Some i)
  | None =>
      match find_idx (is_claimable now) (t_parts t) with
      | Some i =>
          let p := nth i (t_parts t) part0 in
          let pubs := if p_active p && has_bit (p_role p) 1 then u32_dec (t_pubs t) else t_pubs t in
          let subs := if p_active p && has_bit (p_role p) 2 then u32_dec (t_subs t) else t_subs t in
          (bump bit (PTab (set_nth (t_parts t) i (Part true pid tid bit (now + LEASE_TIMEOUT_MS))) pubs subs (u32_inc (t_total t))),
           Some i)
      | None => (t, None)
      end
  end.

(** mod.rs:1522-1530 [refresh_lease] of a handle that was given slot [i]. *)
Definition refresh_slot (i : nat) (now : N) (t : ptab) : ptab :=
  if (i <? length (t_parts t))%nat
  then PTab (set_nth (t_parts t) i (refreshed (nth i (t_parts t) part0) now)) (t_pubs t) (t_subs t) (t_total t)
  else t.

(** A history: a thread registers as publisher or subscriber, or a handle refreshes its lease. *)
Inductive pop := OReg (pid tid : N) (publisher : bool) (now : N) | ORefresh (i : nat) (now : N).
(** The bit of a role, header.rs:489-496. *)
Definition role_bit (publisher : bool) : N := if publisher then 1 else 2.
(** One event of a history: applies the function above that the event names; no code of its own. *)
Definition p_step (t : ptab) (o : pop) : ptab :=
  match o with
  | OReg pid tid b now => fst (register_role pid tid (role_bit b) now t)
  | ORefresh i now => refresh_slot i now t
  end.
(** A whole history, event by event; no code of its own. *)
Definition p_run (h : list pop) : ptab := fold_left p_step h ptab0.
