(** Where a subscriber continues reading after the topic's backend has been migrated.
    horus_core/src/communication/topic/mod.rs.

    Simplifications: positions are unbounded; the capacity is fixed (no code changes it) and the topic is
    backed by shared memory, so [same_data_plane] (mod.rs:1248-1250) depends on the mode alone; handles only
    subscribe (a handle that also publishes is the subject of Both.v); the migration attempted on registration
    (mod.rs:1386-1518) succeeds; epochs are not represented, so a resync may happen at any time, a superset of
    the real histories.  The steps of [handle_epoch_change] are separate operations, so that other handles can
    run in between. *)
From Verif.Base Require Import Prelude.
From Verif.Model Require Import Topology.
Local Open Scope N_scope.

(** header.rs: sequence_or_head, tail and mode. *)
Record rhdr := RHdr { r_head : N; r_tail : N; r_mode : bmode }.
(** local_state.rs:20-70 LocalState, with [l_in]: the role includes receiving. *)
Record rloc := RLoc { l_in : bool; l_mode : bmode; l_head : N; l_tail : N; l_cnt : N }.

(** types.rs [is_cross_process]: every mode but Unknown *)
Definition is_cross_process (m : bmode) : bool := match m with MUnknown => false | _ => true end.

(** mod.rs:762-772 [resynced_tail] *)
Definition resynced_tail (local_tail shared_tail new_head : N) (delivered : bool) : N :=
  if delivered then N.min (N.max local_tail shared_tail) new_head else N.min shared_tail new_head.

(** mod.rs:1193-1280 [sync_local] *)
Definition sync_local (skip : bool) (h : rhdr) (l : rloc) : rhdr * rloc :=
  let same := is_cross_process (r_mode h) in
  let tail1 := if same then N.max (l_tail l) (r_tail h) else r_tail h in
  let tail2 := if skip && (match r_mode h with MPodShm => true | _ => false end) && negb same then r_head h else tail1 in
  (match r_mode h with
   | MSpmcShm => RHdr (r_head h) (N.max (r_tail h) tail2) (r_mode h)
   | _ => h
   end,
   RLoc (l_in l) (r_mode h) (r_head h) tail2 (l_cnt l)).

Section Cap.
  Variable cap : N.

  (** mod.rs:1357-1370: a late joiner skips what has been overwritten *)
  Definition late_join (h : rhdr) (l : rloc) : rhdr * rloc :=
    if cap <? l_head l - l_tail l
    then let t := l_head l - cap in
         (RHdr (r_head h) (N.max (r_tail h) t) (r_mode h), RLoc (l_in l) (l_mode l) (l_head l) t (l_cnt l))
    else (h, l).

  (** What handles do. *)
  Inductive rop :=
  | XPublish (n : N)             (* messages are published *)
  | XMode (m : bmode)            (* a migration completes (migration.rs) *)
  | XJoin (c : nat) (m : bmode)  (* first recv of handle c, [m] being the mode it migrates a fresh topic to *)
  | XRecv (c : nat) (p : N)      (* recv hands out the message at position p *)
  | XIdle (c : nat)              (* recv returns None *)
  | XShare (c : nat)             (* a receive routine publishes its position, e.g. dispatch.rs:895-897 *)
  | XFlush (c : nat)             (* mod.rs:1898-1908 *)
  | XSync (c : nat)              (* mod.rs:1929 *)
  | XResync (c : nat).           (* mod.rs:1960-1981 *)

  (** The header, the handles, and (ghost) what each received. *)
  Record rsys := RSys { rs_hdr : rhdr; rs_loc : nat -> rloc; rs_got : list (nat * N) }.
  (** Auxiliary: update of a total function at one point (a store to one array element). *)
  Definition updr {B} (f : nat -> B) (i : nat) (b : B) : nat -> B := fun j => if Nat.eqb j i then b else f j.
  (** u32 wrapping_add(1) *)
  Definition bump (l : rloc) : rloc := RLoc (l_in l) (l_mode l) (l_head l) (l_tail l) ((l_cnt l + 1) mod 2^32).
  (** Auxiliary: assignment to one field, where the code assigns to it in place. *)
  Definition set_ltail (l : rloc) (t : N) : rloc := RLoc (l_in l) (l_mode l) (l_head l) t (l_cnt l).

  (** One event of a history: applies the function above that the event names; no code of its own. *)
  Definition r_step (s : rsys) (o : rop) : rsys :=
    let h := rs_hdr s in
    match o with
    | XPublish n => RSys (RHdr (r_head h + n) (r_tail h) (r_mode h)) (rs_loc s) (rs_got s)
    | XMode m => if is_cross_process m then RSys (RHdr (r_head h) (r_tail h) m) (rs_loc s) (rs_got s) else s
    | XJoin c m =>
        if l_in (rs_loc s c) then s else
        let '(h1, l1) := sync_local false h (rs_loc s c) in
        let '(h2, l2) := late_join h1 l1 in
        let '(h3, l3) := if is_cross_process (r_mode h2) then (h2, l2)
                         else if is_cross_process m then sync_local true (RHdr (r_head h2) (r_tail h2) m) l2
                         else sync_local true (RHdr (r_head h2) (r_tail h2) MSpscShm) l2 in
        (* mod.rs:1380 EPOCH_CHECK_INTERVAL - 1 *)
        RSys h3 (updr (rs_loc s) c (RLoc true (l_mode l3) (l_head l3) (l_tail l3) 3)) (rs_got s)
    | XRecv c p =>
        let l := rs_loc s c in
        (* the next position, or a later one if the ring has lapped this subscriber *)
        if l_in l && (l_tail l <=? p) && (p <? r_head h) && ((p =? l_tail l) || (cap <? r_head h - l_tail l))
        then RSys h (updr (rs_loc s) c (bump (set_ltail l (p + 1)))) (rs_got s ++ [(c, p)])
        else s
    | XIdle c => RSys h (updr (rs_loc s) c (bump (rs_loc s c))) (rs_got s)
    | XShare c => if l_in (rs_loc s c) then RSys (RHdr (r_head h) (l_tail (rs_loc s c)) (r_mode h)) (rs_loc s) (rs_got s) else s
    | XFlush c =>
        let l := rs_loc s c in
        if is_cross_process (l_mode l) && l_in l then RSys (RHdr (r_head h) (l_tail l) (r_mode h)) (rs_loc s) (rs_got s) else s
    | XSync c =>
        let '(h1, l1) := sync_local true h (rs_loc s c) in RSys h1 (updr (rs_loc s) c l1) (rs_got s)
    | XResync c =>
        let l := rs_loc s c in
        let t := resynced_tail (l_tail l) (r_tail h) (r_head h) (0 <? l_cnt l) in
        RSys h (updr (rs_loc s) c (RLoc (l_in l) (l_mode l) (r_head h) t (l_cnt l))) (rs_got s)
    end.
  Definition r_init : rsys := RSys (RHdr 0 0 MUnknown) (fun _ => RLoc false MUnknown 0 0 0) [].
  (** A whole history, event by event; no code of its own. *)
  Definition r_run (ops : list rop) : rsys := fold_left r_step ops r_init.
End Cap.
