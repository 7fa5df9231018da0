(** A fan-out topic: a matrix of channels, one per publisher slot and subscriber slot, and the
    registration of endpoints.  horus_core/src/communication/topic/shm_fanout.rs:440-975 and the callers
    send_fanout_shm, recv_fanout_shm of dispatch.rs:504-691, Drop of mod.rs:2567-2584.

    Simplified: every call is one step.  The races inside one channel are in Seqlock.v, and
    [C05_turn_by_turn] shows that the channel used here is what that code does when calls do not
    overlap.  Message contents are of any type [A]; the serialised variants differ only in refusing
    oversized messages and are not modelled here. *)
From Verif.Base Require Import Prelude.

(** shm_fanout.rs:83 *)
Definition MAX_FANOUT_ENDPOINTS : nat := 16.

(** One channel: everything ever published in it and the two counters [head] (= length of the log)
    and [tail] (shm_fanout.rs:185-216). *)
Record fch (A : Type) := FCh { fc_log : list A; fc_tail : nat }.
Arguments FCh {A}. Arguments fc_log {A}. Arguments fc_tail {A}.

(** The endpoint table of one side (FanoutShmMeta, shm_fanout.rs:115-180): active bits, owner PIDs, and
    which handle holds the lock file of each slot. *)
Record side := Side { sd_active : nat -> bool; sd_pid : nat -> nat; sd_lock : nat -> option nat }.

Section Fanout.
  Context {A : Type}.
  (** Endpoints per side, channel capacity, and the process a handle lives in. *)
  Variables (M : nat) (cap : nat) (pid_of : nat -> nat).

  (** shm_fanout.rs:253 (try_send_pod), :274 (try_recv_pod), :375 (reset_tail_to_head); seqlock.rs:111-160
      with nobody in the middle of a write.  The second result of a read is what was skipped. *)
  Definition fc_send (a : A) (c : fch A) : fch A := FCh (fc_log c ++ [a]) (fc_tail c).
  (** [try_recv_pod], shm_fanout.rs:274, with seqlock.rs:111-160: the newest message still unread, and how many were skipped. *)
  Definition fc_recv (c : fch A) : option (A * fch A * nat) :=
    let h := length (fc_log c) in
    let next := if cap <? h - fc_tail c then h - cap else fc_tail c in
    match nth_error (fc_log c) next with
    | Some a => Some (a, FCh (fc_log c) (S next), next - fc_tail c)
    | None => None
    end.
  (** [reset_tail_to_head], shm_fanout.rs:375. *)
  Definition fc_reset (c : fch A) : fch A := FCh (fc_log c) (length (fc_log c)).

  (** The matrix: channels, active bits, and each side's handles. *)
  Record fsys := FSys {
    fs_chan : nat -> nat -> fch A;
    fs_pub : side; fs_sub : side;
    fs_hpub : nat -> option nat;   (* fanout_shm_pub_id of each handle *)
    fs_hsub : nat -> option nat;   (* fanout_shm_sub_id *)
    fs_cursor : nat -> nat;        (* recv_cursors[sub_id] of the handle's own ring view *)
    fs_missed : nat -> nat         (* local.missed *)
  }.

  (** Auxiliary: update of a total function at one point (a store to one array element). *)
  Definition set1 {B} (f : nat -> B) (i : nat) (b : B) : nat -> B := fun j => if Nat.eqb j i then b else f j.

  (** shm_fanout.rs:720-775.  The lock of a slot can be taken exactly when no handle holds it. *)
  Fixpoint claim_from (n i : nat) (h : nat) (sd : side) : option nat * side :=
    match n with
    | O => (None, sd)
    | S n' =>
        match sd_lock sd i with
        | Some _ => claim_from n' (S i) h sd
        | None =>
            if Nat.eqb (sd_pid sd i) (pid_of h) && sd_active sd i then claim_from n' (S i) h sd
            else (Some i, Side (set1 (sd_active sd) i true) (set1 (sd_pid sd) i (pid_of h))
                               (set1 (sd_lock sd) i (Some h)))
        end
    end.
  (** [claim_endpoint], shm_fanout.rs:720-775: scan from slot 0. *)
  Definition claim_endpoint (h : nat) (sd : side) : option nat * side := claim_from M 0 h sd.

  (** shm_fanout.rs:680-692, then the lock is released (mod.rs:2582) *)
  Definition deregister (i : nat) (sd : side) : side :=
    Side (set1 (sd_active sd) i false) (set1 (sd_pid sd) i 0) (set1 (sd_lock sd) i None).

  (** shm_fanout.rs:844-862 *)
  Fixpoint send_loop (n s : nat) (p : nat) (a : A) (act : nat -> bool) (ch : nat -> nat -> fch A) : nat -> nat -> fch A :=
    match n with
    | O => ch
    | S n' =>
        let ch' := if act s then fun p' s' => if Nat.eqb p' p && Nat.eqb s' s then fc_send a (ch p s) else ch p' s' else ch in
        send_loop n' (S s) p a act ch'
    end.
  (** [send_pod], shm_fanout.rs:844-862: to every active subscriber. *)
  Definition send_pod (p : nat) (a : A) (act : nat -> bool) (ch : nat -> nat -> fch A) := send_loop M 0 p a act ch.

  (** shm_fanout.rs:869-897 *)
  Fixpoint recv_loop (n off start : nat) (s : nat) (act : nat -> bool) (ch : nat -> nat -> fch A)
    : option (A * nat * fch A * nat) :=
    match n with
    | O => None
    | S n' =>
        let p := (start + off) mod M in
        if act p then
          match fc_recv (ch p s) with
          | Some (a, c', sk) => Some (a, p, c', sk)
          | None => recv_loop n' (S off) start s act ch
          end
        else recv_loop n' (S off) start s act ch
    end.

  (** shm_fanout.rs:655-670 and :812-823 *)
  Definition reset_sub (s : nat) (ch : nat -> nat -> fch A) : nat -> nat -> fch A :=
    fun p' s' => if Nat.eqb s' s && (p' <? M) then fc_reset (ch p' s') else ch p' s'.

  (** What callers see. *)
  Inductive fevent :=
  | FSent (h : nat) (a : A)         (* send returned Ok *)
  | FRefused (h : nat) (a : A)      (* send returned Err: no endpoint slot *)
  | FGot (h : nat) (a : A)          (* recv returned Some *)
  | FNone (h : nat).                (* recv returned None *)

  (** The public calls, and process death, as events. *)
  Inductive fop :=
  | OSend (h : nat) (a : A)
  | ORecv (h : nat)
  | ODrop (h : nat)                 (* the handle is dropped *)
  | OCrash (pid : nat).             (* the process dies: the OS releases its locks, nothing else happens *)

  (** dispatch.rs:504-612 *)
  Definition f_send (h : nat) (a : A) (s : fsys) : fsys * list fevent :=
    let '(slot, pub) := match fs_hpub s h with
                        | Some p => (Some p, fs_pub s)
                        | None => claim_endpoint h (fs_pub s)
                        end in
    match slot with
    | None => (s, [FRefused h a])
    | Some p =>
        (FSys (send_pod p a (sd_active (fs_sub s)) (fs_chan s)) pub (fs_sub s)
              (set1 (fs_hpub s) h (Some p)) (fs_hsub s) (fs_cursor s) (fs_missed s), [FSent h a])
    end.

  (** dispatch.rs:617-691 *)
  Definition f_recv (h : nat) (s : fsys) : fsys * list fevent :=
    let '(slot, sub, ch) := match fs_hsub s h with
                        | Some i => (Some i, fs_sub s, fs_chan s)
                        | None => let '(o, sd) := claim_endpoint h (fs_sub s) in
                                  match o with Some i => (Some i, sd, reset_sub i (fs_chan s)) | None => (None, sd, fs_chan s) end
                        end in
    match slot with
    | None => (s, [FNone h])
    | Some i =>
        match recv_loop M 0 (fs_cursor s h mod M) i (sd_active (fs_pub s)) ch with
        | Some (a, p, c', sk) =>
            (FSys (fun p' s' => if Nat.eqb p' p && Nat.eqb s' i then c' else ch p' s') (fs_pub s) sub
                  (fs_hpub s) (set1 (fs_hsub s) h (Some i)) (set1 (fs_cursor s) h (S p))
                  (set1 (fs_missed s) h (fs_missed s h + sk)), [FGot h a])
        | None =>
            (FSys ch (fs_pub s) sub (fs_hpub s) (set1 (fs_hsub s) h (Some i)) (fs_cursor s) (fs_missed s), [FNone h])
        end
    end.

  (** mod.rs:2573-2584 *)
  Definition f_drop (h : nat) (s : fsys) : fsys :=
    FSys (fs_chan s)
         (match fs_hpub s h with Some p => deregister p (fs_pub s) | None => fs_pub s end)
         (match fs_hsub s h with Some i => deregister i (fs_sub s) | None => fs_sub s end)
         (set1 (fs_hpub s) h None) (set1 (fs_hsub s) h None) (fs_cursor s) (fs_missed s).

  (** Process death: its handles are gone and its locks released; bits and PIDs stay. *)
  Definition unlock (pid : nat) (sd : side) : side :=
    Side (sd_active sd) (sd_pid sd)
         (fun i => match sd_lock sd i with Some h => if Nat.eqb (pid_of h) pid then None else Some h | None => None end).
  (** Process death: locks released, bits and PIDs stay. *)
  Definition f_crash (pid : nat) (s : fsys) : fsys :=
    let gone f := fun h => if Nat.eqb (pid_of h) pid then None else f h : option nat in
    FSys (fs_chan s) (unlock pid (fs_pub s)) (unlock pid (fs_sub s)) (gone (fs_hpub s)) (gone (fs_hsub s))
         (fs_cursor s) (fs_missed s).

  (** One event of a history: applies the function above that the event names; no code of its own. *)
  Definition f_step (s : fsys) (o : fop) : fsys * list fevent :=
    match o with
    | OSend h a => f_send h a s
    | ORecv h => f_recv h s
    | ODrop h => (f_drop h s, [])
    | OCrash pid => (f_crash pid s, [])
    end.
  (** A whole history, event by event; no code of its own. *)
  Fixpoint f_run (s : fsys) (ops : list fop) : fsys * list fevent :=
    match ops with
    | [] => (s, [])
    | o :: r => let '(s1, e1) := f_step s o in let '(s2, e2) := f_run s1 r in (s2, e1 ++ e2)
    end.

  (** shm_fanout.rs:464-515: everything zero. *)
  Definition side0 : side := Side (fun _ => false) (fun _ => 0) (fun _ => None).
  (** A new matrix: everything zero, shm_fanout.rs:464-515. *)
  Definition f_init : fsys :=
    FSys (fun _ _ => FCh [] 0) side0 side0 (fun _ => None) (fun _ => None) (fun _ => 0) (fun _ => 0).
  (** The state reached by a schedule; no code of its own. *)
  Definition f_final (ops : list fop) : fsys := fst (f_run f_init ops).
  (** What an outside observer sees of a schedule; no code of its own. *)
  Definition f_trace (ops : list fop) : list fevent := snd (f_run f_init ops).
End Fanout.
Arguments fsys : clear implicits.
Arguments fevent : clear implicits.
Arguments fop : clear implicits.
