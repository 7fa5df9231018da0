(** What being visible means. *)
From Coq Require Import String.
From Verif.Base Require Import Prelude Bytes Str.
From Verif.Model Require Import ShmFiles Presence.
Open Scope list_scope.

(** What was last said about a node. *)
Definition announced (h : list pevent) (name : bytes) : option precord :=
  fold_left (fun acc e =>
    match e with
    | Announce n r => if beqb n name then Some r else acc
    | Withdraw n => if beqb n name then None else acc
    | _ => acc
    end) h None.

(** The process that now has a number: its start time. *)
Definition running (h : list pevent) (pid : N) : option N :=
  fold_left (fun acc e =>
    match e with
    | Run p s => if (p =? pid)%N then Some s else acc
    | Exit p => if (p =? pid)%N then None else acc
    | _ => acc
    end) h None.

(** Processes have start times, and no number is used twice with the same one; a
    record is written by the running process it names, for a name the check accepts. *)
Definition proper (h : list pevent) : Prop :=
  forall pre e post, h = pre ++ e :: post ->
    match e with
    | Run p s => s <> 0%N /\ ~ In (Run p s) pre
    | Announce n r => node_name_ok n = true /\ running pre (pr_pid r) = Some (pr_start r)
    | _ => True
    end.

(** A name that does not look like a record about another machine. *)
Definition plain_name (n : bytes) : Prop :=
  node_name_ok n = true /\ ~ (exists r, n = bs "remote_" ++ r) /\ ~ (exists r, n = bs "bridged_" ++ r).

(** Only one writer. *)
Definition by_one (w : nat) (c : wcall) : Prop :=
  match c with WOpenTmp k | WRename k | WDie k => k = w | WWrite k _ => k = w end.

(** When a host was last heard: the time of its last broadcast that was accepted. *)
Definition heard (ns : bytes) (h : list revent) (host : bytes) : option (N * pcast) :=
  fold_left (fun acc e =>
    match e with
    | Cast now d => match get_cast ns d with Some c => if beqb (c_host c) host then Some (now, c) else acc | None => acc end
    | CleanHosts _ => acc
    end) h None.

(** The time of the last event. *)
Definition last_time (h : list revent) : N :=
  fold_left (fun _ e => match e with Cast n _ | CleanHosts n => n end) h 0%N.
(** This machine's clock never goes back (the code uses [Instant]). *)
Definition ordered (h : list revent) : Prop := forall pre e post, h = pre ++ e :: post ->
  (last_time pre <= match e with Cast n _ | CleanHosts n => n end)%N.
