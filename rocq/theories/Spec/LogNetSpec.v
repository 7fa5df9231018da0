(** Vocabulary for log entries sent to other machines. *)
From Coq Require Import String.
From Verif.Base Require Import Prelude Bytes Str.
From Verif.Model Require Import LogEntry LogNet.
Local Open Scope N_scope.
Local Open Scope list_scope.

(** What should arrive of an entry: its node with the host before it, its text, and its type as far as the format has it. *)
Definition image (host : bytes) (e : entry) : remote :=
  mkRemote (host ++ bs "/" ++ le_node e) (match le_type e with Publish | Subscribe => Info | t => t end) (le_message e).
(** Text that the format carries: text, and not longer than its length field can say. *)
Definition carried (s : bytes) : Prop := utf8 s = true /\ (N.of_nat (length s) < 65536).
(** Both texts of an entry are. *)
Definition carried_entry (e : entry) : Prop := carried (le_node e) /\ carried (le_message e).
(** What happens to a log with a sender: an entry is pushed; the sender polls, where [between] are the entries pushed between its two looks at the
    buffer and [late] says that 100 ms have passed since it last sent. *)
Inductive lop := LPush (e : entry) | LPoll (between : list entry) (late : bool).
(** The log, the sender, and what it handed to the network. *)
Record LState := mkL { l_log : list entry; l_drain : LogDrain; l_out : list bytes }.
(** One event. *)
Definition lstep (cap : nat) (s : LState) (o : lop) : LState :=
  match o with
  | LPush e => mkL (l_log s ++ [e]) (l_drain s) (l_out s)
  | LPoll between late =>
      let log := l_log s ++ between in
      let (d, p) := poll cap (l_drain s) (length (l_log s)) log late in
      mkL log d (l_out s ++ match p with Some x => [x] | None => [] end)
  end.
(** A history. *)
Definition lrun (cap : nat) (s : LState) (ops : list lop) : LState := fold_left (lstep cap) ops s.
(** All that is pushed in a history. *)
Fixpoint pushed (ops : list lop) : list entry :=
  match ops with [] => [] | LPush e :: r => e :: pushed r | LPoll b _ :: r => b ++ pushed r end.
(** No push falls between the two looks of a poll. *)
Fixpoint undisturbed (ops : list lop) : Prop := match ops with [] => True | LPush _ :: r => undisturbed r | LPoll b _ :: r => b = [] /\ undisturbed r end.
(** Fewer than [cap] entries are pushed between two polls, [n] being those since the last. *)
Fixpoint keeps_up (cap n : nat) (ops : list lop) : Prop :=
  match ops with [] => True | LPush _ :: r => (n < cap)%nat /\ keeps_up cap (S n) r | LPoll b _ :: r => keeps_up cap (length b) r end.
(** Everything received of these payloads, one after the other; [None] if the receiver panics. *)
Fixpoint received (lossy : bytes -> bytes) (ps : list bytes) : option (list remote) :=
  match ps with
  | [] => Some []
  | p :: r => match handle_remote_logs lossy p, received lossy r with Some a, Some b => Some (a ++ b) | _, _ => None end
  end.
